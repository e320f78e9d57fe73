(** Proofs for C103: the elements of the vector that a call does not list neither
    influence it nor are changed by it. *)
From Coq Require Import NArith.
From Verif Require Import Base HMModel HMProofs DSModel DSSpec DSSpec2 DSRun DSModel5 DSProofs DSProofs10.
Local Open Scope outcome_scope.
Local Open Scope list_scope.
Set Implicit Arguments.

(** the same elements at the positions [ns] *)
Definition agree {A} (ns : list nat) (v v' : list A) : Prop := forall i, In i ns -> nth_error v i = nth_error v' i.
(** the same elements everywhere else *)
Definition kept {A} (ns : list nat) (v v' : list A) : Prop := forall i, ~ In i ns -> nth_error v i = nth_error v' i.

Lemma vec_at_agree {A} (v v' : list A) i ns : agree ns v v' -> In i ns -> vec_at v i = vec_at v' i.
Proof. intros H I. unfold vec_at. now rewrite (H i I). Qed.
Lemma set_agree {A} (v v' : list A) ns i a : length v = length v' -> agree ns v v' -> agree ns (vec_set v i a) (vec_set v' i a).
Proof.
  intros L H j Hj. destruct (Nat.eq_dec i j) as [->|N].
  - destruct (lt_dec j (length v)) as [B|B].
    + rewrite vec_set_same by exact B. rewrite vec_set_same by (rewrite <- L; exact B). reflexivity.
    + rewrite (proj2 (nth_error_None (vec_set v j a) j)) by (rewrite vec_set_length; lia).
      rewrite (proj2 (nth_error_None (vec_set v' j a) j)) by (rewrite vec_set_length; lia). reflexivity.
  - rewrite (@vec_set_other A v i j a N), (@vec_set_other A v' i j a N). apply H, Hj.
Qed.
Lemma kept_set {A} (v : list A) ns i a : In i ns -> kept ns (vec_set v i a) v.
Proof. intros I j N. apply vec_set_other. intros ->. auto. Qed.
Lemma kept_trans {A} (u v w : list A) ns : kept ns u v -> kept ns v w -> kept ns u w.
Proof. intros H1 H2 i N. rewrite (H1 i N). apply H2, N. Qed.
Lemma kept_incl {A} (u v : list A) ns ns' : incl ns ns' -> kept ns u v -> kept ns' u v.
Proof. intros S H i N. apply H. intros I. apply N, S, I. Qed.
Lemma kept_refl {A} (v : list A) ns : kept ns v v.
Proof. intros i N. reflexivity. Qed.

Section Coherent.
Variable K : Type.
Variable eqb : K -> K -> bool.
Variable E : machine.
Variable ee : bool.

(** a call on two disjoint sets that differ only in elements it does not list *)
Definition coh A (m : traced K A) : Prop := forall ids v v', length v = length v' ->
  agree (nodes (snd (m (DSet ids v)))) v v' ->
  let r := m (DSet ids v) in let r' := m (DSet ids v') in
  snd r' = snd r /\ snd (fst r') = snd (fst r) /\ ds_ids (fst (fst r')) = ds_ids (fst (fst r)) /\
  length (ds_data (fst (fst r))) = length (ds_data (fst (fst r'))) /\
  agree (nodes (snd r)) (ds_data (fst (fst r))) (ds_data (fst (fst r'))) /\
  kept (nodes (snd r)) (ds_data (fst (fst r))) v /\ kept (nodes (snd r)) (ds_data (fst (fst r'))) v'.

Lemma co_then A B (m : traced K A) (f : A -> traced K B) : coh m -> (forall a, coh (f a)) -> coh (then_t m f).
Proof.
  intros Hm Hf ids v v' L. unfold then_t. destruct (m (DSet ids v)) as [[[ids1 v1] o] t] eqn:Q1.
  intros G. assert (G1 : agree (nodes t) v v').
  { intros i I. apply G. destruct o as [a| | | |]; auto. destruct (f a (DSet ids1 v1)). cbn [snd]. rewrite nodes_app. apply in_or_app. auto. }
  specialize (Hm ids v v' L). rewrite Q1 in Hm. specialize (Hm G1). destruct (m (DSet ids v')) as [[[ids1' v1'] o'] t'] eqn:Q2.
  cbn [fst snd ds_ids ds_data] in Hm. destruct Hm as (A1 & A2 & A3 & A4 & A5 & A6 & A7). subst t' o' ids1'.
  destruct o as [a| | | |]; [|cbn [fst snd ds_data ds_ids]; auto 10..].
  destruct (f a (DSet ids1 v1)) as [[[ids2 v2] o2] t2] eqn:Q3. cbn [snd] in G. rewrite nodes_app in G.
  assert (G2 : agree (nodes t2) v1 v1').
  { intros i I. destruct (in_dec Nat.eq_dec i (nodes t)) as [J|J]; [auto|]. rewrite (A6 i J), (A7 i J). apply G, in_or_app. auto. }
  specialize (Hf a ids1 v1 v1' A4). rewrite Q3 in Hf. specialize (Hf G2). destruct (f a (DSet ids1 v1')) as [[[ids2' v2'] o2'] t2'].
  cbn [fst snd ds_ids ds_data] in *. destruct Hf as (B1 & B2 & B3 & B4 & B5 & B6 & B7). subst t2' o2' ids2'.
  rewrite nodes_app. do 4 (split; [auto|]). split; [|split].
  - intros i I. destruct (in_dec Nat.eq_dec i (nodes t2)) as [J|J]; [auto|]. rewrite (B6 i J), (B7 i J).
    apply in_app_or in I as [I|I]; [auto|tauto].
  - intros i N. rewrite (B6 i), (A6 i); auto; intros I; apply N, in_or_app; auto.
  - intros i N. rewrite (B7 i), (A7 i); auto; intros I; apply N, in_or_app; auto.
Qed.

(** a call that does not look at the vector *)
Lemma co_plain A (o : hmap K nat -> nat -> outcome A) (t : hmap K nat -> nat -> list (access K)) (ids : hmap K nat -> hmap K nat) :
  coh (fun s => ((DSet (ids (ds_ids s)) (ds_data s), o (ds_ids s) (length (ds_data s))), t (ds_ids s) (length (ds_data s)))).
Proof. intros i v v' L G. cbn [fst snd ds_ids ds_data] in *. rewrite <- L. repeat split; auto; apply kept_refl. Qed.
Lemma co_ext A (m m' : traced K A) : (forall s, m s = m' s) -> coh m -> coh m'.
Proof. intros H C ids v v' L. rewrite <- (H (DSet ids v)), <- (H (DSet ids v')). apply (C ids v v' L). Qed.
Lemma co_ret A (a : outcome A) : coh (fun s => ((s, a), [])).
Proof. apply (@co_ext _ (fun s => ((DSet (ds_ids s) (ds_data s), a), []))); [intros []; reflexivity|]. exact (@co_plain A (fun _ _ => a) (fun _ _ => []) (fun i => i)). Qed.
Lemma co_get x : coh (ds_get_t eqb x).
Proof.
  apply (@co_ext _ (fun s => ((DSet (ds_ids s) (ds_data s), Ret (hm_get eqb x (ds_ids s))), [Look x]))); [intros []; reflexivity|].
  exact (@co_plain _ (fun i _ => Ret (hm_get eqb x i)) (fun _ _ => [Look x]) (fun i => i)).
Qed.
Lemma co_make_or_get x : coh (ds_make_or_get_t eqb E ee x).
Proof.
  intros ids v v' L. unfold ds_make_or_get_t. cbn [ds_ids ds_data]. rewrite <- L.
  destruct (hm_entry eqb E x ids) as [[i|]| | | |]; cbn [fst snd ds_ids ds_data]; intros G.
  - repeat split; auto; apply kept_refl.
  - unfold vec_push in *. rewrite <- L in *. destruct (length v + 1 <=? alloc_max E); cbn [fst snd ds_ids ds_data] in *.
    + rewrite nodes_app in *. cbn [nodes flat_map app] in *. repeat split; auto.
      * rewrite !app_length. now rewrite L.
      * intros i I. apply in_app_or in I as [I|I].
        { exfalso. destruct (ee || negb (hm_contains eqb x ids)); exact I. }
        destruct I as [<-|[]]. rewrite nth_error_app2 by lia. rewrite nth_error_app2 by lia. now rewrite L.
      * intros i N. destruct (lt_dec i (length v)) as [B|B]; [now rewrite nth_error_app1|].
        destruct (Nat.eq_dec i (length v)) as [->|B2]; [exfalso; apply N, in_or_app; right; left; reflexivity|].
        rewrite (proj2 (nth_error_None _ _)), (proj2 (nth_error_None _ _)); auto; try rewrite app_length; cbn; lia.
      * intros i N. destruct (lt_dec i (length v)) as [B|B]; [rewrite nth_error_app1; auto; lia|].
        destruct (Nat.eq_dec i (length v)) as [->|B2]; [exfalso; apply N, in_or_app; right; left; reflexivity|].
        rewrite (proj2 (nth_error_None _ _)), (proj2 (nth_error_None _ _)); auto; try rewrite app_length; cbn; lia.
    + rewrite nodes_app in *. cbn [nodes flat_map app] in *. repeat split; auto; apply kept_refl.
  - repeat split; auto; apply kept_refl.
  - repeat split; auto; apply kept_refl.
  - repeat split; auto; apply kept_refl.
  - repeat split; auto; apply kept_refl.
Qed.
Lemma co_omap A B (f : A -> B) (m : traced K A) : coh m -> coh (fun s => match m s with ((s', o), t) => ((s', omap f o), t) end).
Proof.
  intros H ids v v' L. specialize (H ids v v' L). destruct (m (DSet ids v)) as [[s1 o] t], (m (DSet ids v')) as [[s1' o'] t']. cbn [fst snd] in *.
  intros G. specialize (H G). destruct H as (A1 & -> & H). split; [exact A1|]. split; [reflexivity|]. exact H.
Qed.

(** reading one element of the vector, and writing its parent or rank *)
Definition rd (i : nat) : traced K data := fun s =>
  match vec_at (ds_data s) i with Ret d => ((s, Ret d), [Node i]) | _ => ((s, Panic), []) end.
Definition wr (i : nat) (f : data -> data) : traced K unit := fun s =>
  match vec_at (ds_data s) i with Ret d => ((DSet (ds_ids s) (vec_set (ds_data s) i (f d)), Ret tt), [Node i]) | _ => ((s, Panic), []) end.
Lemma at_same (v v' : list data) i ns : length v = length v' -> agree ns v v' -> (forall d, vec_at v i = Ret d -> In i ns) -> vec_at v i = vec_at v' i.
Proof.
  intros L G H. unfold vec_at in *. destruct (nth_error v i) as [d|] eqn:Q.
  - rewrite <- (G i (H d eq_refl)), Q. reflexivity.
  - apply nth_error_None in Q. rewrite (proj2 (nth_error_None v' i)) by lia. reflexivity.
Qed.
Lemma co_rd i : coh (rd i).
Proof.
  intros ids v v' L G. unfold rd in *. cbn [ds_data] in *.
  assert (Q : vec_at v i = vec_at v' i).
  { apply (@at_same v v' i _ L G). intros d ->. left. reflexivity. }
  rewrite <- Q. destruct (vec_at v i); cbn [fst snd ds_ids ds_data] in *; repeat split; auto; apply kept_refl.
Qed.
Lemma co_wr i f : coh (wr i f).
Proof.
  intros ids v v' L G. unfold wr in *. cbn [ds_data ds_ids] in *.
  assert (Q : vec_at v i = vec_at v' i).
  { apply (@at_same v v' i _ L G). intros d ->. left. reflexivity. }
  rewrite <- Q. destruct (vec_at v i); cbn [fst snd ds_ids ds_data] in *; (repeat split; auto; try apply kept_refl).
  - now rewrite !vec_set_length.
  - now apply set_agree.
  - apply kept_set. left. reflexivity.
  - apply kept_set. left. reflexivity.
Qed.
Fixpoint findm (fuel i : nat) : traced K nat :=
  match fuel with
  | 0 => fun s => ((s, NoFuel), [])
  | S n => then_t (rd i) (fun d => if parent d =? i then fun s => ((s, Ret (parent d)), [])
      else then_t (findm n (parent d)) (fun p => then_t (wr i (fun d1 => Data p (rank d1))) (fun _ s => ((s, Ret p), []))))
  end.
Lemma co_findm fuel : forall i, coh (findm fuel i).
Proof.
  induction fuel as [|n IH]; intros i; [apply co_ret|]. cbn [findm]. apply co_then; [apply co_rd|]. intros d.
  destruct (parent d =? i); [apply co_ret|]. apply co_then; [apply IH|]. intros p. apply co_then; [apply co_wr|]. intros _. apply co_ret.
Qed.
Lemma findm_is fuel : forall i (s : dset K), findm fuel i s =
  let r := ds_find_t fuel (ds_data s) i in ((DSet (ds_ids s) (fst (fst r)), snd (fst r)), map (fun i => Node i) (snd r)).
Proof.
  induction fuel as [|n IH]; intros i [ids v]; [reflexivity|]. cbn [findm ds_find_t ds_data ds_ids]. unfold then_t at 1, rd. cbn [ds_data].
  destruct (vec_at v i) as [d| | | |]; try reflexivity. destruct (parent d =? i); [reflexivity|].
  unfold then_t at 1. rewrite IH. cbn [ds_data ds_ids]. destruct (ds_find_t n v (parent d)) as [[v1 o] t]. cbn [fst snd].
  destruct o as [p| | | |]; try reflexivity. unfold then_t, wr. cbn [ds_data ds_ids]. destruct (vec_at v1 i); cbn [fst snd app map]; rewrite ?map_app; cbn [map app]; rewrite ?app_nil_r; reflexivity.
Qed.
Lemma co_find_in i : coh (ds_find_in_t (K := K) i).
Proof.
  intros ids v v' L. pose proof (@co_findm (S (length v)) i ids v v' L) as H.
  rewrite !findm_is in H. unfold ds_find_in_t. cbn [ds_data ds_ids] in *. rewrite <- L. revert H.
  destruct (ds_find_t (S (length v)) v i) as [[v1 o] t], (ds_find_t (S (length v)) v' i) as [[v1' o'] t']. exact (fun H => H).
Qed.
Definition linkm (a b : nat) : traced K unit :=
  then_t (rd a) (fun da => then_t (rd b) (fun db =>
  let lower := (rank da <? rank db)%N in
  let hi := if lower then b else a in
  let lo := if lower then a else b in
  then_t (wr lo (fun d => Data hi (rank d))) (fun _ =>
  then_t (rd hi) (fun dh => then_t (rd lo) (fun dl =>
  if (rank dh =? rank dl)%N then
    match rank_incr E (rank dh) with
    | Ret r => wr hi (fun d => Data (parent d) r)
    | _ => fun s => ((s, Panic), [Node hi])
    end
  else fun s => ((s, Ret tt), [])))))).
Lemma vec_at_set {A} (v : list A) i j a d : vec_at v i = Ret d -> exists d', vec_at (vec_set v j a) i = Ret d'.
Proof.
  unfold vec_at. intros H. destruct (nth_error v i) eqn:Q; [|discriminate]. assert (B : i < length v) by (apply nth_error_Some; congruence).
  destruct (nth_error (vec_set v j a) i) eqn:Q2; [eauto|]. apply nth_error_None in Q2. rewrite vec_set_length in Q2. lia.
Qed.
Lemma then_rd A i (f : data -> traced K A) s : then_t (rd i) f s =
  match vec_at (ds_data s) i with Ret d => (fst (f d s), Node i :: snd (f d s)) | _ => ((s, Panic), []) end.
Proof. unfold then_t, rd. destruct (vec_at (ds_data s) i); try reflexivity. now destruct (f a s). Qed.
Lemma then_wr A i g (f : unit -> traced K A) s : then_t (wr i g) f s =
  match vec_at (ds_data s) i with
  | Ret d => let s1 := DSet (ds_ids s) (vec_set (ds_data s) i (g d)) in (fst (f tt s1), Node i :: snd (f tt s1))
  | _ => ((s, Panic), [])
  end.
Proof. unfold then_t, wr. destruct (vec_at (ds_data s) i); try reflexivity. cbn. now destruct (f tt _). Qed.
Lemma linkm_is a b (s : dset K) : ds_link_t E a b s = linkm a b s.
Proof.
  destruct s as [ids v]. unfold ds_link_t, linkm. rewrite then_rd. cbn [ds_data ds_ids].
  destruct (vec_at v a) as [da| | | |] eqn:QA; try reflexivity. rewrite then_rd. cbn [ds_data ds_ids].
  destruct (vec_at v b) as [db| | | |] eqn:QB; try reflexivity.
  set (lower := (rank da <? rank db)%N). cbv zeta. rewrite then_wr. cbn [ds_data ds_ids].
  assert (L : exists dlo, vec_at v (if lower then a else b) = Ret dlo) by (destruct lower; eauto). destruct L as (dlo & QL). rewrite QL. cbv zeta.
  rewrite then_rd. cbn [ds_data ds_ids].
  assert (H0 : exists d, vec_at v (if lower then b else a) = Ret d) by (destruct lower; eauto). destruct H0 as (d0 & Q0).
  destruct (vec_at_set v _ (if lower then a else b) (Data (if lower then b else a) (rank dlo)) Q0) as (dh & QH). rewrite QH.
  rewrite then_rd. cbn [ds_data ds_ids].
  destruct (vec_at_set v _ (if lower then a else b) (Data (if lower then b else a) (rank dlo)) QL) as (dl & QL2). rewrite QL2.
  destruct (rank dh =? rank dl)%N; [|reflexivity]. destruct (rank_incr E (rank dh)); try reflexivity. unfold wr. cbn [ds_data ds_ids]. rewrite QH. reflexivity.
Qed.
Lemma co_node_panic i A : coh (fun s : dset K => ((s, @Panic A), [Node i])).
Proof.
  intros ids v v' L G. cbn [fst snd ds_ids ds_data] in *. repeat split; auto; apply kept_refl.
Qed.
Lemma co_link a b : coh (ds_link_t E a b).
Proof.
  apply (@co_ext _ (linkm a b)); [intros s; symmetry; apply linkm_is|]. unfold linkm. apply co_then; [apply co_rd|]. intros da.
  apply co_then; [apply co_rd|]. intros db. apply co_then; [apply co_wr|]. intros _. apply co_then; [apply co_rd|]. intros dh.
  apply co_then; [apply co_rd|]. intros dl. destruct (rank dh =? rank dl)%N; [|apply co_ret].
  destruct (rank_incr E (rank dh)); try apply co_node_panic. apply co_wr.
Qed.
Lemma co_union a b : coh (ds_union_t eqb E ee a b).
Proof.
  apply co_then; [apply co_make_or_get|]. intros ia. apply co_then; [apply co_make_or_get|]. intros ib.
  apply co_then; [apply co_find_in|]. intros ra. apply co_then; [apply co_find_in|]. intros rb. destruct (ra =? rb); [apply co_ret|apply co_link].
Qed.
Lemma co_in_union a b : coh (ds_in_union_t eqb a b).
Proof.
  apply co_then; [apply co_get|]. intros [ia|]; [|apply co_ret]. apply co_then; [apply co_get|]. intros [ib|]; [|apply co_ret].
  apply co_then; [apply co_find_in|]. intros ra. apply co_then; [apply co_find_in|]. intros rb. apply co_ret.
Qed.
Lemma co_group (l : hmap K nat) : forall m, coh (ds_group_t E l m).
Proof.
  induction l as [|[k i] l IH]; intros m; [apply co_ret|]. cbn [ds_group_t]. apply co_then; [apply co_find_in|]. intros r.
  destruct (ds_group_push E r k m) as [m1 [[]| | | |]]; try apply co_ret. apply IH.
Qed.
Lemma co_make x : coh (ds_make_set_t eqb E ee x).
Proof. apply co_omap, co_make_or_get. Qed.
Lemma co_makes xs : coh (ds_makes_t eqb E ee xs).
Proof. induction xs as [|x xs IH]; [apply co_ret|]. cbn [ds_makes_t]. apply co_then; [apply co_make|]. intros _. exact IH. Qed.
Lemma co_reserve n : coh (ds_reserve_t E n).
Proof.
  intros ids v v' L G. unfold ds_reserve_t, ds_reserve, vec_reserve in *. cbn [ds_ids ds_data fst snd] in *. rewrite <- L in *.
  repeat split; auto; apply kept_refl.
Qed.
Lemma co_extend h xs : coh (ds_extend_t eqb E ee h xs).
Proof. apply co_then; [apply co_reserve|]. intros _. apply co_makes. Qed.
Lemma co_step o : o <> OClear -> coh (ds_step_t eqb E ee o).
Proof.
  intros NC.
  assert (U : forall m : traced K unit, coh m -> coh (fun s => (unit_out (fst (m s)), snd (m s)))).
  { intros m H. apply (@co_ext _ (fun s => match m s with ((s', o), t) => ((s', omap (fun _ => RUnit) o), t) end)); [|now apply co_omap].
    intros s. destruct (m s) as [[s1 o1] t1]. reflexivity. }
  destruct o; cbn [ds_step_t].
  - apply U, co_make.
  - apply U, co_union.
  - apply U, co_extend.
  - apply U. unfold ds_extend_ref_t. rewrite map_id. apply co_extend.
  - now destruct NC.
  - apply U, co_reserve.
  - apply (@co_ext _ (fun s => ((DSet (ds_ids s) (ds_data s), Ret (RBool (hm_contains eqb x (ds_ids s)))), [Look x]))); [intros []; reflexivity|].
    exact (@co_plain _ (fun i _ => Ret (RBool (hm_contains eqb x i))) (fun _ _ => [Look x]) (fun i => i)).
  - apply (co_omap (RBool (K := K)) (co_in_union a b)).
  - apply (@co_ext _ (fun s => ((DSet (ds_ids s) (ds_data s), Ret (RBool (length (ds_ids s) =? 0))), []))); [intros []; reflexivity|].
    exact (@co_plain _ (fun i _ => Ret (RBool (length i =? 0))) (fun _ _ => []) (fun i => i)).
  - apply (@co_ext _ (fun s => ((DSet (ds_ids s) (ds_data s), Ret (RNat (length (ds_ids s)))), []))); [intros []; reflexivity|].
    exact (@co_plain _ (fun i _ => Ret (RNat (length i))) (fun _ _ => []) (fun i => i)).
  - intros ids v v' L. cbn [ds_ids].
    pose proof (co_omap (fun it : set_iter K => RSets (drain (S (length it)) it)) (co_omap (fun m => si_new (pick m)) (co_group (order ids) []))) as H.
    exact (H ids v v' L).
Qed.
End Coherent.
