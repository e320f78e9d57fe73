(** Proofs for C104: the room a disjoint set demands for its table and its vector. *)
From Coq Require Import NArith.
From Verif Require Import Base HMModel HMProofs CTSpec5 CTProofs8 DSModel DSSpec DSSpec2 DSRun DSModel5 DSProofs DSProofs10.
Local Open Scope outcome_scope.
Local Open Scope list_scope.
Set Implicit Arguments.

Section Room.
Variable K : Type.
Variable eqb : K -> K -> bool.
Variable E : machine.
Variable ee : bool.

(** the table ([true]) or the vector: how much it holds, what is demanded of it *)
Definition held (w : bool) (s : dset K) : nat := if w then length (ds_ids s) else length (ds_data s).
Definition demand (w : bool) (t : list (access K)) : list nat := if w then ids_demanded t else data_demanded t.
Lemma demand_app w t t' : demand w (t ++ t') = demand w t ++ demand w t'.
Proof. destruct w; apply flat_map_app. Qed.
Lemma demand_nodes w ns : demand w (map (fun i => Node i) ns) = [].
Proof. destruct w; [apply ids_nodes|apply data_nodes]. Qed.

Definition gr w A (m : traced K A) : Prop := forall s s' o t, m s = ((s', o), t) ->
  held w s <= held w s' /\ (forall d, In d (demand w t) -> d <= S (held w s')) /\
  (held w s' <= held w s \/ exists d, In d (demand w t) /\ d <= alloc_max E /\ held w s' <= d).

Lemma gr_then w A B (m : traced K A) (f : A -> traced K B) : gr w m -> (forall a, gr w (f a)) -> gr w (then_t m f).
Proof.
  intros Hm Hf s s' o t. unfold then_t. destruct (m s) as [[s1 o1] t1] eqn:Q. specialize (Hm _ _ _ _ Q). destruct Hm as (A1 & A2 & A3).
  destruct o1 as [a| | | |]; try (intros X; injection X as <- <- <-; auto). destruct (f a s1) as [[s2 o2] t2] eqn:Q2.
  specialize (Hf a _ _ _ _ Q2). destruct Hf as (B1 & B2 & B3). intros X; injection X as <- <- <-. rewrite demand_app. split; [lia|]. split.
  - intros d Hd. apply in_app_or in Hd as [Hd|Hd]; [specialize (A2 d Hd); lia|auto].
  - destruct B3 as [B3|(d & I & L & B3)].
    + destruct A3 as [A3|(d & I & L & A3)]; [left; lia|]. right. exists d. rewrite in_app_iff. repeat split; auto; lia.
    + right. exists d. rewrite in_app_iff. auto.
Qed.
Lemma gr_still w A (o : dset K -> outcome A) t : (forall s, demand w (t s) = []) -> gr w (fun s => ((s, o s), t s)).
Proof. intros H s s' o1 t1 X. injection X as <- <- <-. rewrite H. split; [lia|]. split; [intros d F; destruct F|left; lia]. Qed.
Lemma gr_make_or_get w x : gr w (ds_make_or_get_t eqb E ee x).
Proof.
  intros s s' o t. unfold ds_make_or_get_t, hm_entry, hm_contains. destruct (hm_get eqb x (ds_ids s)) as [i|] eqn:Q.
  - intros X; injection X as <- <- <-. split; [lia|]. cbn [negb]. rewrite orb_false_r. split; [|left; lia].
    destruct ee, w; cbn; unfold held; intros d Hd; lia.
  - cbn [negb]. rewrite orb_true_r. unfold hm_reserve. destruct (Nat.leb_spec (length (ds_ids s) + 1) (alloc_max E)) as [H|H]; cbn [obind].
    + unfold vec_push. destruct (Nat.leb_spec (length (ds_data s) + 1) (alloc_max E)) as [H'|H']; intros X; injection X as <- <- <-; destruct w;
        unfold held, hm_insert_vacant; cbn [ds_ids ds_data length demand app ids_demanded data_demanded flat_map In]; rewrite ?app_length; cbn [length].
      * split; [lia|]. split; [intros d Hd; lia|]. right. eexists. split; [left; reflexivity|]. lia.
      * split; [lia|]. split; [intros d Hd; lia|]. right. eexists. split; [left; reflexivity|]. lia.
      * split; [lia|]. split; [intros d Hd; lia|]. right. eexists. split; [left; reflexivity|]. lia.
      * split; [lia|]. split; [intros d Hd; lia|]. left; lia.
    + intros X; injection X as <- <- <-. split; [lia|]. split; [|left; lia]. destruct w; unfold held; cbn; intros d Hd; lia.
Qed.
Lemma find_length fuel : forall v i, length (fst (fst (ds_find_t fuel v i))) = length v.
Proof.
  induction fuel as [|n IH]; intros v i; [reflexivity|]. cbn [ds_find_t]. destruct (vec_at v i) as [d| | | |]; try reflexivity.
  destruct (parent d =? i); [reflexivity|]. specialize (IH v (parent d)). destruct (ds_find_t n v (parent d)) as [[v1 o] t]. cbn [fst] in IH.
  destruct o; try exact IH. destruct (vec_at v1 i); cbn [fst]; rewrite ?vec_set_length; exact IH.
Qed.
Lemma gr_find w i : gr w (ds_find_in_t (K := K) i).
Proof.
  intros s s' o t. unfold ds_find_in_t. pose proof (find_length (S (length (ds_data s))) (ds_data s) i) as L.
  destruct (ds_find_t (S (length (ds_data s))) (ds_data s) i) as [[v o1] t1]. cbn [fst] in L. intros X; injection X as <- <- <-.
  rewrite demand_nodes. assert (Q : held w (DSet (ds_ids s) v) = held w s) by (destruct w; cbn; auto). rewrite Q.
  split; [lia|]. split; [intros d F; destruct F|left; lia].
Qed.
Lemma link_held w a b (s : dset K) : held w (fst (fst (ds_link_t E a b s))) = held w s.
Proof.
  unfold ds_link_t. repeat match goal with |- context [match ?x with _ => _ end] => destruct x end; destruct w; cbn [held fst ds_ids ds_data]; rewrite ?vec_set_length; reflexivity.
Qed.
Lemma gr_link w a b : gr w (ds_link_t E a b).
Proof.
  intros s s' o t X. destruct (link_snd E a b s) as (ns & Q & _). pose proof (link_held w a b s) as L. rewrite X in *. cbn [fst snd] in *. subst t.
  rewrite demand_nodes, L. split; [lia|]. split; [intros d F; destruct F|left; lia].
Qed.
Lemma gr_union w a b : gr w (ds_union_t eqb E ee a b).
Proof.
  apply gr_then; [apply gr_make_or_get|]. intros ia. apply gr_then; [apply gr_make_or_get|]. intros ib. apply gr_then; [apply gr_find|]. intros ra.
  apply gr_then; [apply gr_find|]. intros rb. destruct (ra =? rb); [|apply gr_link]. exact (@gr_still w _ (fun _ => Ret tt) (fun _ => []) ltac:(destruct w; reflexivity)).
Qed.
Lemma gr_ret w A (o : outcome A) : gr w (fun s : dset K => ((s, o), [])).
Proof. exact (@gr_still w _ (fun _ => o) (fun _ => []) ltac:(destruct w; reflexivity)). Qed.
Lemma gr_get w x : gr w (ds_get_t eqb x).
Proof. exact (@gr_still w _ (fun s => Ret (hm_get eqb x (ds_ids s))) (fun _ => [Look x]) ltac:(destruct w; reflexivity)). Qed.
Lemma gr_in_union w a b : gr w (ds_in_union_t eqb a b).
Proof.
  apply gr_then; [apply gr_get|]. intros [ia|]; [|apply gr_ret]. apply gr_then; [apply gr_get|]. intros [ib|]; [|apply gr_ret].
  apply gr_then; [apply gr_find|]. intros ra. apply gr_then; [apply gr_find|]. intros rb. apply gr_ret.
Qed.
Lemma gr_group w (l : hmap K nat) : forall m, gr w (ds_group_t E l m).
Proof.
  induction l as [|[k i] l IH]; intros m; [apply gr_ret|]. cbn [ds_group_t]. apply gr_then; [apply gr_find|]. intros r.
  destruct (ds_group_push E r k m) as [m1 [[]| | | |]]; try apply gr_ret. apply IH.
Qed.
Lemma gr_omap w A B (f : A -> B) (m : traced K A) : gr w m -> gr w (fun s => match m s with ((s', o), t) => ((s', omap f o), t) end).
Proof. intros H s s' o t. destruct (m s) as [[s1 o1] t1] eqn:Q. intros X; injection X as <- <- <-. exact (H _ _ _ _ Q). Qed.
Lemma gr_makes w xs : gr w (ds_makes_t eqb E ee xs).
Proof.
  induction xs as [|x xs IH]; [apply gr_ret|]. cbn [ds_makes_t]. apply gr_then; [|intros _; exact IH]. apply gr_omap, gr_make_or_get.
Qed.
Lemma gr_extend w h xs s s' o t : ds_extend_t eqb E ee h xs s = ((s', o), t) ->
  held w s <= held w s' /\ (forall d, In d (demand w t) -> d <= S (held w s') \/ d = held w s + h) /\
  (held w s' <= held w s \/ exists d, In d (demand w t) /\ d <= alloc_max E /\ held w s' <= d) /\
  (o = Ret tt -> In (held w s + h) (demand w t)).
Proof.
  unfold ds_extend_t, then_t. destruct (ds_reserve_t E h s) as [[s1 o1] t1] eqn:Q. unfold ds_reserve_t, ds_reserve in Q. injection Q as <- Qo <-.
  assert (D1 : forall d, In d (demand w (DataRoom (length (ds_data s) + h) ::
     match vec_reserve E h (ds_data s) with Ret _ => [IdsRoom (length (ds_ids s) + h)] | _ => [] end)) -> d = held w s + h).
  { intros d. destruct (vec_reserve E h (ds_data s)), w; cbn; unfold held; intuition. }
  destruct o1 as [u| | | |].
  - assert (V : exists u, vec_reserve E h (ds_data s) = Ret u) by (destruct (vec_reserve E h (ds_data s)); try discriminate; eauto). destruct V as (u' & V).
    rewrite V in *. destruct (ds_makes_t eqb E ee xs s) as [[s2 o2] t2] eqn:Q2. intros X; injection X as <- <- <-.
    destruct (@gr_makes w xs _ _ _ _ Q2) as (B1 & B2 & B3).
    change (DataRoom (length (ds_data s) + h) :: IdsRoom (length (ds_ids s) + h) :: t2)
      with ([DataRoom (length (ds_data s) + h); IdsRoom (length (ds_ids s) + h)] ++ t2). rewrite demand_app. split; [exact B1|]. split; [|split].
    + intros d Hd. apply in_app_or in Hd as [Hd|Hd]; auto.
    + destruct B3 as [B3|(d & I & L & B3)]; [left; lia|]. right. exists d. rewrite in_app_iff. auto.
    + intros _. rewrite in_app_iff. left. destruct w; cbn; auto.
  - intros X; injection X as <- <- <-. split; [lia|]. split; [auto|]. split; [left; lia|discriminate].
  - intros X; injection X as <- <- <-. split; [lia|]. split; [auto|]. split; [left; lia|discriminate].
  - intros X; injection X as <- <- <-. split; [lia|]. split; [auto|]. split; [left; lia|discriminate].
  - intros X; injection X as <- <- <-. split; [lia|]. split; [auto|]. split; [left; lia|discriminate].
Qed.
Lemma dm_step w o s s' r t : ds_step_t eqb E ee o s = ((s', r), t) ->
  (forall d, In d (demand w t) -> d <= S (Nat.max (held w s) (held w s')) \/ exists h, announced o = Some h /\ d = held w s + h) /\
  (held w s' <= held w s \/ exists d, In d (demand w t) /\ d <= alloc_max E /\ held w s' <= d).
Proof.
  assert (G : forall A (m : traced K A) o1 t1, gr w m -> m s = ((s', o1), t1) ->
    (forall d, In d (demand w t1) -> d <= S (Nat.max (held w s) (held w s')) \/ exists h, announced o = Some h /\ d = held w s + h) /\
    (held w s' <= held w s \/ exists d, In d (demand w t1) /\ d <= alloc_max E /\ held w s' <= d)).
  { intros A m o1 t1 H Q. destruct (H _ _ _ _ Q) as (B1 & B2 & B3). split; [|exact B3]. intros d Hd. left. specialize (B2 d Hd). lia. }
  assert (GX : forall h xs o1 t1, announced o = Some h -> ds_extend_t eqb E ee h xs s = ((s', o1), t1) ->
    (forall d, In d (demand w t1) -> d <= S (Nat.max (held w s) (held w s')) \/ exists h, announced o = Some h /\ d = held w s + h) /\
    (held w s' <= held w s \/ exists d, In d (demand w t1) /\ d <= alloc_max E /\ held w s' <= d)).
  { intros h xs o1 t1 An Q. destruct (@gr_extend w h xs _ _ _ _ Q) as (B1 & B2 & B3 & _). split; [|exact B3]. intros d Hd.
    destruct (B2 d Hd) as [B| ->]; [left; lia|right; eauto]. }
  destruct o; cbn [ds_step_t unit_out fst snd].
  - destruct (ds_make_set_t eqb E ee x s) as [[s1 o1] t1] eqn:Q. intros X; injection X as <- <- <-. eapply G; [|exact Q]. apply gr_omap, gr_make_or_get.
  - destruct (ds_union_t eqb E ee a b s) as [[s1 o1] t1] eqn:Q. intros X; injection X as <- <- <-. eapply G; [|exact Q]. apply gr_union.
  - destruct (ds_extend_t eqb E ee hint xs s) as [[s1 o1] t1] eqn:Q. intros X; injection X as <- <- <-. eapply GX; [|exact Q]. reflexivity.
  - unfold ds_extend_ref_t. rewrite map_id. fold (ds_extend_t eqb E ee hint xs).
    destruct (ds_extend_t eqb E ee hint xs s) as [[s1 o1] t1] eqn:Q. intros X; injection X as <- <- <-. eapply GX; [|exact Q]. reflexivity.
  - intros X; injection X as <- <- <-. split; [destruct w; intros d F; destruct F|left; destruct w; cbn; lia].
  - intros X; injection X as <- <- <-. split; [|left; lia]. intros d Hd. right. exists n. split; [reflexivity|].
    revert Hd. destruct (vec_reserve E n (ds_data s)), w; cbn; unfold held; intuition.
  - intros X; injection X as <- <- <-. split; [destruct w; intros d F; destruct F|left; lia].
  - destruct (ds_in_union_t eqb a b s) as [[s1 o1] t1] eqn:Q. intros X; injection X as <- <- <-. eapply G; [|exact Q]. apply gr_in_union.
  - intros X; injection X as <- <- <-. split; [destruct w; intros d F; destruct F|left; lia].
  - intros X; injection X as <- <- <-. split; [destruct w; intros d F; destruct F|left; lia].
  - unfold ds_into_iter_t. destruct (ds_group_t E (order (ds_ids s)) [] s) as [[s1 o1] t1] eqn:Q. intros X; injection X as <- <- <-.
    eapply G; [|exact Q]. apply gr_group.
Qed.
Theorem run_fits w g ops : forall s s' tr t h h', ds_run_t eqb E ee ops s = ((s', tr), t) -> held w s <= h ->
  granted (alloc_max E) g h (demand w t) h' -> held w s' <= h'.
Proof.
  induction ops as [|o ops IH]; intros s s' tr t h h'; cbn [ds_run_t].
  - intros X; injection X as <- <- <-. intros L G. replace (demand w []) with (@nil nat) in G by (destruct w; reflexivity). inversion G; subst. exact L.
  - destruct (ds_step_t eqb E ee o s) as [[s1 r1] t1] eqn:Q. destruct (ds_run_t eqb E ee ops s1) as [[s2 tr2] t2] eqn:Q2.
    intros X; injection X as <- <- <-. intros L. rewrite demand_app. intros G. apply granted_split in G as (h1 & G1 & G2).
    apply (IH _ _ _ _ h1 h' Q2); [|exact G2]. apply dm_step with (w := w) in Q as [_ Q]. apply granted_grows in G1 as [Gr Gd].
    destruct Q as [Q|(d & I & Ld & Q)]; [lia|]. specialize (Gd d I Ld). lia.
Qed.
Theorem run_bound w g ops : forall s s' tr t h h' P B, ds_run_t eqb E ee ops s = ((s', tr), t) ->
  (forall ops1 ops2, ops = ops1 ++ ops2 -> held w (fst (ds_run eqb E ops1 s)) < P /\
     forall o ops3 n, ops2 = o :: ops3 -> announced o = Some n -> held w (fst (ds_run eqb E ops1 s)) + n <= P) ->
  (forall d, d <= P -> g d <= B) -> h <= B -> granted (alloc_max E) g h (demand w t) h' -> h' <= B.
Proof.
  intros s s' tr t h h' P B X HP Hg Hh G. apply (granted_le G); [exact Hh|]. clear h Hh G. intros d Hd. apply Hg. revert s s' tr t d X HP Hd.
  induction ops as [|o ops IH]; intros s s' tr t d X HP Hd; cbn [ds_run_t] in X.
  - injection X as <- <- <-. destruct w; destruct Hd.
  - destruct (ds_step_t eqb E ee o s) as [[s1 r1] t1] eqn:Q. destruct (ds_run_t eqb E ee ops s1) as [[s2 tr2] t2] eqn:Q2.
    injection X as <- <- <-. rewrite demand_app, in_app_iff in Hd. destruct Hd as [Hd|Hd].
    + destruct (HP [] (o :: ops) eq_refl) as [P0 PA]. cbn in P0.
      destruct (HP [o] ops eq_refl) as [P1 _]. cbn [ds_run] in P1. rewrite <- (er_step eqb E ee), Q in P1. cbn in P1.
      destruct (proj1 (dm_step w o s Q) d Hd) as [D|(n & An & ->)]; [lia|]. exact (PA o ops n eq_refl An).
    + apply (IH s1 s2 tr2 t2 d Q2); [|exact Hd]. intros ops1 ops2 ->. destruct (HP (o :: ops1) ops2 eq_refl) as [P1 PA]. cbn [ds_run] in P1, PA.
      rewrite <- (er_step eqb E ee), Q in P1, PA. cbn [fst] in P1, PA. destruct (ds_run eqb E ops1 s1). exact (conj P1 PA).
Qed.
Lemma dm_from_iter w h xs s t : ds_from_iter_t eqb E ee h xs = (Ret s, t) ->
  In h (demand w t) /\ forall d, In d (demand w t) -> d <= S (held w s) \/ d = h.
Proof.
  unfold ds_from_iter_t, ds_with_capacity_t, ds_with_capacity, hm_reserve, vec_reserve. cbn [length Nat.add].
  destruct (h <=? alloc_max E) eqn:Q; cbn [obind]; [|discriminate].
  destruct (ds_makes_t eqb E ee xs (DSet [] [])) as [[s1 o1] t1] eqn:Q2. intros X. injection X as X <-. unfold ds_finish in X. cbn [fst snd] in X.
  destruct o1 as [[]| | | |]; try discriminate. injection X as <-. destruct (@gr_makes w xs _ _ _ _ Q2) as (_ & B & _).
  change (IdsRoom h :: DataRoom h :: t1) with ([IdsRoom h; DataRoom h] ++ t1). rewrite demand_app. split.
  - apply in_or_app. left. destruct w; left; reflexivity.
  - intros d Hd. apply in_app_or in Hd as [Hd|Hd]; [right|left; auto]. destruct w; destruct Hd as [<-|[]]; reflexivity.
Qed.
End Room.
