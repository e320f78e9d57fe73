(** Proofs about the disjoint set: [Hash] and [Eq] that break their contracts. *)
From Coq Require Import Permutation NArith.
From Verif Require Import Base HMModel HMProofs DSModel DSSpec DSRun DSRun3 DSProofs DSProofs2 DSProofs3 DSProofs4.
Local Open Scope outcome_scope.
Set Implicit Arguments.

Section Proofs.
Variable K : Type.
Variable E : machine.
Hypothesis U : (N.log2 (N.of_nat (alloc_max E)) < u32_max)%N.
Variable eqb : K -> K -> bool.
Implicit Types (s : dset K) (t : dset nat) (x a b : K).

Notation reach := (reachable Nat.eqb E (fun n => n)).
Notation nvalid := (valid Nat.eqb E).
Notation sl := (slots_of (K := K)).

Lemma reach_valid t : reach t -> nvalid t.
Proof. intros R. exact (proj1 (reachable_valid nat_laws U Nat.eqb_refl R)). Qed.

Lemma sl_len s t : sl s t -> length (ds_ids t) = length (ds_ids s).
Proof. intros [_ P]. rewrite <- (Permutation_length P). apply map_length. Qed.

Lemma sl_same s t e : sl s t -> In e (ds_ids t) -> fst e = snd e /\ In (snd e) (map snd (ds_ids s)).
Proof.
  intros [_ P] I. apply (Permutation_in _ (Permutation_sym P)) in I. apply in_map_iff in I.
  destruct I as (e0 & <- & I). cbn. split; auto. apply in_map_iff. exists e0; auto.
Qed.

Lemma slot_found s t x i : sl s t -> nvalid t -> hm_get eqb x (ds_ids s) = Some i ->
  hm_entry_of Nat.eqb i (ds_ids t) = Some (i, i).
Proof.
  intros S (W & _) H. unfold hm_get in H. destruct (hm_entry_of eqb x (ds_ids s)) as [[k j]|] eqn:Q; [|discriminate].
  injection H as <-. cbn. apply entry_of_some in Q. destruct Q as [I _].
  apply (wf_iff nat_laws j (j, j) W). split; [|cbn; apply Nat.eqb_refl]. destruct S as [_ P].
  apply (Permutation_in _ P). apply in_map_iff. exists (k, j). auto.
Qed.

Lemma slot_fresh s t : sl s t -> nvalid t -> hm_entry_of Nat.eqb (length (ds_ids s)) (ds_ids t) = None.
Proof.
  intros S V. apply entry_of_none. intros e I. destruct (sl_same _ S I) as [Q _].
  destruct V as (_ & _ & _ & P & _). apply (in_map snd) in I. apply (Permutation_in _ P) in I. apply in_seq in I.
  rewrite (sl_len S) in I. rewrite Q. apply Nat.eqb_neq. lia.
Qed.

Lemma make_slots x s t s' o : sl s t -> nvalid t -> ds_make_or_get eqb E x s = (s', o) ->
  exists t', ds_make_or_get Nat.eqb E (slot eqb s x) t = (t', o) /\ sl s' t'.
Proof.
  intros S V H. unfold ds_make_or_get, hm_entry, slot in *. destruct (hm_get eqb x (ds_ids s)) as [i|] eqn:Q.
  - injection H as <- <-. unfold hm_get. rewrite (slot_found x S V Q). cbn. eauto.
  - unfold hm_get at 1. rewrite (slot_fresh S V). cbn [option_map]. unfold hm_reserve in *. pose proof S as [D P].
    pose proof (sl_len S) as Ln. rewrite Ln. destruct (length (ds_ids s) + 1 <=? alloc_max E); cbn [obind] in *.
    + rewrite D. destruct (vec_push E (ds_data s) (data_new (length (ds_ids s)))); injection H as <- <-;
        (eexists; split; [reflexivity|]; split; [auto|]; cbn; now apply perm_skip).
    + injection H as <- <-. eauto.
Qed.

Lemma make_set_slots x s t s' o : sl s t -> reach t -> ds_make_set eqb E x s = (s', o) ->
  exists t', ds_make_set Nat.eqb E (slot eqb s x) t = (t', o) /\ sl s' t' /\ reach t'.
Proof.
  intros S R H. unfold ds_make_set in H. destruct (ds_make_or_get eqb E x s) as [s1 o1] eqn:M.
  destruct (make_slots x S (reach_valid R) M) as (t' & M' & S'). injection H as <- <-.
  assert (X : ds_make_set Nat.eqb E (slot eqb s x) t = (t', omap (fun _ => tt) o1)) by (unfold ds_make_set; now rewrite M').
  exists t'. split; auto. split; auto. eapply r_step with (o := OMake (slot eqb s x)); [exact R|exact I|].
  unfold ds_step. rewrite X. reflexivity.
Qed.

Lemma makes_slots xs s t s' o : sl s t -> reach t -> for_each (ds_make_set eqb E) xs s = (s', o) ->
  exists t', for_each (ds_make_set Nat.eqb E) (slots E eqb s xs) t = (t', o) /\ sl s' t' /\ reach t'.
Proof.
  revert s t. induction xs as [|x xs IH]; intros s t S R H; cbn in *.
  - injection H as <- <-. eauto.
  - destruct (ds_make_set eqb E x s) as [s1 o1] eqn:M. destruct (make_set_slots x S R M) as (t1 & M1 & S1 & R1).
    rewrite M1. cbn [fst] in *. destruct o1 as [[]| | | |]; try (injection H as <- <-; eauto). now apply IH.
Qed.

Lemma find_slots i s t s' o : sl s t -> ds_find_in i s = (s', o) ->
  exists t', ds_find_in i t = (t', o) /\ sl s' t' /\ ds_ids s' = ds_ids s.
Proof.
  intros [D P] H. unfold ds_find_in in *. rewrite D. destruct (ds_find (Datatypes.S (length (ds_data s))) (ds_data s) i) as [v r].
  injection H as <- <-. eexists. split; [reflexivity|]. split; [split; auto|auto].
Qed.

Lemma union_slots a b s t s' o : sl s t -> reach t -> ds_union eqb E a b s = (s', o) ->
  exists t', ds_union Nat.eqb E (slot eqb s a) (slot eqb (fst (ds_make_set eqb E a s)) b) t = (t', o) /\ sl s' t'.
Proof.
  intros S R H. unfold ds_union in *. unfold ds_make_set. destruct (ds_make_or_get eqb E a s) as [s1 o1] eqn:M1. cbn [fst].
  destruct (make_slots a S (reach_valid R) M1) as (t1 & N1 & S1). rewrite N1.
  destruct o1 as [ia| | | |]; try (injection H as <- <-; eauto; fail).
  assert (R1 : reach t1).
  { eapply r_step with (o := OMake (slot eqb s a)); [exact R|exact I|]. unfold ds_step, ds_make_set. rewrite N1. reflexivity. }
  destruct (ds_make_or_get eqb E b s1) as [s2 o2] eqn:M2.
  destruct (make_slots b S1 (reach_valid R1) M2) as (t2 & N2 & S2). rewrite N2.
  destruct o2 as [ib| | | |]; try (injection H as <- <-; eauto; fail).
  destruct (ds_find_in ia s2) as [s3 o3] eqn:M3. destruct (find_slots ia S2 M3) as (t3 & N3 & S3 & _). rewrite N3.
  destruct o3 as [ra| | | |]; try (injection H as <- <-; eauto; fail).
  destruct (ds_find_in ib s3) as [s4 o4] eqn:M4. destruct (find_slots ib S3 M4) as (t4 & N4 & S4 & _). rewrite N4.
  destruct o4 as [rb| | | |]; try (injection H as <- <-; eauto; fail).
  destruct (ra =? rb); [injection H as <- <-; eauto|]. destruct S4 as [D P]. rewrite D.
  destruct (ds_link E (ds_data s4) ra rb) as [v ol]. injection H as <- <-. eexists. split; [reflexivity|]. split; auto.
Qed.

Lemma get_slot s t x : sl s t -> nvalid t ->
  hm_get Nat.eqb (slot eqb s x) (ds_ids t) = match hm_get eqb x (ds_ids s) with Some i => Some i | None => None end.
Proof.
  intros S V. unfold slot. destruct (hm_get eqb x (ds_ids s)) as [i|] eqn:Q; unfold hm_get at 1.
  - rewrite (slot_found x S V Q). reflexivity.
  - rewrite (slot_fresh S V). reflexivity.
Qed.

Lemma in_union_slots a b s t s' o : sl s t -> nvalid t -> ds_in_union eqb a b s = (s', o) ->
  exists t', ds_in_union Nat.eqb (slot eqb s a) (slot eqb s b) t = (t', o) /\ sl s' t'.
Proof.
  intros S V H. unfold ds_in_union in *. rewrite !(get_slot _ S V).
  destruct (hm_get eqb a (ds_ids s)) as [ia|]; [|injection H as <- <-; eauto].
  destruct (hm_get eqb b (ds_ids s)) as [ib|]; [|injection H as <- <-; eauto].
  destruct (ds_find_in ia s) as [s3 o3] eqn:M3. destruct (find_slots ia S M3) as (t3 & N3 & S3 & _). rewrite N3.
  destruct o3 as [ra| | | |]; try (injection H as <- <-; eauto; fail).
  destruct (ds_find_in ib s3) as [s4 o4] eqn:M4. destruct (find_slots ib S3 M4) as (t4 & N4 & S4 & _). rewrite N4.
  destruct o4 as [rb| | | |]; try (injection H as <- <-; eauto; fail).
Qed.
End Proofs.

(** ** Iteration: the elements only travel along *)
Section Carry.
Variables A B : Type.
Variable f : A * nat -> B.
Variable E : machine.

(** the groups of entries, as groups of elements *)
Definition gmap (g : hmap nat (list (A * nat))) : hmap nat (list B) := map (fun e => (fst e, map f (snd e))) g.

Lemma gmap_get r g : hm_get Nat.eqb r (gmap g) = option_map (map f) (hm_get Nat.eqb r g).
Proof.
  unfold hm_get. induction g as [|[r' l] g IH]; cbn; auto. destruct (r =? r'); cbn; auto.
Qed.
Lemma gmap_set r l g : hm_set Nat.eqb r (map f l) (gmap g) = gmap (hm_set Nat.eqb r l g).
Proof. induction g as [|[r' l'] g IH]; cbn; auto. destruct (r =? r'); cbn; [reflexivity|]. f_equal. exact IH. Qed.

Lemma carry_push r (e : A * nat) g : ds_group_push E r (f e) (gmap g) =
  (gmap (fst (ds_group_push E r e g)), snd (ds_group_push E r e g)).
Proof.
  unfold ds_group_push, hm_or_insert, hm_entry, hm_reserve. rewrite gmap_get.
  assert (Lg : length (gmap g) = length g) by apply map_length. rewrite Lg.
  destruct (hm_get Nat.eqb r g) as [l|]; cbn [option_map].
  - unfold vec_push. rewrite map_length. destruct (length l + 1 <=? alloc_max E); cbn; auto.
    change [f e] with (map f [e]). rewrite <- map_app. now rewrite gmap_set.
  - destruct (length g + 1 <=? alloc_max E); cbn [obind]; [|reflexivity].
    unfold vec_push. cbn [length]. destruct (0 + 1 <=? alloc_max E); cbn [fst snd]; [|reflexivity].
    unfold hm_insert_vacant. change ((r, []) :: gmap g) with (gmap ((r, []) :: g)).
    change ([] ++ [f e]) with (map f [e]). now rewrite gmap_set.
Qed.

Lemma carry_group l (s : dset B) (s0 : dset (A * nat)) g : ds_data s = ds_data s0 ->
  let r0 := ds_group E (map (fun e => (e, snd e)) l) s0 g in
  ds_group E (map (fun e => (f e, snd e)) l) s (gmap g) =
    (DSet (ds_ids s) (ds_data (fst r0)), omap gmap (snd r0)).
Proof.
  revert s s0 g. induction l as [|e l IH]; intros s s0 g D; cbn [map ds_group].
  - cbn. rewrite <- D. destruct s; reflexivity.
  - unfold ds_find_in. rewrite D. destruct (ds_find (S (length (ds_data s0))) (ds_data s0) (snd e)) as [v o].
    destruct o as [r| | | |]; try reflexivity. rewrite carry_push.
    destruct (ds_group_push E r e g) as [g1 o1]. cbn [fst snd]. destruct o1; try reflexivity.
    apply (IH (DSet (ds_ids s) v) (DSet (ds_ids s0) v) g1 eq_refl).
Qed.
End Carry.

Lemma push_all A E r (e : A) g g' : ds_group_push E r e g = (g', Ret tt) ->
  Permutation (concat (map snd g) ++ [e]) (concat (map snd g')).
Proof.
  unfold ds_group_push, hm_or_insert, hm_entry, hm_reserve. intros H.
  destruct (hm_get Nat.eqb r g) as [l|] eqn:Q.
  - unfold vec_push in H. destruct (length l + 1 <=? alloc_max E); [|discriminate]. injection H as <-. revert Q.
    unfold hm_get. induction g as [|[r' l'] g IH]; cbn; [discriminate|]. destruct (r =? r'); cbn; intros Q.
    + injection Q as ->. rewrite <- !app_assoc. apply Permutation_app_head, Permutation_app_comm.
    + rewrite <- app_assoc. apply Permutation_app_head. auto.
  - destruct (length g + 1 <=? alloc_max E); cbn [obind] in H; [|discriminate]. unfold vec_push in H.
    destruct (length (@nil A) + 1 <=? alloc_max E); [|discriminate]. injection H as <-.
    unfold hm_insert_vacant. cbn. rewrite Nat.eqb_refl. cbn. apply Permutation_sym, Permutation_cons_append.
Qed.

Lemma group_all A E l (s0 s1 : dset (A * nat)) g g' :
  ds_group E (map (fun e => (e, snd e)) l) s0 g = (s1, Ret g') ->
  Permutation (concat (map snd g) ++ l) (concat (map snd g')).
Proof.
  revert s0 g. induction l as [|e l IH]; intros s0 g H; cbn [map ds_group] in H.
  - injection H as <- <-. now rewrite app_nil_r.
  - destruct (ds_find_in (snd e) s0) as [s2 [r| | | |]]; try discriminate.
    destruct (ds_group_push E r e g) as [g1 [[]| | | |]] eqn:P; try discriminate.
    eapply Permutation_trans; [|exact (IH _ _ H)]. change (e :: l) with ([e] ++ l). rewrite app_assoc.
    apply Permutation_app_tail. exact (push_all _ _ _ _ P).
Qed.

(** an order that puts [m] into the order [m'] *)
Definition swapping {A} (dec : forall a b : A, {a = b} + {a <> b}) (m m' l : list A) : list A :=
  if list_eq_dec dec l m then m' else l.
Lemma swapping_ok {A} (dec : forall a b : A, {a = b} + {a <> b}) m m' : Permutation m m' ->
  (forall l, Permutation l (swapping dec m m' l)) /\ swapping dec m m' m = m'.
Proof.
  intros P. unfold swapping. split.
  - intros l. destruct (list_eq_dec dec l m); [now subst|auto].
  - destruct (list_eq_dec dec m m); congruence.
Qed.

Section Steps.
Variable K : Type.
Variable E : machine.
Hypothesis U : (N.log2 (N.of_nat (alloc_max E)) < u32_max)%N.
Implicit Types (s : dset K) (t : dset nat) (x a b : K).

Notation reach := (reachable Nat.eqb E (fun n => n)).
Notation sl := (slots_of (K := K)).

Lemma iter_slots eqb order pick s t s' r : sl s t -> reach t -> op_ok (OIter order pick) ->
  ds_step eqb E (OIter order pick) s = (s', r) ->
  exists order' pick' t' r', op_ok (OIter order' pick') /\
    ds_step Nat.eqb E (OIter order' pick') t = (t', r') /\ sl s' t' /\ same_answer s r r'.
Proof.
  intros S R [Po Pp] H.
  set (l := order (ds_ids s)) in *. assert (Pl : Permutation (ds_ids s) l) by apply Po.
  set (u := DSet (@nil ((K * nat) * nat)) (ds_data s)).
  set (r0 := ds_group E (map (fun e => (e, snd e)) l) u []).
  assert (Hs : ds_group E l s [] = (DSet (ds_ids s) (ds_data (fst r0)), omap (gmap fst) (snd r0))).
  { pose proof (@carry_group K K fst E l s u [] eq_refl) as X. cbn zeta in X. cbn [gmap map] in X.
    replace (map (fun e : K * nat => (fst e, snd e)) l) with l in X; [exact X|].
    clear. induction l as [|[k i] l IH]; cbn; congruence. }
  set (lt := map (fun e : K * nat => (snd e, snd e)) l).
  assert (Ht : ds_group E lt t [] = (DSet (ds_ids t) (ds_data (fst r0)), omap (gmap snd) (snd r0))).
  { exact (@carry_group K nat snd E l t u [] (proj1 S)). }
  assert (Plt : Permutation (ds_ids t) lt).
  { eapply Permutation_trans; [apply Permutation_sym, S|]. now apply Permutation_map. }
  destruct (swapping_ok (fun a b : nat * nat => ltac:(decide equality; apply Nat.eq_dec)) Plt) as [O1 O2].
  match type of O2 with ?f (ds_ids t) = _ => set (order' := f) in * end.
  destruct (snd r0) as [g| | | |] eqn:Q.
  2-5: exfalso; destruct (@ds_step nat Nat.eqb E (OIter order' (fun l => l)) t) as [t' r'] eqn:X;
    pose proof (reachable_valid nat_laws U Nat.eqb_refl R) as [V Sh];
    assert (Ok : op_ok (OIter order' (fun l => l))) by (split; auto);
    destruct (step_returns nat_laws U (OIter order' (fun l => l)) V Sh Ok X) as [_ Y];
    (destruct Y as [v Y]; [cbn [demand]; destruct V as (_ & _ & Le & _); unfold ds_len; lia|]);
    unfold ds_step, ds_into_iter, ds_build_sets in X; rewrite O2, Ht in X; cbn in X; injection X as <- <-; discriminate.
  cbn [omap obind] in *.
  destruct (Permutation_map_inv _ _ (Permutation_sym (Pp (gmap fst g)))) as (g' & Qg & Pg).
  change (pick (gmap fst g) = gmap fst g') in Qg.
  assert (Pg2 : Permutation (gmap snd g) (gmap (A := K) snd g')) by now apply Permutation_map.
  destruct (swapping_ok (fun a b : nat * list nat => ltac:(repeat (decide equality))) Pg2) as [P1 P2].
  match type of P2 with ?f (gmap snd g) = _ => set (pick' := f) in * end.
  exists order', pick'. do 2 eexists. split; [split; auto|].
  split; [unfold ds_step, ds_into_iter, ds_build_sets; rewrite O2, Ht; cbv beta iota delta [omap obind]; rewrite drain_all by lia; reflexivity|].
  unfold ds_step, ds_into_iter, ds_build_sets in H. fold l in H. rewrite Hs in H. cbv beta iota delta [omap obind] in H.
  rewrite drain_all in H by lia. injection H as <- <-.
  split; [split; [reflexivity|apply S]|].
  unfold si_new. rewrite Qg, P2. cbn [same_answer].
  exists (map snd g'). split; [|split].
  - unfold gmap. rewrite !map_map. reflexivity.
  - unfold gmap. rewrite !map_map. reflexivity.
  - eapply Permutation_trans; [exact Pl|]. destruct r0 as [u1 o1] eqn:X. cbn in Q. subst o1. unfold r0 in X.
    eapply Permutation_trans; [exact (group_all _ _ _ _ X)|]. apply concat_perm. now apply Permutation_map.
Qed.

Lemma same_unit s (o : outcome unit) : (o = Panic \/ exists v, o = Ret v) ->
  same_answer s (omap (fun _ => @RUnit K) o) (omap (fun _ => @RUnit nat) o).
Proof. intros [->|[v ->]]; exact I. Qed.

Lemma reserve_ends n s s' o : ds_reserve E n s = (s', o) -> s' = s /\ (o = Panic \/ o = Ret tt).
Proof.
  unfold ds_reserve, vec_reserve, hm_reserve. intros H. injection H as <- <-. split; auto.
  destruct (_ <=? _); cbn; auto. destruct (_ <=? _); auto.
Qed.

Lemma reserve_slots n s t : sl s t -> snd (ds_reserve E n t) = snd (ds_reserve E n s).
Proof. intros S. unfold ds_reserve, vec_reserve, hm_reserve. cbn. rewrite (sl_len S), (proj1 S). reflexivity. Qed.

Lemma extend_slots eqb h xs s t s' o : sl s t -> reach t -> ds_extend eqb E h xs s = (s', o) ->
  exists t', ds_extend Nat.eqb E h (slots E eqb s xs) t = (t', o) /\ sl s' t'.
Proof.
  intros S R H. unfold ds_extend in *. pose proof (reserve_slots h S) as Q.
  destruct (ds_reserve E h s) as [s1 o1] eqn:X, (ds_reserve E h t) as [t1 o2] eqn:Y. cbn in Q. subst o2.
  destruct (reserve_ends X) as [-> Z]. unfold ds_reserve in Y. injection Y as <- _.
  destruct Z as [-> | ->]; [injection H as <- <-; eauto|].
  destruct (makes_slots U eqb xs S R H) as (t' & A & B & _). eauto.
Qed.

Lemma out_ends t o t' r : reach t -> op_ok o -> ds_step Nat.eqb E o t = (t', r) -> r = Panic \/ exists v, r = Ret v.
Proof.
  intros R Ok H. pose proof (reachable_valid nat_laws U Nat.eqb_refl R) as [V Sh].
  exact (proj1 (step_returns nat_laws U o V Sh Ok H)).
Qed.

Lemma unit_ends (o : outcome unit) : (omap (fun _ => @RUnit nat) o = Panic \/ exists v, omap (fun _ => @RUnit nat) o = Ret v) ->
  o = Panic \/ exists v, o = Ret v.
Proof. destruct o; cbn; intros [X|[v X]]; try discriminate; eauto. Qed.

Lemma step_slots eqb o s t s' r : sl s t -> reach t -> op_ok o -> ds_step eqb E o s = (s', r) ->
  exists o' t' r', on_slots E eqb s o o' /\ op_ok o' /\ ds_step Nat.eqb E o' t = (t', r') /\
    reach t' /\ sl s' t' /\ same_answer s r r'.
Proof.
  intros S R Ok H.
  assert (Go : (exists o' t' r', on_slots E eqb s o o' /\ op_ok o' /\ ds_step Nat.eqb E o' t = (t', r') /\ sl s' t' /\
      same_answer s r r') -> exists o' t' r', on_slots E eqb s o o' /\ op_ok o' /\ ds_step Nat.eqb E o' t = (t', r') /\
    reach t' /\ sl s' t' /\ same_answer s r r').
  { intros (o' & t' & r' & A & B & C & D & F). exists o', t', r'. repeat (split; auto). eapply r_step; eauto. }
  apply Go; clear Go.
  destruct o as [x|a b|h xs|h xs| |n|x|a b| | |order pick].
  - unfold ds_step, unit_out in H. destruct (ds_make_set eqb E x s) as [s1 o1] eqn:M. injection H as <- <-.
    destruct (make_set_slots U eqb x S R M) as (t' & A & B & _).
    assert (X : ds_step Nat.eqb E (OMake (slot eqb s x)) t = (t', omap (fun _ => @RUnit nat) o1)) by (unfold ds_step; rewrite A; reflexivity).
    do 3 eexists. split; [constructor|]. split; [exact I|]. split; [exact X|]. split; [exact B|].
    apply same_unit, unit_ends. refine (out_ends _ R _ X); exact I.
  - unfold ds_step, unit_out in H. destruct (ds_union eqb E a b s) as [s1 o1] eqn:M. injection H as <- <-.
    destruct (union_slots U eqb a b S R M) as (t' & A & B).
    match type of A with ds_union _ _ ?i ?j _ = _ => assert (X : ds_step Nat.eqb E (OUnion i j) t = (t', omap (fun _ => @RUnit nat) o1)) by (unfold ds_step; rewrite A; reflexivity) end.
    do 3 eexists. split; [constructor|]. split; [exact I|]. split; [exact X|]. split; [exact B|].
    apply same_unit, unit_ends. refine (out_ends _ R _ X); exact I.
  - unfold ds_step, unit_out in H. destruct (ds_extend eqb E h xs s) as [s1 o1] eqn:M. injection H as <- <-.
    destruct (extend_slots eqb h xs S R M) as (t' & A & B).
    assert (X : ds_step Nat.eqb E (OExtend h (slots E eqb s xs)) t = (t', omap (fun _ => @RUnit nat) o1)) by (unfold ds_step; rewrite A; reflexivity).
    do 3 eexists. split; [constructor|]. split; [exact I|]. split; [exact X|]. split; [exact B|].
    apply same_unit, unit_ends. refine (out_ends _ R _ X); exact I.
  - unfold ds_step, unit_out in H. unfold ds_extend_ref in H. rewrite map_id in H.
    change (match ds_reserve E h s with (s2, Ret _) => for_each (ds_make_set eqb E) xs s2 | (s3, _) => (s3, Panic) end)
      with (ds_extend eqb E h xs s) in H.
    destruct (ds_extend eqb E h xs s) as [s1 o1] eqn:M. injection H as <- <-.
    destruct (extend_slots eqb h xs S R M) as (t' & A & B).
    assert (X : ds_step Nat.eqb E (OExtendRef h (slots E eqb s xs)) t = (t', omap (fun _ => @RUnit nat) o1)).
    { unfold ds_step, ds_extend_ref. rewrite map_id.
      change (match ds_reserve E h t with (s2, Ret _) => for_each (ds_make_set Nat.eqb E) (slots E eqb s xs) s2 | (s3, _) => (s3, Panic) end)
        with (ds_extend Nat.eqb E h (slots E eqb s xs) t). rewrite A. reflexivity. }
    do 3 eexists. split; [constructor|]. split; [exact I|]. split; [exact X|]. split; [exact B|].
    apply same_unit, unit_ends. refine (out_ends _ R _ X); exact I.
  - cbn in H. injection H as <- <-. exists (@OClear nat), (ds_new nat), (Ret (@RUnit nat)). repeat split; auto. constructor.
  - unfold ds_step, unit_out in H. pose proof (reserve_slots n S) as Q. destruct (ds_reserve E n s) as [s1 o1] eqn:M. injection H as <- <-.
    destruct (reserve_ends M) as [-> Z].
    exists (@OReserve nat n), t, (omap (fun _ => @RUnit nat) o1). split; [constructor|]. split; [exact I|]. split.
    + unfold ds_step, unit_out. rewrite Q. reflexivity.
    + split; auto. apply same_unit. destruct Z as [->| ->]; eauto.
  - cbn in H. injection H as <- <-. do 3 eexists. split; [constructor|]. split; [exact I|]. split; [reflexivity|]. split; auto.
    cbn. unfold ds_contains, hm_contains. rewrite (get_slot U eqb x S (reach_valid U R)). destruct (hm_get eqb x (ds_ids s)); auto.
  - unfold ds_step in H. destruct (ds_in_union eqb a b s) as [s1 o1] eqn:M. injection H as <- <-.
    destruct (in_union_slots U eqb a b S (reach_valid U R) M) as (t' & A & B).
    assert (X : ds_step Nat.eqb E (OInUnion (slot eqb s a) (slot eqb s b)) t = (t', omap (RBool (K := nat)) o1)) by (unfold ds_step; rewrite A; reflexivity).
    do 3 eexists. split; [constructor|]. split; [exact I|]. split; [exact X|]. split; [exact B|].
    destruct (out_ends (OInUnion (slot eqb s a) (slot eqb s b)) R I X) as [Y|[v Y]]; destruct o1; try discriminate; cbn; auto.
  - cbn in H. injection H as <- <-. do 3 eexists. split; [constructor|]. split; [exact I|]. split; [reflexivity|]. split; auto.
    cbn. unfold ds_is_empty. now rewrite (sl_len S).
  - cbn in H. injection H as <- <-. do 3 eexists. split; [constructor|]. split; [exact I|]. split; [reflexivity|]. split; auto.
    cbn. unfold ds_len. now rewrite (sl_len S).
  - destruct (iter_slots eqb S R Ok H) as (order' & pick' & t' & r' & A & B & C & D).
    exists (OIter order' pick'), t', r'. split; [constructor|]. auto.
Qed.

Lemma with_capacity_new n s : ds_with_capacity K E n = Ret s -> s = ds_new K.
Proof.
  unfold ds_with_capacity. destruct (hm_reserve E n _); cbn; try discriminate. destruct (vec_reserve E n _); cbn; try discriminate.
  intros H. now injection H as <-.
Qed.

Lemma from_iter_slots eqb h xs s : ds_from_iter eqb E h xs = Ret s -> exists t, reach t /\ sl s t.
Proof.
  unfold ds_from_iter. intros H. destruct (ds_with_capacity K E h) as [s0| | | |] eqn:Q; try discriminate.
  apply with_capacity_new in Q. subst s0. cbn [obind] in H. unfold ds_finish in H.
  destruct (for_each (ds_make_set eqb E) xs (ds_new K)) as [s1 o1] eqn:M. cbn in H. destruct o1; try discriminate.
  injection H as <-. assert (S : sl (ds_new K) (ds_new nat)) by (split; [reflexivity|apply Permutation_refl]).
  destruct (makes_slots U eqb xs S (r_new _ _ _) M) as (t & _ & A & B). eauto.
Qed.

Lemma lawless_slots s : lawless E s -> exists t, reach t /\ sl s t.
Proof.
  assert (N : sl (ds_new K) (ds_new nat)) by (split; [reflexivity|apply Permutation_refl]).
  induction 1 as [|n s H|eqb h xs s H|eqb cl h xs s H|cl s H IH|s ids H IH P|eqb o s s' r H IH Ok M].
  - exists (ds_new nat). split; [constructor|auto].
  - apply with_capacity_new in H. subst. exists (ds_new nat). split; [constructor|auto].
  - exact (from_iter_slots _ _ _ H).
  - exact (from_iter_slots eqb h (map cl xs) H).
  - destruct IH as (t & R & D & P). exists t. split; auto. split; auto. cbn. rewrite map_map. exact P.
  - destruct IH as (t & R & D & Q). exists t. split; auto. split; auto. cbn.
    eapply Permutation_trans; [|exact Q]. apply Permutation_map. now apply Permutation_sym.
  - destruct IH as (t & R & S). destruct (step_slots eqb o S R Ok M) as (o' & t' & r' & _ & _ & _ & A & B & _). eauto.
Qed.
End Steps.
