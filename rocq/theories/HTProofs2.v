(** Counters and disjoint sets on hash tables follow the models on lists of entries. *)
From Coq Require Import Permutation NArith.
From Verif Require Import Base HMModel HMProofs HTModel HTProofs HTRun CTModel CTSpec CTRun DSModel DSSpec DSRun
  CTProofs2 DSProofs2 DSProofs3 DSProps.
Local Open Scope outcome_scope.
Set Implicit Arguments.

Lemma sim_for_each {S1 S2 A} (R : S1 -> S2 -> Prop) (f : A -> S1 -> S1 * outcome unit) (g : A -> S2 -> S2 * outcome unit) l :
  (forall a s m s' o, R s m -> f a s = (s', o) -> exists m', g a m = (m', o) /\ R s' m') ->
  forall s m s' o, R s m -> for_each f l s = (s', o) -> exists m', for_each g l m = (m', o) /\ R s' m'.
Proof.
  intros F. induction l as [|a l IH]; simpl; intros s m s' o H X.
  - injection X as <- <-. eauto.
  - destruct (f a s) as [s1 o1] eqn:Q. destruct (F _ _ _ _ _ H Q) as (m1 & -> & H1).
    destruct o1 as [[]| | | |]; [eauto|injection X as <- <-; eauto ..].
Qed.

Section Sim.
Variable K : Type.
Variable eqb : K -> K -> bool.
Variable cl : K -> K.
Variable hash : K -> N.
Variable P : scheme.
Variable E : machine.
Hypothesis L : eq_laws eqb.
Hypothesis HH : forall a b, eqb a b = true -> hash a = hash b.
Hypothesis PL : scheme_laws P.
Notation Rm := (@Rm K nat eqb hash P).

(** ** counters *)
Definition Rc (t : table K nat) (c : counter K) : Prop := Rm t (ct_map c).

Lemma sim_bump k n t c t' o : Rc t c -> tc_bump eqb hash P E k n t = (t', o) ->
  exists c', ct_bump eqb E k n c = (c', o) /\ Rc t' c'.
Proof.
  unfold tc_bump, ct_bump, Rc. intros R. destruct (ht_entry eqb hash P E k t) as [t1 o1] eqn:S.
  destruct (Rm_entry E L HH PL _ R S) as (R1 & <- & Le).
  destruct o1 as [[old|]| | | |]; intros H.
  - destruct (uadd E old n); injection H as <- <-; eexists; split; eauto. simpl. now apply Rm_set.
  - destruct (Le eq_refl). destruct (uadd E 0 n); injection H as <- <-; eexists; split; eauto; simpl; now apply Rm_put.
  - injection H as <- <-. eauto.
  - injection H as <- <-. eauto.
  - injection H as <- <-. eauto.
  - injection H as <- <-. eauto.
Qed.

Lemma sim_lower k n t c t' o : Rc t c -> tc_lower eqb hash P E k n t = (t', o) ->
  exists c', ct_lower eqb E k n c = (c', o) /\ Rc t' c'.
Proof.
  unfold tc_lower, ct_lower, Rc. intros R. destruct (ht_entry eqb hash P E k t) as [t1 o1] eqn:S.
  destruct (Rm_entry E L HH PL _ R S) as (R1 & <- & Le).
  destruct o1 as [[old|]| | | |]; intros H.
  - destruct (old <=? n).
    + injection H as <- <-. eexists; split; eauto. simpl. now apply Rm_remove.
    + destruct (usub E old n); injection H as <- <-; eexists; split; eauto. simpl. now apply Rm_set.
  - injection H as <- <-. eauto.
  - injection H as <- <-. eauto.
  - injection H as <- <-. eauto.
  - injection H as <- <-. eauto.
  - injection H as <- <-. eauto.
Qed.

Lemma sim_extend h xs t c t' o : Rc t c -> tc_extend eqb hash P E h xs t = (t', o) ->
  exists c', ct_extend eqb E h xs c = (c', o) /\ Rc t' c'.
Proof.
  unfold tc_extend, ct_extend, Rc. intros R. destruct (ht_reserve hash P E h t) as [t1 o1] eqn:S.
  destruct (Rm_reserve E L PL _ R S) as (R1 & <- & Le).
  destruct o1; intros H; [|injection H as <- <-; eauto ..].
  eapply (@sim_for_each _ _ _ Rc); eauto. intros x s m s' o'. apply sim_bump.
Qed.

Lemma tc_sim o t t' r : ok eqb hash P t -> tc_step eqb cl hash P E o t = (t', r) ->
  exists c', ct_step eqb cl E o (Counter (ht_entries t)) = (c', r) /\ Rc t' c'.
Proof.
  intros O.
  assert (R : Rc t (Counter (ht_entries t))) by (split; auto).
  assert (U : forall (a : table K nat * outcome unit) (b : counter K * outcome unit),
    (forall t' o, a = (t', o) -> exists c', b = (c', o) /\ Rc t' c') ->
    tc_unit a = (t', r) -> exists c', CTRun.unit_out b = (c', r) /\ Rc t' c').
  { intros [a oa] b H X. injection X as <- <-. destruct (H _ _ eq_refl) as (c' & -> & Rc'). eexists; split; [reflexivity|exact Rc']. }
  assert (G : forall k, ht_get eqb hash P k t = hm_get eqb k (ht_entries t)) by (intros k; exact (Rm_get L HH PL k R)).
  destruct o; cbn [tc_step ct_step].
  - apply U. intros. eapply sim_bump; eauto.
  - apply U. intros. eapply sim_extend; eauto.
  - apply U. unfold tc_extend_ref, ct_extend_ref. rewrite map_id.
    fold (tc_extend eqb hash P E hint xs t). fold (ct_extend eqb E hint xs (Counter (ht_entries t))).
    intros. eapply sim_extend; eauto.
  - apply U. unfold tc_add_assign, ct_add_assign. intros a b. apply (@sim_for_each _ _ _ Rc); auto.
    intros [k n] s m s' o'. apply sim_bump.
  - apply U. unfold tc_add_assign_ref, ct_add_assign_ref. intros a b. apply (@sim_for_each _ _ _ Rc); auto.
    intros [k n] s m s' o'. apply sim_bump.
  - apply U. unfold tc_sub_assign, ct_sub_assign. intros a b. apply (@sim_for_each _ _ _ Rc); auto.
    intros [k n] s m s' o'. apply sim_lower.
  - apply U. unfold tc_sub_assign_ref, ct_sub_assign_ref. intros a b. apply (@sim_for_each _ _ _ Rc); auto.
    intros [k n] s m s' o'. apply sim_lower.
  - intros H. injection H as <- <-. rewrite G. eexists; split; [reflexivity|exact R].
  - intros H. injection H as <- <-. rewrite (Rm_entry_of L HH PL k R). eexists; split; [reflexivity|exact R].
  - intros H. injection H as <- <-. rewrite G. eexists; split; [|exact R]. unfold ct_index, ct_get. simpl.
    now destruct (hm_get eqb k (ht_entries t)).
  - intros H. injection H as <- <-. unfold ht_contains. rewrite G. eexists; split; [reflexivity|exact R].
  - intros H. injection H as <- <-. eexists; split; [reflexivity|exact R].
  - intros H. injection H as <- <-. eexists; split; [reflexivity|exact R].
  - intros H. injection H as <- <-. eexists; split; [reflexivity|exact R].
  - unfold ct_insert. destruct (ht_insert eqb hash P E k n t) as [t1 o1] eqn:S. intros H. injection H as <- <-.
    destruct (Rm_insert E L HH PL _ _ R S) as (m' & H & R1). simpl in *. rewrite H. eauto.
  - unfold ct_remove. intros H. injection H as <- <-. rewrite G. eexists; split; [reflexivity|].
    unfold Rc. simpl. now apply Rm_remove.
  - unfold tc_get_mut, ct_get_mut, ct_get. rewrite G. simpl. destruct (hm_get eqb k (ht_entries t)); intros H; injection H as <- <-.
    + eexists; split; [reflexivity|]. unfold Rc. simpl. now apply Rm_set.
    + eexists; split; [reflexivity|exact R].
  - intros H. injection H as <- <-. eexists; split; [reflexivity|]. apply Rm_clear.
  - intros H. injection H as <- <-. eexists; split; [reflexivity|]. now apply Rm_retain.
  - intros H. injection H as <- <-. eexists; split; [reflexivity|]. now apply Rm_map_values.
  - apply U. intros t1 o1 S. unfold ct_reserve. destruct (Rm_reserve E L PL _ R S) as (R1 & <- & Le). eauto.
Qed.

(** ** disjoint sets *)
Definition Rd (s : tdset K) (d : dset K) : Prop := Rm (td_ids s) (ds_ids d) /\ td_data s = ds_data d.

Lemma sim_make_or_get x s d s' o : Rd s d -> td_make_or_get eqb hash P E x s = (s', o) ->
  exists d', ds_make_or_get eqb E x d = (d', o) /\ Rd s' d'.
Proof.
  unfold td_make_or_get, ds_make_or_get, Rd. intros [R D]. rewrite (Rm_len R), D.
  destruct (ht_entry eqb hash P E x (td_ids s)) as [t1 o1] eqn:S.
  destruct (Rm_entry E L HH PL _ R S) as (R1 & <- & Le).
  destruct o1 as [[old|]| | | |]; intros H; try (injection H as <- <-; eexists; split; [reflexivity|auto]; fail).
  destruct (Le eq_refl). destruct (vec_push E (ds_data d) (data_new (length (ds_ids d)))); injection H as <- <-;
    (eexists; split; [reflexivity|]; split; [|reflexivity]; simpl; now apply Rm_put).
Qed.

Lemma sim_find_in i s d s' o : Rd s d -> td_find_in i s = (s', o) ->
  exists d', ds_find_in i d = (d', o) /\ Rd s' d'.
Proof.
  unfold td_find_in, ds_find_in, Rd. intros [R D]. rewrite D.
  destruct (ds_find (S (length (ds_data d))) (ds_data d) i) as [v o1]. intros H. injection H as <- <-.
  eexists; split; [reflexivity|auto].
Qed.

Lemma sim_make_set x s d s' o : Rd s d -> td_make_set eqb hash P E x s = (s', o) ->
  exists d', ds_make_set eqb E x d = (d', o) /\ Rd s' d'.
Proof.
  unfold td_make_set, ds_make_set. intros R. destruct (td_make_or_get eqb hash P E x s) as [s1 o1] eqn:Q.
  destruct (sim_make_or_get _ R Q) as (d1 & -> & R1). intros H. injection H as <- <-. eauto.
Qed.

Lemma sim_union a b s d s' o : Rd s d -> td_union eqb hash P E a b s = (s', o) ->
  exists d', ds_union eqb E a b d = (d', o) /\ Rd s' d'.
Proof.
  unfold td_union, ds_union. intros R. destruct (td_make_or_get eqb hash P E a s) as [s1 o1] eqn:Q1.
  destruct (sim_make_or_get _ R Q1) as (d1 & -> & R1).
  destruct o1 as [ia| | | |]; intros H; try (injection H as <- <-; eauto; fail).
  destruct (td_make_or_get eqb hash P E b s1) as [s2 o2] eqn:Q2.
  destruct (sim_make_or_get _ R1 Q2) as (d2 & -> & R2).
  destruct o2 as [ib| | | |]; try (injection H as <- <-; eauto; fail).
  destruct (td_find_in ia s2) as [s3 o3] eqn:Q3. destruct (sim_find_in _ R2 Q3) as (d3 & -> & R3).
  destruct o3 as [ra| | | |]; try (injection H as <- <-; eauto; fail).
  destruct (td_find_in ib s3) as [s4 o4] eqn:Q4. destruct (sim_find_in _ R3 Q4) as (d4 & -> & R4).
  destruct o4 as [rb| | | |]; try (injection H as <- <-; eauto; fail).
  destruct (ra =? rb); try (injection H as <- <-; eauto; fail).
  destruct R4 as [R4 D4]. rewrite D4 in H. destruct (ds_link E (ds_data d4) ra rb) as [v o5]. injection H as <- <-.
  eexists; split; [reflexivity|]. split; auto.
Qed.

Lemma sim_in_union a b s d s' o : Rd s d -> td_in_union eqb hash P a b s = (s', o) ->
  exists d', ds_in_union eqb a b d = (d', o) /\ Rd s' d'.
Proof.
  unfold td_in_union, ds_in_union. intros R. rewrite (Rm_get L HH PL a (proj1 R)), (Rm_get L HH PL b (proj1 R)).
  destruct (hm_get eqb a (ds_ids d)) as [ia|]; intros H; [|injection H as <- <-; eauto].
  destruct (hm_get eqb b (ds_ids d)) as [ib|]; [|injection H as <- <-; eauto].
  destruct (td_find_in ia s) as [s3 o3] eqn:Q3. destruct (sim_find_in _ R Q3) as (d3 & -> & R3).
  destruct o3 as [ra| | | |]; try (injection H as <- <-; eauto; fail).
  destruct (td_find_in ib s3) as [s4 o4] eqn:Q4. destruct (sim_find_in _ R3 Q4) as (d4 & -> & R4).
  destruct o4 as [rb| | | |]; injection H as <- <-; eauto.
Qed.

Lemma sim_reserve n s d s' o : Rd s d -> td_reserve hash P E n s = (s', o) ->
  exists d', ds_reserve E n d = (d', o) /\ Rd s' d'.
Proof.
  unfold td_reserve, ds_reserve. intros [R D]. rewrite D. unfold vec_reserve.
  destruct (length (ds_data d) + n <=? alloc_max E); simpl; intros H.
  - destruct (ht_reserve hash P E n (td_ids s)) as [t1 o1] eqn:S. destruct (Rm_reserve E L PL _ R S) as (R1 & <- & _).
    injection H as <- <-. eexists; split; [reflexivity|]. split; auto.
  - injection H as <- <-. eexists; split; [reflexivity|]. split; auto.
Qed.

Lemma sim_extend_set h xs s d s' o : Rd s d -> td_extend eqb hash P E h xs s = (s', o) ->
  exists d', ds_extend eqb E h xs d = (d', o) /\ Rd s' d'.
Proof.
  unfold td_extend, ds_extend. intros R. destruct (td_reserve hash P E h s) as [s1 o1] eqn:S.
  destruct (sim_reserve _ R S) as (d1 & -> & R1).
  destruct o1; intros H; [|injection H as <- <-; eauto ..].
  eapply (@sim_for_each _ _ _ Rd); eauto. intros x u m u' o'. apply sim_make_set.
Qed.

Lemma find_in_ids i s s' o : @ds_find_in K i s = (s', o) -> ds_ids s' = ds_ids s.
Proof.
  unfold ds_find_in. destruct (ds_find (S (length (ds_data s))) (ds_data s) i). intros H. now injection H as <- _.
Qed.

Lemma group_ids l s m s' o : @ds_group K E l s m = (s', o) -> ds_ids s' = ds_ids s.
Proof.
  revert s m; induction l as [|[k i] l IH]; simpl; intros s m H.
  - now injection H as <- _.
  - destruct (ds_find_in i s) as [s1 o1] eqn:Q. apply find_in_ids in Q. destruct o1 as [r| | | |];
      try (injection H as <- _; auto; fail). destruct (ds_group_push E r k m) as [m1 o2].
    destruct o2; try (injection H as <- _; auto; fail). now rewrite (IH _ _ H).
Qed.

Definition img (s : tdset K) : dset K := DSet (ht_entries (td_ids s)) (td_data s).

Lemma td_sim o s s' r : ok eqb hash P (td_ids s) -> td_step eqb hash P E o s = (s', r) ->
  exists d', ds_step eqb E o (img s) = (d', r) /\ Rd s' d'.
Proof.
  intros O.
  assert (R : Rd s (img s)) by (split; [split; auto|reflexivity]).
  assert (U : forall (a : tdset K * outcome unit) (b : dset K * outcome unit),
    (forall t' o, a = (t', o) -> exists c', b = (c', o) /\ Rd t' c') ->
    td_unit a = (s', r) -> exists c', DSRun.unit_out b = (c', r) /\ Rd s' c').
  { intros [a oa] b H X. injection X as <- <-. destruct (H _ _ eq_refl) as (c' & -> & Rc'). eexists; split; [reflexivity|exact Rc']. }
  destruct o; cbn [td_step ds_step].
  - apply U. intros. eapply sim_make_set; eauto.
  - apply U. intros. eapply sim_union; eauto.
  - apply U. intros. eapply sim_extend_set; eauto.
  - apply U. unfold ds_extend_ref. rewrite map_id. fold (ds_extend eqb E hint xs (img s)).
    intros. eapply sim_extend_set; eauto.
  - intros H. injection H as <- <-. eexists; split; [reflexivity|]. split; [apply Rm_clear|reflexivity].
  - apply U. intros. eapply sim_reserve; eauto.
  - intros H. injection H as <- <-. unfold ht_contains. rewrite (Rm_get L HH PL x (proj1 R)).
    eexists; split; [reflexivity|exact R].
  - destruct (td_in_union eqb hash P a b s) as [s1 o1] eqn:S. intros H. injection H as <- <-.
    destruct (sim_in_union _ _ R S) as (d' & -> & R1). eauto.
  - intros H. injection H as <- <-. eexists; split; [reflexivity|exact R].
  - intros H. injection H as <- <-. eexists; split; [reflexivity|exact R].
  - unfold td_into_iter. fold (img s). change (ds_ids (img s)) with (ht_entries (td_ids s)).
    destruct (ds_into_iter E (order (ht_entries (td_ids s))) pick (img s)) as [d' o'] eqn:S.
    intros H. injection H as <- <-. eexists; split; [reflexivity|]. split; [|reflexivity].
    unfold ds_into_iter in S. destruct (ds_build_sets E (order (ht_entries (td_ids s))) (img s)) as [d1 o1] eqn:B.
    injection S as <- <-. unfold ds_build_sets in B. apply group_ids in B. simpl. rewrite B. apply R.
Qed.

(** ** histories *)
Definition t_shown (t : table K nat) : fm K := fun k => ht_entry_of eqb hash P k t.

Lemma size_same f g n : same f g -> has_size eqb f n -> has_size eqb g n.
Proof.
  intros S (ks & D & Le & H). exists ks. split; auto. split; auto. intros x. rewrite <- (S x). apply H.
Qed.

Lemma allowed_post o f f1 f2 r : @same K f2 f1 -> CTSpec.allowed eqb E cl o f f1 r -> CTSpec.allowed eqb E cl o f f2 r.
Proof.
  intros S.
  assert (T : forall h : fm K, same f1 h -> same f2 h) by (intros h H x; now rewrite (S x)).
  assert (S' : same f1 f2) by (intros x; now rewrite (S x)).
  assert (Z : forall Q : nat -> Prop, (exists n, has_size eqb f1 n /\ Q n) -> exists n, has_size eqb f2 n /\ Q n).
  { intros Q (n & H & X). exists n. split; auto. eapply size_same; eauto. }
  assert (AD : forall l, CTSpec.adds eqb E l f f1 r -> CTSpec.adds eqb E l f f2 r).
  { intros l [(-> & H1 & H2 & H3)|(-> & l1 & e & l2 & H1 & H2 & H3 & H4 & H5)]; [left; auto|right].
    split; auto. exists l1, e, l2. repeat (split; auto). destruct H5 as [H5|[H5 H6]]; auto. right.
    rewrite (S (fst e)). split; auto. eapply size_same; eauto. }
  assert (SU : forall l, subtracts eqb E l f f1 r -> subtracts eqb E l f f2 r).
  { intros l [(-> & H1 & H2)|(-> & l1 & e & l2 & H1 & H2 & H3 & H4 & H5)]; [left; auto|right].
    split; auto. exists l1, e, l2. repeat (split; auto). now rewrite (S (fst e)). eapply size_same; eauto. }
  assert (EX : forall h xs, extends eqb E h xs f f1 r -> extends eqb E h xs f f2 r).
  { intros h xs [(H1 & H2)|(H1 & H2 & H3)]; [left|right]; auto. }
  destruct o; cbn; auto; try (intros [H1 H2]; split; auto; fail).
  - destruct (f k) as [[k' old]|].
    + intros [H1 H2]; split; auto.
    + intros [(H1 & H2 & H3)|(H1 & H2 & H3)]; [left|right]; auto.
  - destruct (f k) as [[k' old]|]; intros [H1 H2]; split; auto.
Qed.

Lemma content_perm (m m' : list (K * nat)) : Permutation m m' -> map_content eqb E m -> map_content eqb E m'.
Proof.
  intros Q [D F]. split.
  - apply wf_keys. apply wf_keys in D. exact (wf_perm L Q D).
  - eapply Permutation_Forall; eauto.
Qed.

Section CT.
Hypothesis CL : forall k, eqb (cl k) k = true.
Hypothesis U : 1 <= usize_max E.

Definition cimg (t : table K nat) : counter K := Counter (ht_entries t).

Lemma tc_history ops t t' tr : ok eqb hash P t -> ct_valid eqb E (cimg t) -> Forall (CTSpec.op_ok eqb E) ops ->
  tc_run eqb cl hash P E ops t = (t', tr) ->
  ok eqb hash P t' /\ ct_valid eqb E (cimg t') /\ CTSpec.history eqb E cl ops (shown eqb (cimg t)) (t_shown t') tr.
Proof.
  revert t tr. induction ops as [|o ops IH]; cbn; intros t tr O V Ok H.
  - injection H as <- <-. split; auto. split; auto. constructor. intros x. apply entry_of_entries; auto.
  - inversion Ok as [|? ? O1 O2]; subst. destruct (tc_step eqb cl hash P E o t) as [t1 r] eqn:S.
    destruct (tc_run eqb cl hash P E ops t1) as [t2 tr2] eqn:T. injection H as <- <-.
    destruct (tc_sim _ O S) as (c1 & C & R). destruct (@CTProofs2.step_ok K eqb L E cl CL U o _ _ _ V O1 C) as [V1 A].
    pose proof R as [Ok1 Q].
    assert (V1' : ct_valid eqb E (cimg t1)).
    { destruct V1 as [V1 V2]. split.
      - eapply content_perm; [apply Permutation_sym; exact Q|exact V1].
      - unfold ct_len in *. simpl. rewrite (Permutation_length Q). exact V2. }
    destruct (IH _ _ Ok1 V1' O2 T) as (Ok2 & V2 & Hi). split; auto. split; auto.
    econstructor; [|exact Hi]. eapply allowed_post; [|exact A]. intros x.
    unfold shown, ct_get_key_value, cimg. simpl. symmetry. apply entry_of_perm; auto. apply Ok1.
Qed.
End CT.

Section DS.
Hypothesis RF : ranks_fit E.

Lemma img_valid s d : Rd s d -> DSProofs2.valid eqb E d -> DSProofs2.valid eqb E (img s).
Proof.
  intros [[O Q] D] (W & Ld & Le & Pe & F & H). unfold img, DSProofs2.valid. cbn [ds_ids ds_data].
  rewrite D, (Permutation_length Q). split; [apply O|]. split; auto. split; auto. split; auto.
  eapply Permutation_trans; [apply Permutation_map; exact Q|exact Pe].
Qed.

Lemma img_shows s d g : Rd s d -> shows eqb d g -> shows eqb (img s) g.
Proof.
  intros [[O Q] D] (Pe & Lo & H). split; [|split; auto].
  - cbn [img ds_ids]. eapply Permutation_trans; [apply Permutation_map; exact Q|exact Pe].
  - intros x i y j I J. cbn [img ds_ids] in *. unfold linked in *. cbn [img ds_data]. rewrite D. apply H; eapply Permutation_in; eauto.
Qed.

Lemma td_step_ok o s s' r g : ok eqb hash P (td_ids s) -> DSProofs2.valid eqb E (img s) -> shows eqb (img s) g ->
  DSSpec.op_ok o -> td_step eqb hash P E o s = (s', r) ->
  ok eqb hash P (td_ids s') /\ DSProofs2.valid eqb E (img s') /\
  exists g', shows eqb (img s') g' /\ DSSpec.allowed eqb E o g g' r.
Proof.
  intros O V S Ok H. destruct (td_sim _ _ O H) as (d1 & C & R).
  destruct (DSProofs3.step_ok L RF _ V S Ok C) as (g1 & V1 & S1 & A). split; [apply R|].
  split; [eapply img_valid; eauto|]. exists g1. split; auto. eapply img_shows; eauto.
Qed.

Lemma td_history ops s s' tr g : ok eqb hash P (td_ids s) -> DSProofs2.valid eqb E (img s) -> shows eqb (img s) g ->
  Forall (@DSSpec.op_ok K) ops -> td_run eqb hash P E ops s = (s', tr) ->
  ok eqb hash P (td_ids s') /\ DSProofs2.valid eqb E (img s') /\
  exists g', shows eqb (img s') g' /\ DSSpec.history eqb E ops g g' tr.
Proof.
  revert s tr g. induction ops as [|o ops IH]; cbn; intros s tr g O V S Ok H.
  - injection H as <- <-. split; auto. split; auto. exists g. split; auto. constructor.
  - inversion Ok as [|? ? O1 O2]; subst. destruct (td_step eqb hash P E o s) as [s1 r] eqn:Q.
    destruct (td_run eqb hash P E ops s1) as [s2 tr2] eqn:T. injection H as <- <-.
    destruct (td_step_ok _ O V S O1 Q) as (Ok1 & V1 & g1 & S1 & A).
    destruct (IH _ _ _ Ok1 V1 S1 O2 T) as (Ok2 & V2 & g2 & S2 & Hi). split; auto. split; auto.
    exists g2. split; auto. econstructor; eauto.
Qed.

Lemma td_contains s g x : ok eqb hash P (td_ids s) -> shows eqb (img s) g ->
  (ht_contains eqb hash P x (td_ids s) = true <-> DSSpec.mem eqb x (added g)).
Proof.
  intros O S. rewrite <- (contains_mem L x S). unfold ds_contains, ht_contains, hm_contains.
  assert (R : Rd s (img s)) by (split; [split; auto|reflexivity]).
  rewrite (Rm_get L HH PL x (proj1 R)). reflexivity.
Qed.

Lemma td_joined_joined s x y : ok eqb hash P (td_ids s) -> (td_joined eqb hash P s x y <-> joined eqb (img s) x y).
Proof.
  intros O. assert (R : Rd s (img s)) by (split; [split; auto|reflexivity]). unfold td_joined, joined.
  destruct (td_in_union eqb hash P x y s) as [s1 o1] eqn:Q. destruct (sim_in_union _ _ R Q) as (d & -> & _). reflexivity.
Qed.
End DS.
End Sim.
