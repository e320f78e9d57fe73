(** Counters and disjoint sets on hashbrown's tables follow the models on lists of entries. *)
From Coq Require Import Permutation NArith.
From Verif Require Import Base HMModel HMProofs HTModel HTProofs HTProofs2 GTModel GTModel2 GTProofs GTProofs2 GTProofs3 GTRun2 CTModel CTSpec CTRun DSModel DSSpec DSRun
  CTProofs2 DSProofs2 DSProofs3 DSProps.
Local Open Scope outcome_scope.
Set Implicit Arguments.

Section Sim.
Variable K : Type.
Variable eqb : K -> K -> bool.
Variable cl : K -> K.
Variable hash : K -> N.
Variable W : nat.
Variable E : machine.
Hypothesis L : eq_laws eqb.
Hypothesis HH : forall a b, eqb a b = true -> hash a = hash b.
Hypothesis W2 : pow2 W.
Notation Rg := (@Rg K nat eqb hash W).

Lemma Rg_put' t m k v : Rg t m -> length m + ht_marks t < g_cap (length t) -> hm_entry_of eqb k m = None ->
  Rg (g_put hash W k v t) (hm_insert_vacant k v m).
Proof. intros R Lt Ab. exact (proj1 (Rg_put L W2 k v R Lt Ab)). Qed.

(** writing other values *)
Lemma empty_map f (t : table K nat) b : g_is_empty (ht_map_values f t) b = g_is_empty t b.
Proof.
  unfold g_is_empty, g_at. destruct b as [q|]; auto. unfold ht_map_values.
  set (g := fun s : slot K nat => match s with Full k v => Full k (f k v) | _ => s end).
  change (@Empty K nat) with (g Empty) at 1. rewrite map_nth. now destruct (nth q t Empty).
Qed.

Lemma Rg_map_values f t m : Rg t m -> Rg (ht_map_values f t) (hm_map_values f m).
Proof.
  intros [(Wf & Pa & P2 & Sp) Q].
  assert (En : ht_entries (ht_map_values f t) = hm_map_values f (ht_entries t)).
  { clear. induction t as [|[| |k v] t IH]; simpl; auto. now rewrite <- IH. }
  assert (Ln : length (ht_map_values f t) = length t) by apply map_length.
  assert (Mk : ht_marks (ht_map_values f t) = ht_marks t).
  { clear. unfold ht_marks, ht_map_values. induction t as [|[| |k v] t IH]; simpl; auto. }
  split; [split; [|split; [|split]]|].
  - rewrite En. rewrite wf_keys, map_values_keys, <- wf_keys. exact Wf.
  - intros p k v H. unfold ht_map_values in H. rewrite nth_error_map in H.
    destruct (nth_error t p) as [[| |k1 v1]|] eqn:N; simpl in H; try discriminate. injection H as -> _.
    destruct (Pa p k v1 N) as (i & H1 & H2 & H3). exists i. rewrite Ln. split; auto. split; auto.
    intros j b Hj Hb. rewrite empty_map. eauto.
  - now rewrite Ln.
  - unfold spare. unfold ht_len. rewrite En, Mk, Ln. unfold hm_map_values. rewrite map_length. exact Sp.
  - rewrite En. now apply Permutation_map.
Qed.

(** ** counters *)
Definition Rc (t : table K nat) (c : counter K) : Prop := Rg t (ct_map c).

Lemma sim_bump k n t c t' o : Rc t c -> gc_bump eqb hash W E k n t = (t', o) ->
  exists c', ct_bump eqb E k n c = (c', o) /\ Rc t' c'.
Proof.
  unfold gc_bump, ct_bump, Rc. intros R. destruct (g_entry eqb hash W E k t) as [t1 o1] eqn:S.
  destruct (Rg_entry E L HH W2 _ R S) as (R1 & <- & Le).
  destruct o1 as [[old|]| | | |]; intros H.
  - destruct (uadd E old n); injection H as <- <-; eexists; split; eauto. simpl. now apply Rg_set.
  - destruct (Le eq_refl). destruct (uadd E 0 n); injection H as <- <-; eexists; split; eauto; simpl; now apply Rg_put'.
  - injection H as <- <-. eauto.
  - injection H as <- <-. eauto.
  - injection H as <- <-. eauto.
  - injection H as <- <-. eauto.
Qed.

Lemma sim_lower k n t c t' o : Rc t c -> gc_lower eqb hash W E k n t = (t', o) ->
  exists c', ct_lower eqb E k n c = (c', o) /\ Rc t' c'.
Proof.
  unfold gc_lower, ct_lower, Rc. intros R. destruct (g_entry eqb hash W E k t) as [t1 o1] eqn:S.
  destruct (Rg_entry E L HH W2 _ R S) as (R1 & <- & Le).
  destruct o1 as [[old|]| | | |]; intros H.
  - destruct (old <=? n).
    + injection H as <- <-. eexists; split; eauto. simpl. now apply Rg_remove.
    + destruct (usub E old n); injection H as <- <-; eexists; split; eauto. simpl. now apply Rg_set.
  - injection H as <- <-. eauto.
  - injection H as <- <-. eauto.
  - injection H as <- <-. eauto.
  - injection H as <- <-. eauto.
  - injection H as <- <-. eauto.
Qed.

Lemma sim_extend h xs t c t' o : Rc t c -> gc_extend eqb hash W E h xs t = (t', o) ->
  exists c', ct_extend eqb E h xs c = (c', o) /\ Rc t' c'.
Proof.
  unfold gc_extend, ct_extend, Rc. intros R. destruct (g_reserve hash W E h t) as [t1 o1] eqn:S.
  destruct (Rg_reserve E L W2 _ R S) as (R1 & <- & Le).
  destruct o1; intros H; [|injection H as <- <-; eauto ..].
  eapply (@sim_for_each _ _ _ Rc); eauto. intros x s m s' o'. apply sim_bump.
Qed.

Lemma gc_sim o t t' r : GTProofs2.gok eqb hash W t -> gc_step eqb cl hash W E o t = (t', r) ->
  exists c', ct_step eqb cl E o (Counter (ht_entries t)) = (c', r) /\ Rc t' c'.
Proof.
  intros O.
  assert (R : Rc t (Counter (ht_entries t))) by (split; auto).
  assert (U : forall (a : table K nat * outcome unit) (b : counter K * outcome unit),
    (forall t' o, a = (t', o) -> exists c', b = (c', o) /\ Rc t' c') ->
    gc_unit a = (t', r) -> exists c', CTRun.unit_out b = (c', r) /\ Rc t' c').
  { intros [a oa] b H X. injection X as <- <-. destruct (H _ _ eq_refl) as (c' & -> & Rc'). eexists; split; [reflexivity|exact Rc']. }
  assert (G : forall k, g_get eqb hash W k t = hm_get eqb k (ht_entries t)) by (intros k; exact (Rg_get L HH k R)).
  destruct o; cbn [gc_step ct_step].
  - apply U. intros. eapply sim_bump; eauto.
  - apply U. intros. eapply sim_extend; eauto.
  - apply U. unfold gc_extend_ref, ct_extend_ref. rewrite map_id.
    fold (gc_extend eqb hash W E hint xs t). fold (ct_extend eqb E hint xs (Counter (ht_entries t))).
    intros. eapply sim_extend; eauto.
  - apply U. unfold gc_add_assign, ct_add_assign. intros a b. apply (@sim_for_each _ _ _ Rc); auto.
    intros [k n] s m s' o'. apply sim_bump.
  - apply U. unfold gc_add_assign_ref, ct_add_assign_ref. intros a b. apply (@sim_for_each _ _ _ Rc); auto.
    intros [k n] s m s' o'. apply sim_bump.
  - apply U. unfold gc_sub_assign, ct_sub_assign. intros a b. apply (@sim_for_each _ _ _ Rc); auto.
    intros [k n] s m s' o'. apply sim_lower.
  - apply U. unfold gc_sub_assign_ref, ct_sub_assign_ref. intros a b. apply (@sim_for_each _ _ _ Rc); auto.
    intros [k n] s m s' o'. apply sim_lower.
  - intros H. injection H as <- <-. rewrite G. eexists; split; [reflexivity|exact R].
  - intros H. injection H as <- <-. rewrite (Rg_entry_of L HH k R). eexists; split; [reflexivity|exact R].
  - intros H. injection H as <- <-. rewrite G. eexists; split; [|exact R]. unfold ct_index, ct_get. simpl.
    now destruct (hm_get eqb k (ht_entries t)).
  - intros H. injection H as <- <-. unfold g_contains. rewrite G. eexists; split; [reflexivity|exact R].
  - intros H. injection H as <- <-. eexists; split; [reflexivity|exact R].
  - intros H. injection H as <- <-. eexists; split; [reflexivity|exact R].
  - intros H. injection H as <- <-. eexists; split; [reflexivity|exact R].
  - unfold ct_insert. destruct (g_insert eqb hash W E k n t) as [t1 o1] eqn:S. intros H. injection H as <- <-.
    destruct (Rg_insert E L HH W2 _ _ R S) as (m' & H & R1). simpl in *. rewrite H. eauto.
  - unfold ct_remove. intros H. injection H as <- <-. rewrite G. eexists; split; [reflexivity|].
    unfold Rc. simpl. now apply Rg_remove.
  - unfold gc_get_mut, ct_get_mut, ct_get. rewrite G. simpl. destruct (hm_get eqb k (ht_entries t)); intros H; injection H as <- <-.
    + eexists; split; [reflexivity|]. unfold Rc. simpl. now apply Rg_set.
    + eexists; split; [reflexivity|exact R].
  - intros H. injection H as <- <-. eexists; split; [reflexivity|]. apply Rg_clear, O.
  - intros H. injection H as <- <-. eexists; split; [reflexivity|]. now apply Rg_retain.
  - intros H. injection H as <- <-. eexists; split; [reflexivity|]. now apply Rg_map_values.
  - apply U. intros t1 o1 S. unfold ct_reserve. destruct (Rg_reserve E L W2 _ R S) as (R1 & <- & Le). eauto.
Qed.

(** ** disjoint sets *)
Definition Rd (s : tdset K) (d : dset K) : Prop := Rg (td_ids s) (ds_ids d) /\ td_data s = ds_data d.

Lemma sim_make_or_get x s d s' o : Rd s d -> gd_make_or_get eqb hash W E x s = (s', o) ->
  exists d', ds_make_or_get eqb E x d = (d', o) /\ Rd s' d'.
Proof.
  unfold gd_make_or_get, ds_make_or_get, Rd. intros [R D]. rewrite (Rg_len R), D.
  destruct (g_entry eqb hash W E x (td_ids s)) as [t1 o1] eqn:S.
  destruct (Rg_entry E L HH W2 _ R S) as (R1 & <- & Le).
  destruct o1 as [[old|]| | | |]; intros H; try (injection H as <- <-; eexists; split; [reflexivity|auto]; fail).
  destruct (Le eq_refl). destruct (vec_push E (ds_data d) (data_new (length (ds_ids d)))); injection H as <- <-;
    (eexists; split; [reflexivity|]; split; [|reflexivity]; simpl; now apply Rg_put').
Qed.

Lemma sim_find_in i s d s' o : Rd s d -> td_find_in i s = (s', o) ->
  exists d', ds_find_in i d = (d', o) /\ Rd s' d'.
Proof.
  unfold td_find_in, ds_find_in, Rd. intros [R D]. rewrite D.
  destruct (ds_find (S (length (ds_data d))) (ds_data d) i) as [v o1]. intros H. injection H as <- <-.
  eexists; split; [reflexivity|auto].
Qed.

Lemma sim_make_set x s d s' o : Rd s d -> gd_make_set eqb hash W E x s = (s', o) ->
  exists d', ds_make_set eqb E x d = (d', o) /\ Rd s' d'.
Proof.
  unfold gd_make_set, ds_make_set. intros R. destruct (gd_make_or_get eqb hash W E x s) as [s1 o1] eqn:Q.
  destruct (sim_make_or_get _ R Q) as (d1 & -> & R1). intros H. injection H as <- <-. eauto.
Qed.

Lemma sim_union a b s d s' o : Rd s d -> gd_union eqb hash W E a b s = (s', o) ->
  exists d', ds_union eqb E a b d = (d', o) /\ Rd s' d'.
Proof.
  unfold gd_union, ds_union. intros R. destruct (gd_make_or_get eqb hash W E a s) as [s1 o1] eqn:Q1.
  destruct (sim_make_or_get _ R Q1) as (d1 & -> & R1).
  destruct o1 as [ia| | | |]; intros H; try (injection H as <- <-; eauto; fail).
  destruct (gd_make_or_get eqb hash W E b s1) as [s2 o2] eqn:Q2.
  destruct (sim_make_or_get _ R1 Q2) as (d2 & -> & R2).
  destruct o2 as [ib| | | |]; try (injection H as <- <-; eauto; fail).
  destruct (td_find_in ia s2) as [s3 o3] eqn:Q3. destruct (sim_find_in _ R2 Q3) as (d3 & -> & R3).
  destruct o3 as [ra| | | |]; try (injection H as <- <-; eauto; fail).
  destruct (td_find_in ib s3) as [s4 o4] eqn:Q4. destruct (sim_find_in _ R3 Q4) as (d4 & -> & R4).
  destruct o4 as [rb| | | |]; try (injection H as <- <-; eauto; fail).
  destruct (ra =? rb); try (injection H as <- <-; eauto; fail).
  destruct R4 as [R4 D4]. rewrite D4 in H. destruct (ds_link E (ds_data d4) ra rb) as [v o5]. injection H as <- <-.
  eexists; split; [reflexivity|]. split; auto.
Qed.

Lemma sim_in_union a b s d s' o : Rd s d -> gd_in_union eqb hash W a b s = (s', o) ->
  exists d', ds_in_union eqb a b d = (d', o) /\ Rd s' d'.
Proof.
  unfold gd_in_union, ds_in_union. intros R. rewrite (Rg_get L HH a (proj1 R)), (Rg_get L HH b (proj1 R)).
  destruct (hm_get eqb a (ds_ids d)) as [ia|]; intros H; [|injection H as <- <-; eauto].
  destruct (hm_get eqb b (ds_ids d)) as [ib|]; [|injection H as <- <-; eauto].
  destruct (td_find_in ia s) as [s3 o3] eqn:Q3. destruct (sim_find_in _ R Q3) as (d3 & -> & R3).
  destruct o3 as [ra| | | |]; try (injection H as <- <-; eauto; fail).
  destruct (td_find_in ib s3) as [s4 o4] eqn:Q4. destruct (sim_find_in _ R3 Q4) as (d4 & -> & R4).
  destruct o4 as [rb| | | |]; injection H as <- <-; eauto.
Qed.

Lemma sim_reserve n s d s' o : Rd s d -> gd_reserve hash W E n s = (s', o) ->
  exists d', ds_reserve E n d = (d', o) /\ Rd s' d'.
Proof.
  unfold gd_reserve, ds_reserve. intros [R D]. rewrite D. unfold vec_reserve.
  destruct (length (ds_data d) + n <=? alloc_max E); simpl; intros H.
  - destruct (g_reserve hash W E n (td_ids s)) as [t1 o1] eqn:S. destruct (Rg_reserve E L W2 _ R S) as (R1 & <- & _).
    injection H as <- <-. eexists; split; [reflexivity|]. split; auto.
  - injection H as <- <-. eexists; split; [reflexivity|]. split; auto.
Qed.

Lemma sim_extend_set h xs s d s' o : Rd s d -> gd_extend eqb hash W E h xs s = (s', o) ->
  exists d', ds_extend eqb E h xs d = (d', o) /\ Rd s' d'.
Proof.
  unfold gd_extend, ds_extend. intros R. destruct (gd_reserve hash W E h s) as [s1 o1] eqn:S.
  destruct (sim_reserve _ R S) as (d1 & -> & R1).
  destruct o1; intros H; [|injection H as <- <-; eauto ..].
  eapply (@sim_for_each _ _ _ Rd); eauto. intros x u m u' o'. apply sim_make_set.
Qed.

Lemma gd_sim o s s' r : GTProofs2.gok eqb hash W (td_ids s) -> gd_step eqb hash W E o s = (s', r) ->
  exists d', ds_step eqb E o (img s) = (d', r) /\ Rd s' d'.
Proof.
  intros O.
  assert (R : Rd s (img s)) by (split; [split; auto|reflexivity]).
  assert (U : forall (a : tdset K * outcome unit) (b : dset K * outcome unit),
    (forall t' o, a = (t', o) -> exists c', b = (c', o) /\ Rd t' c') ->
    gd_unit a = (s', r) -> exists c', DSRun.unit_out b = (c', r) /\ Rd s' c').
  { intros [a oa] b H X. injection X as <- <-. destruct (H _ _ eq_refl) as (c' & -> & Rc'). eexists; split; [reflexivity|exact Rc']. }
  destruct o; cbn [gd_step ds_step].
  - apply U. intros. eapply sim_make_set; eauto.
  - apply U. intros. eapply sim_union; eauto.
  - apply U. intros. eapply sim_extend_set; eauto.
  - apply U. unfold ds_extend_ref. rewrite map_id. fold (ds_extend eqb E hint xs (img s)).
    intros. eapply sim_extend_set; eauto.
  - intros H. injection H as <- <-. eexists; split; [reflexivity|]. split; [apply Rg_clear, O|reflexivity].
  - apply U. intros. eapply sim_reserve; eauto.
  - intros H. injection H as <- <-. unfold g_contains. rewrite (Rg_get L HH x (proj1 R)).
    eexists; split; [reflexivity|exact R].
  - destruct (gd_in_union eqb hash W a b s) as [s1 o1] eqn:S. intros H. injection H as <- <-.
    destruct (sim_in_union _ _ R S) as (d' & -> & R1). eauto.
  - intros H. injection H as <- <-. eexists; split; [reflexivity|exact R].
  - intros H. injection H as <- <-. eexists; split; [reflexivity|exact R].
  - unfold td_into_iter. fold (img s). change (ds_ids (img s)) with (ht_entries (td_ids s)).
    destruct (ds_into_iter E (order (ht_entries (td_ids s))) pick (img s)) as [d' o'] eqn:S.
    intros H. injection H as <- <-. eexists; split; [reflexivity|]. split; [|reflexivity].
    unfold ds_into_iter in S. destruct (ds_build_sets E (order (ht_entries (td_ids s))) (img s)) as [d1 o1] eqn:B.
    injection S as <- <-. unfold ds_build_sets in B. apply group_ids in B. simpl. rewrite B. apply R.
Qed.

(** ** histories *)
Definition t_shown (t : table K nat) : fm K := fun k => g_entry_of eqb hash W k t.

Section CT.
Hypothesis CL : forall k, eqb (cl k) k = true.
Hypothesis U : 1 <= usize_max E.

Lemma gc_history ops t t' tr : GTProofs2.gok eqb hash W t -> ct_valid eqb E (cimg t) -> Forall (CTSpec.op_ok eqb E) ops ->
  gc_run eqb cl hash W E ops t = (t', tr) ->
  GTProofs2.gok eqb hash W t' /\ ct_valid eqb E (cimg t') /\ CTSpec.history eqb E cl ops (shown eqb (cimg t)) (t_shown t') tr.
Proof.
  revert t tr. induction ops as [|o ops IH]; cbn; intros t tr O V Ok H.
  - injection H as <- <-. split; auto. split; auto. constructor. intros x. apply gentry_of_entries; auto.
  - inversion Ok as [|? ? O1 O2]; subst. destruct (gc_step eqb cl hash W E o t) as [t1 r] eqn:S.
    destruct (gc_run eqb cl hash W E ops t1) as [t2 tr2] eqn:T. injection H as <- <-.
    destruct (gc_sim _ O S) as (c1 & C & R). destruct (@CTProofs2.step_ok K eqb L E cl CL U o _ _ _ V O1 C) as [V1 A].
    pose proof R as [Ok1 Q].
    assert (V1' : ct_valid eqb E (cimg t1)).
    { destruct V1 as [V1 V2]. split.
      - eapply (content_perm L); [apply Permutation_sym; exact Q|exact V1].
      - unfold ct_len in *. simpl. rewrite (Permutation_length Q). exact V2. }
    destruct (IH _ _ Ok1 V1' O2 T) as (Ok2 & V2 & Hi). split; auto. split; auto.
    econstructor; [|exact Hi]. eapply allowed_post; [|exact A]. intros x.
    unfold shown, ct_get_key_value, cimg. simpl. symmetry. apply entry_of_perm; auto. apply Ok1.
Qed.
End CT.

Section DS.
Hypothesis RF : ranks_fit E.

Lemma img_valid s d : Rd s d -> DSProofs2.valid eqb E d -> DSProofs2.valid eqb E (img s).
Proof.
  intros [[O Q] D] (Wf & Ld & Le & Pe & F & H). unfold img, DSProofs2.valid. cbn [ds_ids ds_data].
  rewrite D, (Permutation_length Q). split; [apply O|]. split; auto. split; auto. split; auto.
  eapply Permutation_trans; [apply Permutation_map; exact Q|exact Pe].
Qed.

Lemma img_shows s d g : Rd s d -> shows eqb d g -> shows eqb (img s) g.
Proof.
  intros [[O Q] D] (Pe & Lo & H). split; [|split; auto].
  - cbn [img ds_ids]. eapply Permutation_trans; [apply Permutation_map; exact Q|exact Pe].
  - intros x i y j I J. cbn [img ds_ids] in *. unfold linked in *. cbn [img ds_data]. rewrite D. apply H; eapply Permutation_in; eauto.
Qed.

Lemma gd_step_ok o s s' r g : GTProofs2.gok eqb hash W (td_ids s) -> DSProofs2.valid eqb E (img s) -> shows eqb (img s) g ->
  DSSpec.op_ok o -> gd_step eqb hash W E o s = (s', r) ->
  GTProofs2.gok eqb hash W (td_ids s') /\ DSProofs2.valid eqb E (img s') /\
  exists g', shows eqb (img s') g' /\ DSSpec.allowed eqb E o g g' r.
Proof.
  intros O V S Ok H. destruct (gd_sim _ _ O H) as (d1 & C & R).
  destruct (DSProofs3.step_ok L RF _ V S Ok C) as (g1 & V1 & S1 & A). split; [apply R|].
  split; [eapply img_valid; eauto|]. exists g1. split; auto. eapply img_shows; eauto.
Qed.

Lemma gd_history ops s s' tr g : GTProofs2.gok eqb hash W (td_ids s) -> DSProofs2.valid eqb E (img s) -> shows eqb (img s) g ->
  Forall (@DSSpec.op_ok K) ops -> gd_run eqb hash W E ops s = (s', tr) ->
  GTProofs2.gok eqb hash W (td_ids s') /\ DSProofs2.valid eqb E (img s') /\
  exists g', shows eqb (img s') g' /\ DSSpec.history eqb E ops g g' tr.
Proof.
  revert s tr g. induction ops as [|o ops IH]; cbn; intros s tr g O V S Ok H.
  - injection H as <- <-. split; auto. split; auto. exists g. split; auto. constructor.
  - inversion Ok as [|? ? O1 O2]; subst. destruct (gd_step eqb hash W E o s) as [s1 r] eqn:Q.
    destruct (gd_run eqb hash W E ops s1) as [s2 tr2] eqn:T. injection H as <- <-.
    destruct (gd_step_ok _ O V S O1 Q) as (Ok1 & V1 & g1 & S1 & A).
    destruct (IH _ _ _ Ok1 V1 S1 O2 T) as (Ok2 & V2 & g2 & S2 & Hi). split; auto. split; auto.
    exists g2. split; auto. econstructor; eauto.
Qed.

Lemma gd_contains s g x : GTProofs2.gok eqb hash W (td_ids s) -> shows eqb (img s) g ->
  (g_contains eqb hash W x (td_ids s) = true <-> DSSpec.mem eqb x (added g)).
Proof.
  intros O S. rewrite <- (contains_mem L x S). unfold ds_contains, g_contains, hm_contains.
  assert (R : Rd s (img s)) by (split; [split; auto|reflexivity]).
  rewrite (Rg_get L HH x (proj1 R)). reflexivity.
Qed.

Lemma gd_joined_joined s x y : GTProofs2.gok eqb hash W (td_ids s) -> (gd_joined eqb hash W s x y <-> joined eqb (img s) x y).
Proof.
  intros O. assert (R : Rd s (img s)) by (split; [split; auto|reflexivity]). unfold gd_joined, joined.
  destruct (gd_in_union eqb hash W x y s) as [s1 o1] eqn:Q. destruct (sim_in_union _ _ R Q) as (d & -> & _). reflexivity.
Qed.
End DS.
End Sim.
