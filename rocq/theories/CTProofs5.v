(** Proofs about the counter: panics, overflow, size hints. *)
From Coq Require Import Permutation.
From Verif Require Import Base HMModel HMProofs CTModel CTSpec CTRun CTProofs CTProofs2 CTProofs3 CTProofs4.
Local Open Scope outcome_scope.
Set Implicit Arguments.

Section Proofs.
Variable K : Type.
Variable eqb : K -> K -> bool.
Hypothesis L : eq_laws eqb.
Variable E : machine.
Implicit Types (c a b : counter K) (m : hmap K nat) (f g : fm K) (x k : K) (l : list (K * nat)).

Notation sh := (shown eqb).
Notation valid := (ct_valid eqb E).
Notation get := (ct_get eqb).
Notation cnt c x := (opt_count (ct_get eqb c x)).
Notation occ := (occ eqb).

Lemma sub_orders a b l1 l2 : valid a -> valid b -> iterates (ct_map b) l1 -> iterates (ct_map b) l2 ->
  ct_len a < alloc_max E -> agree eqb (ct_sub eqb E a l1) (ct_sub eqb E a l2).
Proof.
  intros Va Vb P1 P2 Le.
  destruct (iterates_content L Vb P1) as [D1 _]. destruct (iterates_content L Vb P2) as [D2 _].
  destruct (sub_ret L l1 Va D1 Le) as (c1 & H1). destruct (sub_ret L l2 Va D2 Le) as (c2 & H2).
  rewrite H1, H2. unfold agree.
  destruct (sub_inv L _ Va D1 H1) as (_ & V1 & _). destruct (sub_inv L _ Va D2 H2) as (_ & V2 & _).
  apply (eq_iff L V1 V2). intros x.
  now rewrite (sub_pointwise L Va Vb P1 H1), (sub_pointwise L Va Vb P2 H2).
Qed.

Lemma sub_ref_orders cl a b l1 l2 : (forall k, eqb (cl k) k = true) ->
  valid a -> valid b -> iterates (ct_map b) l1 -> iterates (ct_map b) l2 ->
  ct_len a < alloc_max E -> agree eqb (ct_sub eqb E a l1) (finish (ct_sub_assign_ref eqb cl E l2 a)).
Proof.
  intros CL Va Vb P1 P2 Le.
  destruct (iterates_content L Vb P1) as [D1 _]. destruct (iterates_content L Vb P2) as [D2 _].
  destruct (sub_ret L l1 Va D1 Le) as (c1 & H1).
  assert (D3 : distinct eqb (map fst (clonel cl l2))) by now apply (clonel_distinct L cl CL).
  destruct (sub_ret L _ Va D3 Le) as (c2 & H2).
  assert (H3 : finish (ct_sub_assign_ref eqb cl E l2 a) = Ret c2).
  { rewrite sub_assign_ref_lowers. exact H2. }
  rewrite H1, H3. unfold agree.
  destruct (sub_inv L _ Va D1 H1) as (_ & V1 & _).
  destruct (sub_ref_inv L cl l2 CL Va D2 H3) as (V2 & G).
  apply (eq_iff L V1 V2). intros x.
  now rewrite (sub_pointwise L Va Vb P1 H1), G, (entry_iterates L x Vb P2).
Qed.

Lemma from_iter_total h xs c : 1 <= usize_max E -> ct_from_iter eqb E h xs = Ret c ->
  debug_build E = true \/ length xs <= usize_max E -> total (ct_map c) = length xs.
Proof.
  intros U H Ov. rewrite from_iter_extend in H. unfold finish in H.
  destruct (ct_extend eqb E h xs (ct_new K)) as [c' r] eqn:X. simpl in H.
  destruct r as [[]| | | |]; simpl in H; try discriminate. inversion H; subst.
  apply extend_inv in X; auto using new_valid. destruct X as [_ X].
  assert (T := total_unitl xs).
  destruct (@bumps_total' K eqb L E (unitl xs) (ct_new K) c tt (new_valid eqb E)
    (unitl_small E U xs) X) as [_ Y].
  - destruct Ov as [Ov|Ov]; [left; exact Ov|right]. rewrite T. exact Ov.
  - rewrite Y, T. reflexivity.
Qed.

Lemma push_debug k c : 1 <= usize_max E -> debug_build E = true -> valid c ->
  (ct_push eqb E k c = (c, Panic) /\
    (cnt c k = usize_max E \/ (get c k = None /\ ct_len c = alloc_max E))) \/
  (exists c', ct_push eqb E k c = (c', Ret tt) /\ get c' k = Some (S (cnt c k))).
Proof.
  intros U D V. destruct (@bump_cases K eqb L E k 1 c V U) as [(c' & H & V' & S & O)|[H O]].
  - right. exists c'. split; auto.
    destruct (@push_counts K eqb L E U k c c' V H (or_introl D)) as [_ G].
    rewrite (G k), (eq_refl' L). reflexivity.
  - left. split; auto. destruct O as [[_ O]|[O1 O2]].
    + left. rewrite <- cnt_count in O. pose proof (cnt_le k V). lia.
    + right. split; auto. rewrite get_shown, O1. reflexivity.
Qed.

Lemma push_wraps k : debug_build E = false -> 1 <= alloc_max E -> 1 <= usize_max E ->
  exists c c', valid c /\ get c k = Some (usize_max E) /\
    ct_push eqb E k c = (c', Ret tt) /\ get c' k = Some 0.
Proof.
  intros D A U. exists (Counter [(k, usize_max E)]).
  assert (V : valid (Counter [(k, usize_max E)])).
  { split; [split; repeat constructor|exact A]. }
  assert (G : get (Counter [(k, usize_max E)]) k = Some (usize_max E)).
  { unfold ct_get, hm_get; simpl. now rewrite (eq_refl' L). }
  destruct (@bump_cases K eqb L E k 1 _ V U) as [(c' & H & V' & S & O)|[H O]].
  - exists c'. split; [exact V|]. split; [exact G|]. split; [exact H|].
    rewrite (get_plus k V S), G. unfold amount; simpl. rewrite (eq_refl' L). simpl.
    unfold wrap. rewrite Nat.add_1_r. f_equal. now apply Nat.mod_same.
  - exfalso. destruct O as [[O _]|[O _]]; [congruence|].
    rewrite get_shown, O in G. discriminate.
Qed.

Lemma from_hashmap_entries m : map_content eqb E m -> length m <= alloc_max E ->
  valid (ct_from_hashmap m) /\ ct_len (ct_from_hashmap m) = length m /\
  forall x e, ct_get_key_value eqb (ct_from_hashmap m) x = Some e <-> In e m /\ eqb x (fst e) = true.
Proof.
  intros M N. assert (V : valid (Counter m)) by (split; auto).
  split; [exact V|]. split; [reflexivity|]. intros x e. exact (wf_iff L x e (valid_wf V)).
Qed.

Lemma from_entries m l : map_content eqb E m -> length m <= alloc_max E -> iterates m l ->
  exists c, ct_from eqb E l = Ret c /\ ct_len c = length m /\
    forall x e, ct_get_key_value eqb c x = Some e <-> In e m /\ eqb x (fst e) = true.
Proof.
  intros M N P. assert (V : valid (Counter m)) by (split; auto).
  destruct (from_ok L V P) as (c' & H & V' & S). exists c'. split; [exact H|].
  split.
  - apply (len_shown L V'). apply (size_same (same_sym S)). exact (shown_size V).
  - intros x e. change (ct_get_key_value eqb c' x) with (sh c' x). rewrite (S x).
    exact (wf_iff L x e (valid_wf V)).
Qed.

Lemma from_ref_entries cl m l : (forall k, eqb (cl k) k = true) ->
  map_content eqb E m -> length m <= alloc_max E -> iterates m l ->
  exists c, ct_from_ref eqb cl E l = Ret c /\ ct_len c = length m /\
    forall x n, get c x = Some n <-> exists k, In (k, n) m /\ eqb x k = true.
Proof.
  intros CL M N P. assert (V : valid (Counter m)) by (split; auto).
  destruct (from_ref_ok L cl CL V P) as (c' & H & V' & G). exists c'. split; [exact H|].
  split.
  - apply (len_shown L V'). apply (@size_dom K eqb (sh (Counter m))).
    + intros y. rewrite <- !get_dom, G. tauto.
    + exact (shown_size V).
  - intros x n. rewrite G, get_shown. split.
    + destruct (sh (Counter m) x) as [[k v]|] eqn:Q; simpl; [|discriminate]. intros X; inversion X; subst.
      apply (wf_iff L x (k, n) (valid_wf V)) in Q. eauto.
    + intros (k & I1 & I2). 
      assert (Q : sh (Counter m) x = Some (k, n)) by (apply (wf_iff L x (k, n) (valid_wf V)); auto).
      rewrite Q. reflexivity.
Qed.

Lemma clone_eq cl c : (forall k, eqb (cl k) k = true) -> valid c ->
  valid (ct_clone cl c) /\ ct_eq eqb (ct_clone cl c) c = true.
Proof.
  intros CL V. pose proof (clone_valid L cl CL V) as V'. split; [exact V'|].
  apply (eq_iff L V' V). intros x. now apply (clone_get L).
Qed.

Lemma add_panic a b l c : valid a -> valid b -> iterates (ct_map b) l ->
  ct_add_assign eqb E l a = (c, Panic) ->
  valid c /\
  (forall x, get c x = get a x \/ get c x = option_map (wrap E) (opt_plus (get a x) (get b x))) /\
  (exists x, get c x = get a x /\ get b x <> None /\
     ((debug_build E = true /\ usize_max E < cnt a x + cnt b x) \/
      (get a x = None /\ ct_len c = alloc_max E))).
Proof.
  intros Va Vb P H. destruct (iterates_content L Vb P) as [D F].
  change (ct_add_assign eqb E l a) with (bumps eqb E l a) in H.
  destruct (bumps_cases L Va F) as [(c' & H2 & _)|(c' & l1 & e & l2 & H2 & V' & -> & H1 & S & O)];
    rewrite H2 in H; inversion H; subst c'.
  split; [exact V'|].
  assert (A : forall x, amount eqb x l1 = 0 /\ entry_in eqb l1 x = None \/
     amount eqb x l1 = cnt b x /\ entry_in eqb l1 x <> None /\ get b x <> None).
  { intros x. destruct (entry_in eqb l1 x) as [[k n]|] eqn:Q.
    - right. assert (Q2 : entry_in eqb (l1 ++ e :: l2) x = Some (k, n)) by (rewrite entry_in_app, Q; auto).
      rewrite map_app in D. 
      assert (D1 : distinct eqb (map fst l1)).
      { clear - D. induction l1 as [|p l1 IH]; simpl in *; [constructor|].
        inversion D as [|? ? D1 D2]; subst. constructor; [|apply IH; exact D2].
        rewrite Forall_forall in *. intros z Z. apply D1. apply in_or_app; auto. }
      rewrite (amount_distinct L _ x D1), Q. simpl.
      pose proof (entry_iterates L x Vb P) as Ei. rewrite Q2 in Ei. simpl in Ei. rewrite <- Ei.
      simpl. split; auto. split; congruence.
    - left. split; auto. now apply entry_in_none_amount. }
  split.
  - intros x. rewrite (get_plus x Va S). destruct (A x) as [[-> ->]|(-> & N & Nb)].
    + left. destruct (get a x) as [n|] eqn:Q; auto. simpl. rewrite Nat.add_0_r, wrap_id; auto.
      exact (get_le _ Va Q).
    + right. destruct (get a x) as [n|], (entry_in eqb l1 x) as [[k v]|], (get b x) as [w|]; simpl; congruence.
  - assert (N1 : entry_in eqb l1 (fst e) = None).
    { destruct (entry_in eqb l1 (fst e)) as [[k n]|] eqn:Q; auto. exfalso.
      unfold entry_in in Q. apply find_some in Q. destruct Q as [Q1 Q2]. simpl in Q2.
      clear - D Q1 Q2 L. induction l1 as [|p l1 IH]; simpl in *; [tauto|].
      inversion D as [|? ? D1 D2]; subst. destruct Q1 as [->|Q1]; [|auto].
      rewrite Forall_forall in D1. specialize (D1 (fst e)). simpl in D1.
      rewrite (eqb_sym L), D1 in Q2; [discriminate|]. rewrite map_app. apply in_or_app. simpl; auto. }
    assert (Eb : get b (fst e) = Some (snd e)).
    { rewrite <- (entry_iterates L (fst e) Vb P), entry_in_app, N1.
      unfold entry_in; simpl. now rewrite (eq_refl' L). }
    assert (Gc : get c (fst e) = get a (fst e)).
    { rewrite (get_plus (fst e) Va S), N1, (entry_in_none_amount _ _ _ N1).
      destruct (get a (fst e)) as [n|] eqn:Q; auto. simpl. rewrite Nat.add_0_r, wrap_id; auto.
      exact (get_le _ Va Q). }
    exists (fst e). split; [exact Gc|]. split; [congruence|].
    destruct O as [[D1 O]|[O1 O2]].
    + left. split; auto. rewrite <- cnt_count in O. rewrite amount_app, (entry_in_none_amount _ _ _ N1) in O.
      rewrite amount_one, (eq_refl' L) in O. rewrite Eb. simpl in *. lia.
    + right. split; auto. rewrite <- Gc, get_shown, O1. reflexivity.
Qed.

Lemma hint_panics xs c : alloc_max E < length xs ->
  ct_from_iter eqb E (length xs) xs = Panic /\ ct_extend eqb E (length xs) xs c = (c, Panic).
Proof.
  intros N. unfold ct_from_iter, ct_with_capacity, ct_extend, hm_reserve. simpl.
  replace (length xs <=? alloc_max E) with false by (symmetry; apply Nat.leb_gt; lia).
  replace (length (ct_map c) + length xs <=? alloc_max E) with false by (symmetry; apply Nat.leb_gt; lia).
  auto.
Qed.

Lemma small_hint x xs h : 1 <= alloc_max E -> 1 <= usize_max E -> h <= alloc_max E ->
  length xs <= usize_max E -> Forall (fun y => eqb x y = true) xs -> xs <> [] ->
  exists c, ct_from_iter eqb E h xs = Ret c /\ get c x = Some (length xs).
Proof.
  intros A U H N F Ne.
  assert (O : forall y, occ y xs <= length xs).
  { intros y. unfold CTSpec.occ. clear. induction xs as [|z xs IH]; simpl; auto.
    destruct (eqb y z); simpl; lia. }
  assert (Ox : occ x xs = length xs).
  { unfold CTSpec.occ. clear Ne O N. induction F as [|y xs Fy F IH]; simpl; auto. rewrite Fy. simpl. now rewrite IH. }
  destruct (@from_iter_returns K eqb L E U h xs 1 H) as (c & Hc); auto.
  - exists [x]. split; [repeat constructor|]. split; [reflexivity|]. intros z. split.
    + intros (k & [<-|[]] & Z). destruct xs as [|y xs']; [congruence|]. exists y. split; [simpl; auto|].
      inversion F; subst. rewrite (eqb_cong L _ Z). assumption.
    + intros (y & Y & Z). exists x. split; [simpl; auto|].
      rewrite Forall_forall in F. specialize (F y Y). now rewrite (eqb_cong_r L z F).
  - intros _ y. specialize (O y). lia.
  - exists c. split; auto.
    destruct (@from_iter_counts K eqb L E U h xs c Hc) as (_ & G & _).
    { right. intros y. specialize (O y). lia. }
    rewrite G, Ox. destruct xs; [congruence|reflexivity].
Qed.

End Proofs.
