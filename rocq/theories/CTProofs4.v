(** Proofs about the counter: construction, totals, most common elements,
    conversions, algebraic laws. *)
From Coq Require Import Permutation Sorting.
From Verif Require Import Base HMModel HMProofs CTModel CTSpec CTRun CTProofs CTProofs2 CTProofs3.
Local Open Scope outcome_scope.
Set Implicit Arguments.

Section Proofs.
Variable K : Type.
Variable eqb : K -> K -> bool.
Hypothesis L : eq_laws eqb.
Variable E : machine.
Implicit Types (c a b : counter K) (m : hmap K nat) (f g : fm K) (x k : K) (l : list (K * nat)).

Notation sh := (shown eqb).
Notation valid := (ct_valid eqb E).
Notation pl := (plus eqb E).
Notation mi := (minus eqb).
Notation amt := (amount eqb).
Notation bumps := (bumps eqb E).
Notation lowers := (lowers eqb E).
Notation get := (ct_get eqb).
Notation cnt c x := (opt_count (ct_get eqb c x)).
Notation occ := (occ eqb).

(** ** Occurrences *)
Lemma occ_zero x xs : occ x xs = 0 <-> ~ covered eqb x xs.
Proof.
  unfold CTSpec.occ. rewrite length_zero_iff_nil. split.
  - intros H (y & A & B). assert (X : In y (filter (eqb x) xs)) by (apply filter_In; auto).
    rewrite H in X. contradiction.
  - intros H. destruct (filter (eqb x) xs) as [|y q] eqn:Q; auto. exfalso. apply H.
    exists y. apply filter_In. rewrite Q. simpl; auto.
Qed.

Lemma occ_perm x xs ys : Permutation xs ys -> occ x xs = occ x ys.
Proof.
  unfold CTSpec.occ. induction 1 as [|y xs ys P IH|y z xs|xs ys zs P1 IH1 P2 IH2]; simpl; auto.
  - destruct (eqb x y); simpl; auto.
  - destruct (eqb x y), (eqb x z); simpl; auto.
  - congruence.
Qed.

Lemma covered_perm x (xs ys : list K) : Permutation xs ys -> covered eqb x xs -> covered eqb x ys.
Proof. intros P (k & A & B). exists k. split; auto. eapply Permutation_in; eauto. Qed.

Lemma unit_entry_none x xs : entry_in eqb (unitl xs) x = None <-> occ x xs = 0.
Proof.
  rewrite occ_zero. rewrite entry_in_model, entry_of_none. unfold unitl. split.
  - intros H (y & A & B). specialize (H (y, 1)). simpl in H. rewrite H in B; [discriminate|].
    apply in_map_iff; eauto.
  - intros H e X. apply in_map_iff in X. destruct X as (y & <- & X). simpl.
    destruct (eqb x y) eqn:Q; auto. exfalso; apply H. exists y; auto.
Qed.

Section Unit.
Hypothesis U : 1 <= usize_max E.

(** ** extend *)
Lemma extend_inv h xs c c' : valid c -> ct_extend eqb E h xs c = (c', Ret tt) ->
  ct_len c + h <= alloc_max E /\ bumps (unitl xs) c = (c', Ret tt).
Proof.
  intros V. unfold ct_extend, hm_reserve. rewrite push_bumps.
  destruct (length (ct_map c) + h <=? alloc_max E) eqn:Q; [|discriminate].
  apply Nat.leb_le in Q. auto.
Qed.

Lemma extend_counts h xs c c' : valid c -> ct_extend eqb E h xs c = (c', Ret tt) ->
  debug_build E = true \/ (forall x, cnt c x + occ x xs <= usize_max E) ->
  valid c' /\
  forall x, get c' x = opt_plus (get c x) (if occ x xs =? 0 then None else Some (occ x xs)).
Proof.
  intros V H Ov. destruct (extend_inv _ _ V H) as [_ B].
  destruct (bumps_ret_inv L V (unitl_small E U xs) B) as (V' & S & G & _).
  split; auto. intros x.
  assert (Q : cnt c x + occ x xs <= usize_max E).
  { destruct Ov as [D|Ov]; auto. specialize (G D x). rewrite amount_unitl, <- cnt_count in G. auto. }
  rewrite (get_plus x V S), amount_unitl, wrap_id by exact Q.
  pose proof (unit_entry_none x xs) as N.
  destruct (occ x xs =? 0) eqn:Z.
  - apply Nat.eqb_eq in Z. rewrite Z. apply N in Z. rewrite Z.
    destruct (get c x) as [n|]; simpl; auto.
  - apply Nat.eqb_neq in Z.
    destruct (entry_in eqb (unitl xs) x) as [e|]; [|destruct Z; apply N; auto].
    destruct (get c x) as [n|]; simpl; auto.
Qed.

Lemma extend_returns h xs c n : valid c -> ct_len c + h <= alloc_max E ->
  has_distinct eqb (map fst (ct_map c) ++ xs) n -> n <= alloc_max E ->
  (debug_build E = true -> forall x, cnt c x + occ x xs <= usize_max E) ->
  exists c', ct_extend eqb E h xs c = (c', Ret tt).
Proof.
  intros V Le (ks & D & <- & H) N Ov. unfold ct_extend, hm_reserve. rewrite push_bumps.
  replace (length (ct_map c) + h <=? alloc_max E) with true by (symmetry; now apply Nat.leb_le).
  destruct (@bumps_ret K eqb L E c (unitl xs) (length ks)) as (c' & Hc & _); eauto.
  - apply unitl_small; auto.
  - exists ks. split; auto. split; auto. intros x. rewrite plus_dom, unitl_keys.
    rewrite (H x). split.
    + intros [X|(k & A & B)].
      * unfold shown, ct_get_key_value in X.
        destruct (hm_entry_of eqb x (ct_map c)) as [[k v]|] eqn:Q; [|congruence].
        apply entry_of_some in Q. destruct Q as [A B]. exists k. split; auto.
        apply in_or_app; left. apply (in_map fst) in A. exact A.
      * exists k; split; auto. apply in_or_app; auto.
    + intros (k & A & B). apply in_app_or in A. destruct A as [A|A].
      * left. unfold shown, ct_get_key_value. intros Q. rewrite entry_of_none in Q.
        apply in_map_iff in A. destruct A as (e & <- & A). rewrite (Q _ A) in B. discriminate.
      * right. exists k; auto.
  - intros Dg x. rewrite amount_unitl, <- cnt_count. auto.
Qed.

Lemma extend_perm h xs ys c : valid c -> Permutation xs ys ->
  snd (ct_extend eqb E h xs c) = snd (ct_extend eqb E h ys c) /\
  (snd (ct_extend eqb E h xs c) = Ret tt ->
   ct_eq eqb (fst (ct_extend eqb E h xs c)) (fst (ct_extend eqb E h ys c)) = true).
Proof.
  intros V P. unfold ct_extend, hm_reserve. rewrite !push_bumps.
  destruct (length (ct_map c) + h <=? alloc_max E); simpl; [|split; auto; discriminate].
  assert (A : agree eqb (finish (bumps (unitl xs) c)) (finish (bumps (unitl ys) c))).
  { apply (agree_bumps L); auto using unitl_small.
    - intros x. rewrite !amount_unitl. now rewrite (occ_perm x P).
    - intros x. rewrite !plus_dom, !unitl_keys. split; (intros [X|X]; [left; exact X|right]).
      + exact (covered_perm P X).
      + exact (covered_perm (Permutation_sym P) X). }
  destruct (bumps_outcome L V (unitl_small E U xs)) as [O1|O1],
           (bumps_outcome L V (unitl_small E U ys)) as [O2|O2];
  destruct (bumps (unitl xs) c) as [c1 r1] eqn:B1, (bumps (unitl ys) c) as [c2 r2] eqn:B2;
  simpl in *; subst; simpl in A; try contradiction; auto.
  split; auto. discriminate.
Qed.

Lemma push_counts k c c' : valid c -> ct_push eqb E k c = (c', Ret tt) ->
  debug_build E = true \/ cnt c k < usize_max E ->
  valid c' /\ forall x, get c' x = if eqb x k then Some (S (cnt c k)) else get c x.
Proof.
  intros V H Ov.
  destruct (bump_cases L k V U) as [(c2 & H2 & V' & S & G)|[H2 _]];
    unfold ct_push in H; rewrite H2 in H; inversion H; subst.
  split; auto. intros x. rewrite (get_plus x V S), amount_one.
  unfold entry_in; simpl. rewrite <- cnt_count in G.
  pose proof (cnt_le x V) as Le.
  destruct (eqb x k) eqn:Q; simpl.
  - rewrite (get_cong L c _ _ Q). rewrite wrap_id.
    + rewrite Nat.add_1_r. now destruct (get c k).
    + destruct Ov as [D|Ov]; [apply G; exact D|lia].
  - rewrite Nat.add_0_r, wrap_id by exact Le. now destruct (get c x).
Qed.

(** ** from_iter *)
Lemma from_iter_extend h xs : ct_from_iter eqb E h xs = finish (ct_extend eqb E h xs (ct_new K)).
Proof.
  unfold ct_from_iter, ct_with_capacity, ct_extend, hm_reserve, ct_new. simpl.
  destruct (h <=? alloc_max E); reflexivity.
Qed.

Lemma from_iter_inv h xs c : ct_from_iter eqb E h xs = Ret c ->
  ct_extend eqb E h xs (ct_new K) = (c, Ret tt).
Proof.
  rewrite from_iter_extend. unfold finish.
  destruct (ct_extend eqb E h xs (ct_new K)) as [c' [[]| | | |]]; simpl; try discriminate.
  intros X; inversion X; auto.
Qed.

Lemma from_iter_counts h xs c : ct_from_iter eqb E h xs = Ret c ->
  debug_build E = true \/ (forall x, occ x xs <= usize_max E) ->
  valid c /\ (forall x, get c x = if occ x xs =? 0 then None else Some (occ x xs)) /\
  has_distinct eqb xs (ct_len c).
Proof.
  intros H Ov. apply from_iter_inv in H.
  destruct (extend_counts h xs (new_valid eqb E) H) as [V' G].
  { destruct Ov as [D|Ov]; [left; exact D|right]. intros x. simpl. auto. }
  split; auto.
  assert (G' : forall x, get c x = if occ x xs =? 0 then None else Some (occ x xs)).
  { intros x. rewrite G. simpl. destruct (occ x xs =? 0); auto. }
  split; auto.
  destruct (shown_size V') as (ks & D & N & Hk). exists ks. split; auto. split; auto.
  intros x. rewrite <- Hk, <- get_dom, G'.
  destruct (occ x xs =? 0) eqn:Z.
  - apply Nat.eqb_eq, occ_zero in Z. split; [congruence|]. intros X. exfalso; apply Z. exact X.
  - split; [|congruence]. intros _. apply Nat.eqb_neq in Z.
    destruct (covered_dec eqb x xs) as [C|C]; auto. destruct Z. now apply occ_zero.
Qed.

Lemma from_iter_returns h xs n : h <= alloc_max E -> has_distinct eqb xs n -> n <= alloc_max E ->
  (debug_build E = true -> forall x, occ x xs <= usize_max E) ->
  exists c, ct_from_iter eqb E h xs = Ret c.
Proof.
  intros Le D N Ov.
  destruct (@extend_returns h xs (ct_new K) n) as (c & H); auto.
  - apply new_valid.
  - exists c. rewrite from_iter_extend, H. reflexivity.
Qed.

Lemma from_iter_ref_agree cl h xs : (forall k, eqb (cl k) k = true) ->
  agree eqb (ct_from_iter eqb E h xs) (ct_from_iter_ref eqb cl E h xs).
Proof.
  intros CL. unfold ct_from_iter, ct_from_iter_ref, ct_with_capacity, hm_reserve; simpl.
  destruct (h <=? alloc_max E); simpl; auto.
  rewrite !push_bumps. apply (agree_bumps L); auto using unitl_small, new_valid.
  - apply new_valid.
  - apply new_valid.
  - intros x. rewrite !amount_unitl. f_equal. unfold CTSpec.occ.
    induction xs as [|y xs IH]; simpl; auto.
    rewrite (eqb_cong_r L x (CL y)). destruct (eqb x y); simpl; auto.
  - intros x. rewrite !plus_dom, !unitl_keys. unfold covered.
    split; (intros [X|(k & A & B)]; [left; auto|right]).
    + exists (cl k). rewrite (eqb_cong_r L x (CL k)). split; auto. now apply in_map.
    + apply in_map_iff in A. destruct A as (y & <- & A). exists y.
      rewrite <- (eqb_cong_r L x (CL y)). auto.
Qed.

(** counting a concatenation is adding the counters *)
Lemma occ_app x xs ys : occ x (xs ++ ys) = occ x xs + occ x ys.
Proof. unfold CTSpec.occ. rewrite filter_app, app_length. auto. Qed.

Lemma from_iter_app h h1 h2 xs ys c c1 c2 l2 :
  ct_from_iter eqb E h (xs ++ ys) = Ret c -> ct_from_iter eqb E h1 xs = Ret c1 ->
  ct_from_iter eqb E h2 ys = Ret c2 -> iterates (ct_map c2) l2 ->
  debug_build E = true \/ (forall x, occ x (xs ++ ys) <= usize_max E) ->
  exists c12, ct_add eqb E c1 l2 = Ret c12 /\ ct_eq eqb c c12 = true.
Proof.
  intros H H1 H2 P Ov.
  assert (Ov' : forall x, occ x (xs ++ ys) <= usize_max E).
  { destruct Ov as [D|Ov]; auto. intros x. pose proof (from_iter_inv _ _ H) as B.
    apply extend_inv in B; [|apply new_valid]. destruct B as [_ B].
    destruct (bumps_ret_inv L (new_valid eqb E) (unitl_small E U (xs ++ ys)) B) as (_ & _ & G & _).
    specialize (G D x). rewrite amount_unitl, <- cnt_count in G. simpl in G. exact G. }
  destruct (from_iter_counts _ _ H) as (V & G & Sz); [right; auto|].
  destruct (from_iter_counts _ _ H1) as (V1 & G1 & _).
  { right. intros x. specialize (Ov' x). rewrite occ_app in Ov'. lia. }
  destruct (from_iter_counts _ _ H2) as (V2 & G2 & _).
  { right. intros x. specialize (Ov' x). rewrite occ_app in Ov'. lia. }
  assert (Cn : forall x, cnt c1 x + cnt c2 x <= usize_max E).
  { intros x. rewrite G1, G2. specialize (Ov' x). rewrite occ_app in Ov'.
    destruct (occ x xs =? 0), (occ x ys =? 0); simpl; lia. }
  destruct (@add_returns K eqb L E c1 c2 V1 V2 l2 (ct_len c) P) as (c12 & H12); auto.
  - eapply size_dom; [|eapply shown_size; exact V]. intros y.
    rewrite <- get_dom, G, occ_app.
    pose proof (get_dom eqb c1 y) as D1. pose proof (get_dom eqb c2 y) as D2.
    rewrite G1 in D1. rewrite G2 in D2.
    destruct (occ y xs) as [|n1], (occ y ys) as [|n2]; simpl in *;
      destruct (sh c1 y), (sh c2 y); split; intros X; try congruence;
      try (exfalso; destruct D1 as [D1 D1']; apply D1'; congruence);
      try (exfalso; destruct D2 as [D2 D2']; apply D2'; congruence);
      try (apply D1; congruence); try (apply D2; congruence).
  - apply V.
  - exists c12. split; auto.
    destruct (add_inv L V1 V2 P H12) as (_ & V12 & _).
    apply (eq_iff L V V12). intros x.
    rewrite (add_pointwise L V1 V2 P H12 (or_intror Cn) x), G, G1, G2, occ_app.
    destruct (occ x xs) as [|n1], (occ x ys) as [|n2]; simpl; auto.
Qed.

End Unit.

(** ** Totals *)
Lemma total_cons e l : total (e :: l) = snd e + total l.
Proof. reflexivity. Qed.

Lemma total_set k v m n : hm_get eqb k m = Some n -> total (hm_set eqb k v m) + n = total m + v.
Proof.
  unfold hm_get. induction m as [|[k' n'] m IH]; simpl; [discriminate|].
  destruct (eqb k k'); simpl.
  - intros X; inversion X; subst. rewrite !total_cons. simpl. lia.
  - intros X. apply IH in X. rewrite !total_cons. simpl. lia.
Qed.

Lemma bump_total k v c c' r : ct_bump eqb E k v c = (c', Ret r) ->
  cnt c k + v <= usize_max E -> total (ct_map c') = total (ct_map c) + v.
Proof.
  unfold ct_bump, hm_entry. unfold ct_get.
  destruct (hm_get eqb k (ct_map c)) as [n|] eqn:H; simpl.
  - intros X Le. rewrite uadd_fits in X by exact Le. inversion X; subst. simpl.
    pose proof (total_set k (n + v) (ct_map c) H). lia.
  - unfold hm_reserve. destruct (length (ct_map c) + 1 <=? alloc_max E); simpl; [|discriminate].
    intros X Le. rewrite uadd_fits in X by exact Le.
    inversion X; subst. unfold hm_insert_vacant. simpl. rewrite total_cons. simpl. lia.
Qed.

Lemma bumps_total l c c' r : valid c -> Forall (fun e : K * nat => snd e <= usize_max E) l ->
  bumps l c = (c', Ret r) ->
  (forall x, cnt c x + amt x l <= usize_max E) -> total (ct_map c') = total (ct_map c) + total l.
Proof.
  unfold CTProofs.bumps. revert c. induction l as [|e l IH]; intros c V F H Ov; simpl in H.
  - inversion H; subst. unfold total; simpl. lia.
  - inversion F as [|? ? Fv F2]; subst.
    destruct (bump_cases L (fst e) V Fv) as [(c1 & H1 & V1 & S1 & _)|[H1 _]]; rewrite H1 in H; [|discriminate].
    rewrite total_cons.
    assert (O1 : cnt c (fst e) + snd e <= usize_max E).
    { specialize (Ov (fst e)). rewrite amount_cons, (eq_refl' L) in Ov. lia. }
    rewrite (IH c1 V1 F2 H).
    + rewrite (bump_total _ _ _ H1 O1). lia.
    + intros x. specialize (Ov x). rewrite amount_cons in Ov.
      rewrite (get_plus x V S1), amount_one. unfold entry_in; simpl.
      destruct (eqb x (fst e)) eqn:Q.
      * rewrite wrap_id by lia. destruct (get c x); simpl in *; lia.
      * rewrite wrap_id by lia. destruct (get c x); simpl in *; lia.
Qed.

Lemma cnt_total c x : valid c -> cnt c x <= total (ct_map c).
Proof.
  intros _. unfold ct_get, hm_get. induction (ct_map c) as [|[k n] m IH]; simpl; [lia|].
  rewrite total_cons. simpl. destruct (eqb x k); simpl in *; lia.
Qed.

Lemma amount_total x l : amt x l <= total l.
Proof.
  induction l as [|e l IH]; [unfold amount; simpl; lia|].
  rewrite amount_cons, total_cons. destruct (eqb x (fst e)); lia.
Qed.

Lemma total_unitl (xs : list K) : total (unitl xs) = length xs.
Proof. unfold unitl. induction xs as [|y xs IH]; simpl; auto. rewrite total_cons. simpl. lia. Qed.

Lemma total_clonel cl l : total (clonel cl l) = total l.
Proof. unfold total, clonel. rewrite map_map. reflexivity. Qed.

(** additions conserve the total when nothing overflows *)
Lemma bumps_total' l c c' r : valid c -> Forall (fun e : K * nat => snd e <= usize_max E) l ->
  bumps l c = (c', Ret r) ->
  debug_build E = true \/ total (ct_map c) + total l <= usize_max E ->
  valid c' /\ total (ct_map c') = total (ct_map c) + total l.
Proof.
  intros V F H Ov. destruct (bumps_ret_inv L V F H) as (V' & _ & G & _). split; auto.
  eapply bumps_total; eauto. intros x.
  destruct Ov as [D|Ov].
  - rewrite cnt_count. now apply G.
  - pose proof (cnt_total x V). pose proof (amount_total x l). lia.
Qed.

Lemma history_total cl ops ns c c' tr : 1 <= usize_max E -> (forall k, eqb (cl k) k = true) ->
  valid c -> Forall (op_ok eqb E) ops -> Forall2 (fun o n => counted o = Some n) ops ns ->
  ct_run eqb cl E ops c = (c', tr) -> Forall (fun r => r = Ret RUnit) tr ->
  debug_build E = true \/ total (ct_map c) + list_sum ns <= usize_max E ->
  total (ct_map c') = total (ct_map c) + list_sum ns.
Proof.
  intros U CL V Ok Hn. revert c c' tr V Ok. induction Hn as [|o n ops ns Ho Hn IH]; intros c c' tr V Ok R T Ov; simpl in R.
  - inversion R; subst. simpl. lia.
  - inversion Ok as [|? ? O1 O2]; subst.
    destruct (ct_step eqb cl E o c) as [c1 r1] eqn:S1.
    destruct (ct_run eqb cl E ops c1) as [c2 tr2] eqn:R2. inversion R; subst.
    inversion T as [|? ? T1 T2]; subst. simpl list_sum in *.
    assert (Q : valid c1 /\ total (ct_map c1) = total (ct_map c) + n).
    { assert (Key : forall l, bumps l c = (c1, Ret tt) -> Forall (fun e : K * nat => snd e <= usize_max E) l ->
        total l = n -> valid c1 /\ total (ct_map c1) = total (ct_map c) + n).
      { intros l B F <-. eapply bumps_total'; eauto. destruct Ov; [left; auto|right; lia]. }
      assert (UO : forall s, unit_out s = (c1, Ret RUnit) -> s = (c1, Ret tt)).
      { intros [s [[]| | | |]]; unfold unit_out; simpl; intros X; inversion X; auto. }
      destruct o; simpl in Ho; inversion Ho; subst; cbn [ct_step] in S1; apply UO in S1.
      - apply (Key [(k, 1)]); auto.
        unfold CTProofs.bumps; simpl. fold (ct_push eqb E k c). rewrite S1. reflexivity.
      - apply extend_inv in S1; auto. destruct S1 as [_ S1].
        apply (Key (unitl xs)); auto using unitl_small. apply total_unitl.
      - unfold ct_extend_ref in S1. rewrite map_id in S1. fold (ct_extend eqb E hint xs c) in S1.
        apply extend_inv in S1; auto. destruct S1 as [_ S1].
        apply (Key (unitl xs)); auto using unitl_small. apply total_unitl.
      - apply (Key rhs); auto. apply O1.
      - rewrite add_assign_ref_bumps in S1. apply (Key (clonel cl rhs)); auto.
        + apply clonel_small. apply O1.
        + apply total_clonel. }
    destruct Q as [V1 Q]. rewrite (IH _ _ _ V1 O2 R2 T2).
    + lia.
    + destruct Ov; [left; auto|right; lia].
Qed.

(** ** Most common elements *)
Lemma sort_exists {A} (key : A -> nat) (l : list A) :
  exists r, Permutation l r /\ ForallOrdPairs (fun p q => key p <= key q) r.
Proof.
  induction l as [|x l (r & P & S)].
  - exists []. split; constructor.
  - enough (Ins : forall r, ForallOrdPairs (fun p q => key p <= key q) r ->
      exists r', Permutation (x :: r) r' /\ ForallOrdPairs (fun p q => key p <= key q) r').
    { destruct (Ins r S) as (r' & P' & S'). exists r'. split; auto.
      eapply Permutation_trans; [|exact P']. constructor; auto. }
    clear. induction r as [|y r IH]; intros S.
    + exists [x]. split; auto. repeat constructor.
    + inversion S as [|? ? F S2]; subst. destruct (le_lt_dec (key x) (key y)).
      * exists (x :: y :: r). split; auto. constructor; auto. constructor; auto.
        eapply Forall_impl; [|exact F]. simpl; intros; lia.
      * destruct (IH S2) as (r' & P & S'). exists (y :: r'). split.
        -- eapply Permutation_trans; [apply perm_swap|]. constructor; auto.
        -- constructor; auto. rewrite Forall_forall in *. intros z Z.
           apply Permutation_in with (l' := x :: r) in Z; [|apply Permutation_sym; auto].
           destruct Z as [<-|Z]; [lia|auto].
Qed.

Lemma sort_key_ok (e : K * nat) : snd e <= usize_max E -> ct_sort_key E e = Ret (usize_max E - snd e).
Proof. intros H. unfold ct_sort_key. now apply usub_fits. Qed.

Lemma sorted_desc l r : Forall (fun e : K * nat => snd e <= usize_max E) l ->
  (sort_by_key_gives (ct_sort_key E) l r <->
   Permutation l r /\ ForallOrdPairs (fun p q => snd q <= snd p) r).
Proof.
  intros F. split.
  - intros (P & S & _). split; auto.
    assert (F2 : Forall (fun e : K * nat => snd e <= usize_max E) r).
    { rewrite Forall_forall in *. intros e X. apply F. eapply Permutation_in; [apply Permutation_sym|]; eauto. }
    clear - S F2. induction S as [|e r Fe S IH]; constructor; inversion F2 as [|? ? He F3]; subst; auto.
    rewrite Forall_forall in *. intros e2 X. destruct (Fe _ X) as (p & q & A & B & Le).
    rewrite sort_key_ok in A by auto. rewrite sort_key_ok in B by auto.
    inversion A; inversion B; subst. specialize (F3 _ X). lia.
  - intros (P & S). 
    assert (F2 : Forall (fun e : K * nat => snd e <= usize_max E) r).
    { rewrite Forall_forall in *. intros e X. apply F. eapply Permutation_in; [apply Permutation_sym|]; eauto. }
    split; auto. split.
    + clear - S F2. induction S as [|e r Fe S IH]; constructor; inversion F2 as [|? ? He F3]; subst; auto.
      rewrite Forall_forall in *. intros e2 X. specialize (Fe _ X).
      exists (usize_max E - snd e), (usize_max E - snd e2). rewrite !sort_key_ok by auto.
      repeat split; auto. lia.
    + rewrite Forall_forall in *. intros e X. exists (usize_max E - snd e). apply sort_key_ok; auto.
Qed.

Lemma enumerates_iterates c l : valid c -> iterates (ct_map c) l -> enumerates eqb (sh c) l.
Proof.
  intros V P. pose proof (valid_wf V) as W. split.
  - apply (iterates_content L V P).
  - intros x e. unfold shown, ct_get_key_value. rewrite <- (entry_of_perm L x W P).
    apply wf_iff; auto. eapply (wf_perm L); eauto.
Qed.

Lemma into_most_common_ok c r : valid c -> ct_into_most_common E c r ->
  enumerates eqb (sh c) r /\ ForallOrdPairs (fun p q => snd q <= snd p) r.
Proof.
  intros V (l & P & S). apply sorted_desc in S; [|apply (iterates_content L V P)].
  destruct S as [P2 S]. split; auto. apply enumerates_iterates; auto.
  eapply Permutation_trans; eauto.
Qed.

Lemma most_common_ok cl c r : valid c -> ct_most_common cl E c r ->
  (exists l, enumerates eqb (sh c) l /\ r = map (fun e => (cl (fst e), snd e)) l) /\
  ForallOrdPairs (fun p q => snd q <= snd p) r.
Proof.
  intros V (l & P & S). apply sorted_desc in S.
  2:{ apply (clonel_small E cl). apply (iterates_content L V P). }
  destruct S as [P2 S]. split; auto. apply Permutation_sym, Permutation_map_inv in P2.
  destruct P2 as (l' & -> & P2). exists l'. split; auto. apply enumerates_iterates; auto.
  eapply Permutation_trans; eauto.
Qed.

Lemma into_most_common_exists c : valid c -> exists r, ct_into_most_common E c r.
Proof.
  intros V. destruct (sort_exists (fun e : K * nat => usize_max E - snd e) (ct_map c)) as (r & P & S).
  exists r, (ct_map c). split; [apply Permutation_refl|]. destruct V as [[D F] _].
  assert (F2 : Forall (fun e : K * nat => snd e <= usize_max E) r).
  { rewrite Forall_forall in *. intros e X. apply F. eapply Permutation_in; [apply Permutation_sym|]; eauto. }
  apply sorted_desc; auto. split; auto. clear - S F2.
  induction S as [|e r Fe S IH]; constructor; inversion F2 as [|? ? He F3]; subst; auto.
  rewrite Forall_forall in *. intros e2 X. specialize (Fe _ X). specialize (F3 _ X). simpl in *. lia.
Qed.

Lemma most_common_exists cl c : valid c -> exists r, ct_most_common cl E c r.
Proof.
  intros V. destruct (into_most_common_exists V) as (r & l & P & S).
  exists (clonel cl r), l. split; auto.
  apply sorted_desc; [apply (clonel_small E cl); apply (iterates_content L V P)|].
  apply sorted_desc in S; [|apply (iterates_content L V P)]. destruct S as [P2 S].
  split; [now apply Permutation_map|]. unfold clonel. clear - S.
  induction S as [|e r Fe S IH]; simpl; constructor; auto. rewrite Forall_map. exact Fe.
Qed.

Lemma sorted_unique (l1 l2 : list nat) : Permutation l1 l2 ->
  ForallOrdPairs (fun p q => q <= p) l1 -> ForallOrdPairs (fun p q => q <= p) l2 -> l1 = l2.
Proof.
  revert l2. induction l1 as [|x l1 IH]; intros l2 P S1 S2.
  - apply Permutation_nil in P. auto.
  - destruct l2 as [|y l2]; [apply Permutation_sym, Permutation_nil in P; discriminate|].
    inversion S1 as [|? ? F1 S1']; inversion S2 as [|? ? F2 S2']; subst.
    assert (x = y).
    { rewrite Forall_forall in F1, F2.
      assert (A : In y (x :: l1)) by (eapply Permutation_in; [apply Permutation_sym; exact P|simpl; auto]).
      assert (B : In x (y :: l2)) by (eapply Permutation_in; [exact P|simpl; auto]).
      destruct A as [A|A], B as [B|B]; auto. specialize (F1 _ A). specialize (F2 _ B). lia. }
    subst. f_equal. apply IH; auto. eapply Permutation_cons_inv; eauto.
Qed.

Lemma ordpairs_map {A B} (g : A -> B) (R : B -> B -> Prop) (l : list A) :
  ForallOrdPairs (fun p q => R (g p) (g q)) l -> ForallOrdPairs R (map g l).
Proof. induction 1 as [|e l F S IH]; simpl; constructor; auto. now rewrite Forall_map. Qed.

Lemma most_common_counts cl c r1 r2 : valid c -> ct_into_most_common E c r1 -> ct_most_common cl E c r2 ->
  map snd r1 = map snd r2.
Proof.
  intros V (l1 & P1 & S1) (l2 & P2 & S2).
  apply sorted_desc in S1; [|apply (iterates_content L V P1)].
  apply sorted_desc in S2; [|apply (clonel_small E cl); apply (iterates_content L V P2)].
  destruct S1 as [Q1 S1], S2 as [Q2 S2].
  apply sorted_unique.
  - apply (Permutation_map snd) in Q1. apply (Permutation_map snd) in Q2.
    rewrite map_map in Q2. simpl in Q2.
    eapply Permutation_trans; [apply Permutation_sym; exact Q1|].
    eapply Permutation_trans; [|exact Q2]. apply Permutation_map.
    eapply Permutation_trans; [apply Permutation_sym; exact P1|exact P2].
  - now apply ordpairs_map.
  - now apply ordpairs_map.
Qed.

(** ** Conversions *)
Lemma collect_ok l m0 : hm_wf eqb (l ++ m0) -> length l + length m0 <= alloc_max E ->
  exists m', for_each (fun e m => match hm_insert eqb E (fst e) (snd e) m with
                                  | (m', Ret _) => (m', Ret tt)
                                  | (m', _) => (m', Panic)
                                  end) l m0 = (m', Ret tt) /\ Permutation (l ++ m0) m'.
Proof.
  revert m0. induction l as [|[k n] l IH]; intros m0 W Le; simpl.
  - exists m0. split; auto.
  - unfold hm_insert, hm_entry, hm_get, hm_reserve.
    inversion W as [|? ? F W2]; subst.
    assert (N : hm_entry_of eqb k m0 = None).
    { apply entry_of_none. intros e X. rewrite Forall_forall in F. apply (F e).
      apply in_or_app; auto. }
    rewrite N. simpl in Le |- *.
    replace (length m0 + 1 <=? alloc_max E) with true by (symmetry; apply Nat.leb_le; lia).
    simpl. unfold hm_insert_vacant.
    assert (P : Permutation ((k, n) :: l ++ m0) (l ++ (k, n) :: m0)) by apply Permutation_middle.
    destruct (IH ((k, n) :: m0)) as (m' & H & Pm).
    + eapply (wf_perm L); eauto.
    + simpl. lia.
    + exists m'. split; auto. eapply Permutation_trans; eauto.
Qed.

Lemma from_ok c l : valid c -> iterates (ct_map c) l ->
  exists c', ct_from eqb E l = Ret c' /\ valid c' /\ same (sh c') (sh c).
Proof.
  intros V P. pose proof (valid_wf V) as W.
  assert (Wl : hm_wf eqb l) by (eapply (wf_perm L); eauto).
  assert (Le : length l <= alloc_max E).
  { rewrite <- (Permutation_length P). apply V. }
  destruct (@collect_ok l []) as (m' & H & Pm).
  { now rewrite app_nil_r. } { simpl. lia. }
  rewrite app_nil_r in Pm.
  exists (Counter m'). unfold ct_from, hm_collect, hm_reserve. simpl.
  replace (length l <=? alloc_max E) with true by (symmetry; apply Nat.leb_le; lia).
  rewrite H. simpl. split; auto.
  pose proof (Permutation_trans P Pm) as PP. split.
  - destruct (iterates_content L V PP) as [D F]. split; [split; auto|].
    unfold ct_len; simpl. rewrite <- (Permutation_length PP). apply V.
  - intros x. unfold shown, ct_get_key_value. simpl. now apply (entry_of_perm L).
Qed.

Lemma clone_valid cl c : (forall k, eqb (cl k) k = true) -> valid c -> valid (ct_clone cl c).
Proof.
  intros CL V. destruct V as [V N]. split.
  - exact (clonel_content L cl CL V).
  - unfold ct_len, ct_clone in *; simpl. now rewrite map_length.
Qed.

Lemma clone_get cl c x : (forall k, eqb (cl k) k = true) -> get (ct_clone cl c) x = get c x.
Proof.
  intros CL. unfold ct_get, hm_get. rewrite <- !entry_in_model. simpl.
  exact (entry_clonel L cl CL x (ct_map c)).
Qed.

Lemma from_ref_ok cl c l : (forall k, eqb (cl k) k = true) -> valid c -> iterates (ct_map c) l ->
  exists c', ct_from_ref eqb cl E l = Ret c' /\ valid c' /\ forall x, get c' x = get c x.
Proof.
  intros CL V P.
  destruct (@from_ok (ct_clone cl c) (clonel cl l)) as (c' & H & V' & S).
  - now apply clone_valid.
  - unfold iterates, ct_clone; simpl. apply Permutation_map. exact P.
  - exists c'. split; auto. split; auto. intros x. rewrite (same_get S x). now apply clone_get.
Qed.

(** ** Laws *)
Lemma add_sub a b l c l' : valid a -> valid b -> iterates (ct_map b) l -> iterates (ct_map b) l' ->
  ct_add eqb E a l = Ret c ->
  (forall x, get a x <> Some 0) ->
  debug_build E = true \/ (forall x, cnt a x + cnt b x <= usize_max E) ->
  exists d, ct_sub eqb E c l' = Ret d /\ ct_eq eqb d a = true.
Proof.
  intros Va Vb P P' H NZ Ov.
  destruct (add_inv L Va Vb P H) as (_ & Vc & S & _).
  pose proof (add_pointwise L Va Vb P H Ov) as G.
  destruct (@sub_ret_iff K eqb L E c b l' Vc Vb P') as (d & Hd).
  { intros x X. rewrite G. destruct (get a x), (get b x); simpl; congruence. }
  exists d. split; auto. destruct (iterates_content L Vb P') as [D _].
  destruct (sub_inv L _ Vc D Hd) as (_ & Vd & _).
  apply (eq_iff L Vd Va). intros x. rewrite (sub_pointwise L Vc Vb P' Hd), G.
  specialize (NZ x).
  destruct (get a x) as [n|], (get b x) as [v|]; simpl; auto.
  - destruct (n + v <=? v) eqn:Q.
    + apply Nat.leb_le in Q. assert (n = 0) by lia. subst. congruence.
    + f_equal. lia.
  - now rewrite Nat.leb_refl.
Qed.

Lemma sub_self a l : valid a -> iterates (ct_map a) l ->
  exists d, ct_sub eqb E a l = Ret d /\ ct_len d = 0.
Proof.
  intros Va P. destruct (@sub_ret_iff K eqb L E a a l Va Va P) as (d & H); auto.
  exists d. split; auto. destruct (iterates_content L Va P) as [D _].
  destruct (sub_inv L _ Va D H) as (_ & Vd & _).
  pose proof (sub_pointwise L Va Va P H) as G.
  unfold ct_len. destruct (ct_map d) as [|[k n] m] eqn:Q; auto. exfalso.
  specialize (G k). rewrite get_shown in G at 1. unfold shown, ct_get_key_value in G. rewrite Q in G.
  simpl in G. rewrite (eq_refl' L) in G. simpl in G.
  destruct (get a k) as [v|]; simpl in G; [|discriminate]. rewrite Nat.leb_refl in G. discriminate.
Qed.

Lemma sub_sub a b c lb lc bc lbc ab abc abc' : valid a -> valid b -> valid c ->
  iterates (ct_map b) lb -> iterates (ct_map c) lc ->
  ct_add eqb E b lc = Ret bc -> iterates (ct_map bc) lbc ->
  debug_build E = true \/ (forall x, cnt b x + cnt c x <= usize_max E) ->
  ct_sub eqb E a lb = Ret ab -> ct_sub eqb E ab lc = Ret abc ->
  ct_sub eqb E a lbc = Ret abc' -> ct_eq eqb abc abc' = true.
Proof.
  intros Va Vb Vc Pb Pc Hbc Pbc Ov H1 H2 H3.
  destruct (add_inv L Vb Vc Pc Hbc) as (_ & Vbc & _).
  destruct (iterates_content L Vb Pb) as [Db _]. destruct (iterates_content L Vc Pc) as [Dc _].
  destruct (iterates_content L Vbc Pbc) as [Dbc _].
  destruct (sub_inv L _ Va Db H1) as (_ & Vab & _).
  destruct (sub_inv L _ Vab Dc H2) as (_ & Vabc & _).
  destruct (sub_inv L _ Va Dbc H3) as (_ & Vabc' & _).
  apply (eq_iff L Vabc Vabc'). intros x.
  rewrite (sub_pointwise L Vab Vc Pc H2), (sub_pointwise L Va Vb Pb H1),
    (sub_pointwise L Va Vbc Pbc H3), (add_pointwise L Vb Vc Pc Hbc Ov).
  destruct (get a x) as [n|], (get b x) as [v|], (get c x) as [w|]; simpl; auto;
  try (destruct (n <=? v) eqn:Q1; simpl; auto).
  - destruct (n <=? v + w) eqn:Q2; auto. apply Nat.leb_le in Q1. apply Nat.leb_gt in Q2. lia.
  - apply Nat.leb_gt in Q1.
    destruct (n - v <=? w) eqn:Q2, (n <=? v + w) eqn:Q3; auto;
    rewrite ?Nat.leb_le, ?Nat.leb_gt in *; try lia. f_equal. lia.
Qed.

End Proofs.
