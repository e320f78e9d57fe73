(** Property theorems C89: what the operations that change an interval in place
    leave behind when a comparison of two elements panics. *)
From Coq Require Import ZArith Lia Bool.
From Verif Require Import Base IVModel IVModel3 IVSpec IVRun IVProofs IVProofs2 IVProofs3 IVProofs4 IVProofs5 IVProofs6 IVProps1 IVProps2.

(** ** C89 *)
(** A call that returns does what it does when no comparison panics. *)
Theorem c89_returning_calls_are_unaffected : forall T U (cmp : T -> T -> comparison) op ep a b j,
  (forall r, iv_merge_p cmp op ep a b = (j, Ret r) -> iv_merge cmp a b = (j, r)) /\
  (iv_intersection_p cmp op a b = (j, Ret tt) -> iv_intersection cmp a b = Ret j) /\
  (iv_span_p cmp op a b = (j, Ret tt) -> iv_span cmp a b = Ret j) /\
  (forall (f : T -> U -> outcome T) k,
    (iv_add_assign_p cmp op ep (assign_of f) a k = (j, Ret tt) -> iv_add_assign cmp (assign_of f) a k = (j, Ret tt)) /\
    (iv_sub_assign_p cmp op ep (assign_of f) a k = (j, Ret tt) -> iv_sub_assign cmp (assign_of f) a k = (j, Ret tt)) /\
    (iv_mul_assign_p cmp op ep (assign_of f) a k = (j, Ret tt) -> iv_mul_assign cmp (assign_of f) a k = (j, Ret tt)) /\
    (iv_div_assign_p cmp op ep (assign_of f) a k = (j, Ret tt) -> iv_div_assign cmp (assign_of f) a k = (j, Ret tt))).
Proof.
  intros T U cmp op ep a b j. split; [intros r; apply merge_ret|]. split; [apply intersection_ret|]. split; [apply span_ret|].
  intros f k. repeat split; apply assignments_ret with (cmp := cmp) (op := op) (ep := ep) (f := f); cbn; auto.
Qed.
Print Assumptions c89_returning_calls_are_unaffected.

(** Only a panicking comparison stops a call. *)
Theorem c89_no_panic_without_panicking_comparison : forall T (cmp : T -> T -> comparison) op ep a b,
  (forall x y, op x y = false) -> (forall x y, ep x y = false) ->
  (exists j r, iv_merge_p cmp op ep a b = (j, Ret r)) /\
  (exists j, iv_intersection_p cmp op a b = (j, Ret tt)) /\
  (exists j, iv_span_p cmp op a b = (j, Ret tt)) /\
  (forall U (f : T -> U -> outcome T) k,
    iv_add_assign_p cmp op ep (assign_of f) a k = iv_add_assign cmp (assign_of f) a k /\
    iv_sub_assign_p cmp op ep (assign_of f) a k = iv_sub_assign cmp (assign_of f) a k /\
    iv_mul_assign_p cmp op ep (assign_of f) a k = iv_mul_assign cmp (assign_of f) a k /\
    iv_div_assign_p cmp op ep (assign_of f) a k = iv_div_assign cmp (assign_of f) a k).
Proof.
  intros T cmp op ep a b O E. split; [|split; [|split]].
  - unfold iv_merge_p. assert (M : exists r, iv_can_be_merged_p cmp op ep a b = Ret r).
    { destruct a as [[[l u]|]]; [|cbn; eauto]. destruct b as [[[m v]|]]; [|cbn; eauto].
      unfold iv_can_be_merged_p, are_separated_p, vgt_p, veq_p; cbn. rewrite !O, !E; cbn.
      destruct (vgt cmp (lval m) _); cbn; eauto. destruct (_ && negb (lclosed m)); eauto.
      destruct (vgt cmp _ _); cbn; eauto. }
    destruct M as [[] ->]; eauto. destruct (imp a) as [s|]; eauto. destruct (imp b) as [o|]; eauto.
    unfold iv_widen_p, lower_lt_p, upper_gt_p; rewrite !O; cbn; eauto.
  - destruct a as [[[l u]|]], b as [[[m v]|]]; try (cbn; eauto; fail).
    unfold iv_intersection_p, iv_gt_p, iv_lt_p, lu_gt_p, ul_lt_p, lower_lt_p, upper_gt_p; cbn. rewrite !O.
    destruct (lu_gt _ _ _); eauto. destruct (ul_lt _ _ _); eauto.
  - destruct a as [[[l u]|]], b as [[[m v]|]]; try (cbn; eauto; fail).
    unfold iv_span_p, iv_widen_p, lower_lt_p, upper_gt_p; cbn. rewrite !O. eauto.
  - intros U f k. assert (P : forall run plain, In (run, plain) (assignments cmp op ep f) -> run a k = plain a k).
    { intros run plain H. destruct (assignments_map a k H) as [-> ->]. unfold map_assign_p, iv_map_assign.
      destruct (iv_into_tuple a) as [[[[l lc] u] uc]|]; auto. destruct (f l k); auto. destruct (f u k); auto.
      unfold fix_after_modification_p, fix_after_modification, vgt_p, veq_p; cbn. rewrite !O, !E. reflexivity. }
    repeat split; apply P; cbn; auto.
Qed.
Print Assumptions c89_no_panic_without_panicking_comparison.

(** An interrupted [merge] leaves a well-formed interval between the receiver
    and the union, and its upper end is still the old one. *)
Theorem c89_interrupted_merge : forall T (cmp : T -> T -> comparison) op ep a b j r,
  ord_laws cmp -> well_formed cmp (iv_into_tuple a) -> well_formed cmp (iv_into_tuple b) ->
  iv_merge_p cmp op ep a b = (j, r) -> (forall v, r <> Ret v) ->
  r = Panic /\ well_formed cmp (iv_into_tuple j) /\
  (forall x, mem cmp (iv_into_tuple a) x -> mem cmp (iv_into_tuple j) x) /\
  (forall x, mem cmp (iv_into_tuple j) x -> mem cmp (iv_into_tuple a) x \/ mem cmp (iv_into_tuple b) x) /\
  (j = a \/ exists l lc u uc l' lc' u' uc', iv_into_tuple a = Some (l, lc, u, uc) /\ iv_into_tuple b = Some (l', lc', u', uc') /\
            iv_into_tuple j = Some (l', lc', u, uc)).
Proof.
  intros T cmp op ep a b j r HL Wa Wb H N. destruct (merge_fails _ _ _ _ _ H N) as [-> [->|(s & o & A & B & M & ->)]]; split; auto.
  destruct a as [[[l u]|]]; [|discriminate]. destruct b as [[[m v]|]]; [|discriminate].
  injection A as <-. injection B as <-. cbn [lo up].
  apply (wf_ok cmp) in Wa. apply (wf_ok cmp) in Wb.
  destruct (lower_lt cmp m l) eqn:L.
  2: { split; [now apply wf_ok|]. split; [auto|]. split; [auto|]. left. reflexivity. }
  apply lower_lt_spec in L. pose proof (lt_le L) as L'.
  split; [apply wf_ok; apply (ok_mono HL) with (l := l) (u := u); auto; apply (le_refl (upper_cmp_laws HL))|].
  rewrite merge_sep, negb_true_iff, orb_false_iff in M. destruct M as [_ M]. pose proof (sep_points HL _ _ M) as P.
  split; [intros x; rewrite !mem_bounds; intros [X Y]; split; auto; exact (lle_points HL _ L' X)|].
  split; [intros x; rewrite !mem_bounds; intros [X Y]; destruct (P x); auto|].
  right. destruct l as [[l lc]], u as [[u uc]], m as [[m mc]], v as [[v vc]]. cbn. do 8 eexists. split; [reflexivity|]. split; reflexivity.
Qed.
Print Assumptions c89_interrupted_merge.

(** The same for [span], inside the span. *)
Theorem c89_interrupted_span : forall T (cmp : T -> T -> comparison) op a b j r,
  ord_laws cmp -> well_formed cmp (iv_into_tuple a) -> well_formed cmp (iv_into_tuple b) ->
  iv_span_p cmp op a b = (j, r) -> r <> Ret tt ->
  r = Panic /\ well_formed cmp (iv_into_tuple j) /\
  (forall x, mem cmp (iv_into_tuple a) x -> mem cmp (iv_into_tuple j) x) /\
  exists s, iv_span cmp a b = Ret s /\ forall x, mem cmp (iv_into_tuple j) x -> mem cmp (iv_into_tuple s) x.
Proof.
  intros T cmp op a b j r HL Wa Wb H N.
  assert (G : exists s, iv_span cmp a b = Ret s /\ forall x, mem cmp (iv_into_tuple a) x -> mem cmp (iv_into_tuple s) x).
  { destruct a as [[[l u]|]].
    - destruct b as [[[m v]|]]; [|exists (Interval (Some (NonEmpty l u))); split; auto; reflexivity].
      destruct (span_mk HL l u m v) as (s & S & C). exists s; split; auto. intros x.
      destruct (span_contains HL C) as (A & _). now apply contains_points.
    - exists b. split; [destruct b as [[[m v]|]]; reflexivity|intros x []]. }
  destruct (span_fails _ _ _ _ H N) as [-> [->|(s & o & A & B & ->)]]; split; auto.
  clear G. destruct a as [[[l u]|]]; [|discriminate]. destruct b as [[[m v]|]]; [|discriminate].
  injection A as <-. injection B as <-. cbn [lo up].
  apply (wf_ok cmp) in Wa. apply (wf_ok cmp) in Wb.
  assert (L : IVSpec.le (lower_cmp cmp) (if lower_lt cmp m l then m else l) l).
  { destruct (lower_lt cmp m l) eqn:L; [|apply (le_refl (lower_cmp_laws HL))]. apply lower_lt_spec in L. exact (lt_le L). }
  split; [apply wf_ok; apply (ok_mono HL) with (l := l) (u := u); auto; apply (le_refl (upper_cmp_laws HL))|].
  split; [intros x; rewrite !mem_bounds; intros [X Y]; split; auto; exact (lle_points HL _ L X)|].
  eexists; split; [reflexivity|]. intros x; rewrite !mem_bounds. intros [X Y]; split; auto.
  cbn [lo up imp]. destruct (upper_gt cmp v u) eqn:V; auto. apply (upper_gt_spec HL) in V. exact (ule_points HL _ (lt_le V) Y).
Qed.
Print Assumptions c89_interrupted_span.

(** Exactly what an interrupted [span] leaves behind: nothing is changed when
    comparing the lower ends panics; when comparing the upper ends panics, the
    lower end is already the lower one of the two. *)
Theorem c89_what_interrupted_span_leaves : forall T (cmp : T -> T -> comparison) op a b l lc u uc l' lc' u' uc',
  iv_into_tuple a = Some (l, lc, u, uc) -> iv_into_tuple b = Some (l', lc', u', uc') ->
  (op l' l = true -> iv_span_p cmp op a b = (a, Panic)) /\
  (op l' l = false -> op u' u = true -> exists j, iv_span_p cmp op a b = (j, Panic) /\
     (lt cmp l' l \/ eqv cmp l' l /\ lc' = true /\ lc = false -> iv_into_tuple j = Some (l', lc', u, uc)) /\
     (~ (lt cmp l' l \/ eqv cmp l' l /\ lc' = true /\ lc = false) -> j = a)) /\
  (op l' l = false -> op u' u = false -> exists j, iv_span_p cmp op a b = (j, Ret tt)).
Proof.
  intros T cmp op a b l lc u uc l' lc' u' uc' A B.
  destruct a as [[[[[a1 a2]] [[a3 a4]]]|]]; [|discriminate]. injection A as <- <- <- <-.
  destruct b as [[[[[b1 b2]] [[b3 b4]]]|]]; [|discriminate]. injection B as <- <- <- <-.
  unfold iv_span_p, iv_widen_p, lower_lt_p, upper_gt_p; cbn.
  split; [intros ->; reflexivity|]. split; [|intros -> ->; eauto].
  intros -> ->. eexists; split; [reflexivity|]. unfold lt, eqv, lower_lt, lower_partial_cmp; cbn.
  destruct (cmp b1 a1), b2, a2; cbn; (split; [intros [H|(H & H' & H'')]|intros H]); try discriminate; try reflexivity;
    exfalso; apply H; auto.
Qed.
Print Assumptions c89_what_interrupted_span_leaves.

(** The same for [merge] of two intervals with a common or a touching point
    (C24), once the comparisons deciding that have not panicked, ... *)
Theorem c89_what_interrupted_merge_leaves : forall T (cmp : T -> T -> comparison) op ep a b l lc u uc l' lc' u' uc',
  iv_into_tuple a = Some (l, lc, u, uc) -> iv_into_tuple b = Some (l', lc', u', uc') ->
  op l' u = false -> ep u l' = false -> op l u' = false -> ep u' l = false -> iv_can_be_merged cmp a b = true ->
  (op l' l = true -> iv_merge_p cmp op ep a b = (a, Panic)) /\
  (op l' l = false -> op u' u = true -> exists j, iv_merge_p cmp op ep a b = (j, Panic) /\
     (lt cmp l' l \/ eqv cmp l' l /\ lc' = true /\ lc = false -> iv_into_tuple j = Some (l', lc', u, uc)) /\
     (~ (lt cmp l' l \/ eqv cmp l' l /\ lc' = true /\ lc = false) -> j = a)) /\
  (op l' l = false -> op u' u = false -> exists j, iv_merge_p cmp op ep a b = (j, Ret (inl tt))).
Proof.
  intros T cmp op ep a b l lc u uc l' lc' u' uc' A B O1 P1 O2 P2 M.
  assert (X : iv_merge_p cmp op ep a b = (fst (iv_span_p cmp op a b), omap inl (snd (iv_span_p cmp op a b)))).
  { destruct a as [[[[[a1 a2]] [[a3 a4]]]|]]; [|discriminate]. injection A as <- <- <- <-.
    destruct b as [[[[[b1 b2]] [[b3 b4]]]|]]; [|discriminate]. injection B as <- <- <- <-.
    assert (Y : iv_can_be_merged_p cmp op ep (ivt a1 a2 a3 a4) (ivt b1 b2 b3 b4) = Ret true).
    { rewrite <- M. unfold ivt. rewrite merge_sep. unfold iv_can_be_merged_p, are_separated_p, are_separated, vgt_p, veq_p; cbn.
      rewrite O1, P1, O2, P2. cbn. destruct (vgt cmp b1 a3); auto. cbn. destruct (_ && _ && negb b2); auto. cbn.
      destruct (vgt cmp a1 b3); auto. }
    unfold iv_merge_p. unfold ivt, lower_new, upper_new in Y. rewrite Y. cbn. destruct (iv_widen_p _ _ _ _) as [j r]. reflexivity. }
  destruct (c89_what_interrupted_span_leaves T cmp op a b _ _ _ _ _ _ _ _ A B) as (S1 & S2 & S3). rewrite X. clear X.
  split; [|split].
  - intros H. rewrite (S1 H). reflexivity.
  - intros H1 H2. destruct (S2 H1 H2) as (j & -> & J). exists j; auto.
  - intros H1 H2. destruct (S3 H1 H2) as (j & ->). exists j; auto.
Qed.
Print Assumptions c89_what_interrupted_merge_leaves.

(** An interrupted [intersection] leaves a well-formed interval between the
    intersection and the receiver. *)
Theorem c89_interrupted_intersection : forall T (cmp : T -> T -> comparison) op a b j r,
  ord_laws cmp -> well_formed cmp (iv_into_tuple a) -> well_formed cmp (iv_into_tuple b) ->
  iv_intersection_p cmp op a b = (j, r) -> r <> Ret tt ->
  r = Panic /\ well_formed cmp (iv_into_tuple j) /\
  (forall x, mem cmp (iv_into_tuple j) x -> mem cmp (iv_into_tuple a) x) /\
  (forall x, mem cmp (iv_into_tuple a) x -> mem cmp (iv_into_tuple b) x -> mem cmp (iv_into_tuple j) x) /\
  (j = a \/ exists l lc u uc l' lc' u' uc', iv_into_tuple a = Some (l, lc, u, uc) /\ iv_into_tuple b = Some (l', lc', u', uc') /\
            iv_into_tuple j = Some (l', lc', u, uc)).
Proof.
  intros T cmp op a b j r HL Wa Wb H N. destruct (intersection_fails _ _ _ _ H N) as [-> [->|(s & o & A & B & M & ->)]]; split; auto.
  destruct a as [[[l u]|]]; [|discriminate]. destruct b as [[[m v]|]]; [|discriminate].
  injection A as <-. injection B as <-. cbn [lo up] in *.
  rewrite (ul_lu_lt HL) in M. apply (ok_alt HL) in M. apply (wf_ok cmp) in Wa. apply (wf_ok cmp) in Wb.
  destruct (lower_lt cmp l m) eqn:L.
  2: { split; [now apply wf_ok|]. split; [auto|]. split; [auto|]. left. reflexivity. }
  apply lower_lt_spec in L. pose proof (lt_le L) as L'.
  split; [now apply wf_ok|].
  split; [intros x; rewrite !mem_bounds; intros [X Y]; split; auto; exact (lle_points HL _ L' X)|].
  split; [intros x; rewrite !mem_bounds; intros [X Y] [X' Y']; auto|].
  right. destruct l as [[l lc]], u as [[u uc]], m as [[m mc]], v as [[v vc]]. cbn. do 8 eexists. split; [reflexivity|]. split; reflexivity.
Qed.
Print Assumptions c89_interrupted_intersection.

(** ... and for [intersection] of two intervals that are not apart. *)
Theorem c89_what_interrupted_intersection_leaves : forall T (cmp : T -> T -> comparison) op a b l lc u uc l' lc' u' uc',
  iv_into_tuple a = Some (l, lc, u, uc) -> iv_into_tuple b = Some (l', lc', u', uc') ->
  op l u' = false -> op u l' = false ->
  lt cmp l u' \/ eqv cmp l u' /\ lc = true /\ uc' = true ->
  cmp u l' = Gt \/ eqv cmp u l' /\ uc = true /\ lc' = true ->
  (op l l' = true -> iv_intersection_p cmp op a b = (a, Panic)) /\
  (op l l' = false -> op u u' = true -> exists j, iv_intersection_p cmp op a b = (j, Panic) /\
     (lt cmp l l' \/ eqv cmp l l' /\ lc = true /\ lc' = false -> iv_into_tuple j = Some (l', lc', u, uc)) /\
     (~ (lt cmp l l' \/ eqv cmp l l' /\ lc = true /\ lc' = false) -> j = a)) /\
  (op l l' = false -> op u u' = false -> exists j, iv_intersection_p cmp op a b = (j, Ret tt)).
Proof.
  intros T cmp op a b l lc u uc l' lc' u' uc' A B O1 O2 G L.
  destruct a as [[[[[a1 a2]] [[a3 a4]]]|]]; [|discriminate]. injection A as <- <- <- <-.
  destruct b as [[[[[b1 b2]] [[b3 b4]]]|]]; [|discriminate]. injection B as <- <- <- <-.
  unfold iv_intersection_p, iv_gt_p, iv_lt_p, lu_gt_p, ul_lt_p, lower_lt_p, upper_gt_p; cbn. rewrite O1, O2.
  assert (G' : lu_gt cmp (Lower (Bound a1 a2)) (Upper (Bound b3 b4)) = false).
  { unfold lu_gt, lt, eqv in *; cbn. destruct G as [->|(-> & -> & ->)]; auto. }
  assert (L' : ul_lt cmp (Upper (Bound a3 a4)) (Lower (Bound b1 b2)) = false).
  { unfold ul_lt, lt, eqv in *; cbn. destruct L as [->|(-> & -> & ->)]; auto. }
  rewrite G', L'.
  split; [intros ->; reflexivity|]. split; [|intros -> ->; eauto].
  intros -> ->. eexists; split; [reflexivity|]. unfold lt, eqv, lower_lt, lower_partial_cmp; cbn.
  destruct (cmp a1 b1), a2, b2; cbn; (split; [intros [H|(H & H' & H'')]|intros H]); try discriminate; try reflexivity;
    exfalso; apply H; auto.
Qed.
Print Assumptions c89_what_interrupted_intersection_leaves.

(** comparing 4 with 9 panics *)
Definition nine_four (x y : Z) : bool := ((x =? 9) && (y =? 4) || (x =? 4) && (y =? 9))%Z.
Definition never (x y : Z) : bool := false.
Example c89_sets_ex :
  iv_merge_p Z.compare nine_four never (zt 2 true 4 false) (zt 1 false 9 true) = (zt 1 false 4 false, Panic) /\
  iv_span_p Z.compare nine_four (zt 2 true 4 false) (zt 1 false 9 true) = (zt 1 false 4 false, Panic) /\
  iv_intersection_p Z.compare nine_four (zt 2 true 9 false) (zt 3 false 4 true) = (zt 3 false 9 false, Panic) /\
  (* before anything is changed *)
  iv_merge_p Z.compare nine_four never (zt 2 true 4 false) (zt 9 true 10 true) = (zt 2 true 4 false, Panic) /\
  iv_intersection_p Z.compare nine_four (zt 9 true 10 true) (zt 2 true 4 false) = (zt 9 true 10 true, Panic) /\
  iv_merge_p Z.compare never nine_four (zt 2 true 9 false) (zt 5 true 8 true) = (zt 2 true 9 false, Ret (inl tt)) /\
  zob (zt 2 true 4 false) /\ zob (zt 1 false 9 true) /\ zob (zt 2 true 9 false) /\ zob (zt 3 false 4 true).
Proof. do 6 (split; [reflexivity|]). repeat split; ob. Qed.

Lemma assigned T U (cmp : T -> T -> comparison) op ep (f : T -> U -> outcome T) i k j o :
  iv_add_assign_p cmp op ep (assign_of f) i k = (j, o) \/ iv_sub_assign_p cmp op ep (assign_of f) i k = (j, o) \/
  iv_mul_assign_p cmp op ep (assign_of f) i k = (j, o) \/ iv_div_assign_p cmp op ep (assign_of f) i k = (j, o) ->
  map_assign_p cmp op ep (fun x => f x k) i = (j, o).
Proof.
  assert (G : forall run plain, In (run, plain) (assignments cmp op ep f) -> run i k = (j, o) -> map_assign_p cmp op ep (fun x => f x k) i = (j, o)).
  { intros run plain H <-. symmetry. apply (assignments_map i k H). }
  intros [H|[H|[H|H]]]; eapply G; try exact H; cbn; auto.
Qed.

(** A compound assignment whose two updates succeed: which comparison stops it,
    and what it leaves behind. *)
Theorem c89_interrupted_assignment : forall T U (cmp : T -> T -> comparison) op ep (f : T -> U -> outcome T) i k j o l lc u uc l' u',
  iv_into_tuple i = Some (l, lc, u, uc) -> f l k = Ret l' -> f u k = Ret u' ->
  iv_add_assign_p cmp op ep (assign_of f) i k = (j, o) \/ iv_sub_assign_p cmp op ep (assign_of f) i k = (j, o) \/
  iv_mul_assign_p cmp op ep (assign_of f) i k = (j, o) \/ iv_div_assign_p cmp op ep (assign_of f) i k = (j, o) ->
  o <> Ret tt ->
  o = Panic /\
  (op l' u' = true /\ iv_into_tuple j = Some (l', lc, u', uc) \/
   op l' u' = false /\ cmp l' u' <> Gt /\ ep l' u' = true /\ iv_into_tuple j = Some (l', lc, u', uc) \/
   op l' u' = false /\ cmp l' u' = Gt /\ ep u' l' = true /\ iv_into_tuple j = Some (u', uc, l', lc)).
Proof.
  intros T U cmp op ep f i k j o l lc u uc l' u' I L V H N.
  apply assigned in H.
  unfold map_assign_p in H. rewrite I, L, V in H. exact (fix_p_fails _ _ _ _ _ _ _ H N).
Qed.
Print Assumptions c89_interrupted_assignment.

(** It is interrupted exactly if one of its two comparisons panics. *)
Theorem c89_when_assignment_is_interrupted : forall T U (cmp : T -> T -> comparison) op ep (f : T -> U -> outcome T) i k j o l lc u uc l' u',
  iv_into_tuple i = Some (l, lc, u, uc) -> f l k = Ret l' -> f u k = Ret u' ->
  iv_add_assign_p cmp op ep (assign_of f) i k = (j, o) \/ iv_sub_assign_p cmp op ep (assign_of f) i k = (j, o) \/
  iv_mul_assign_p cmp op ep (assign_of f) i k = (j, o) \/ iv_div_assign_p cmp op ep (assign_of f) i k = (j, o) ->
  o = Ret tt <-> op l' u' = false /\ (cmp l' u' = Gt -> ep u' l' = false) /\ (cmp l' u' <> Gt -> ep l' u' = false).
Proof.
  intros T U cmp op ep f i k j o l lc u uc l' u' I L V H. apply assigned in H.
  unfold map_assign_p in H. rewrite I, L, V in H. apply fix_p_when in H. rewrite H. unfold vgt.
  destruct (op l' u'); cbn; [split; [discriminate|intros (A & _); discriminate A]|].
  destruct (cmp l' u') eqn:C.
  - destruct (ep l' u'); split; auto; try discriminate; [|intros _; repeat split; auto; discriminate].
    intros (_ & _ & A). discriminate A. discriminate.
  - destruct (ep l' u'); split; auto; try discriminate; [|intros _; repeat split; auto; discriminate].
    intros (_ & _ & A). discriminate A. discriminate.
  - destruct (ep u' l'); split; auto; try discriminate; [|intros _; repeat split; auto; intros A; now elim A].
    intros (_ & A & _). discriminate (A eq_refl).
Qed.
Print Assumptions c89_when_assignment_is_interrupted.

(** Hence exactly which interrupted assignments leave a malformed interval. *)
Theorem c89_when_assignment_stays_well_formed : forall T U (cmp : T -> T -> comparison) op ep (f : T -> U -> outcome T) i k j o l lc u uc l' u',
  ord_laws cmp -> iv_into_tuple i = Some (l, lc, u, uc) -> f l k = Ret l' -> f u k = Ret u' ->
  iv_add_assign_p cmp op ep (assign_of f) i k = (j, o) \/ iv_sub_assign_p cmp op ep (assign_of f) i k = (j, o) \/
  iv_mul_assign_p cmp op ep (assign_of f) i k = (j, o) \/ iv_div_assign_p cmp op ep (assign_of f) i k = (j, o) ->
  o <> Ret tt ->
  well_formed cmp (iv_into_tuple j) <->
  lt cmp l' u' \/ lt cmp u' l' /\ op l' u' = false \/ eqv cmp l' u' /\ lc = true /\ uc = true.
Proof.
  intros T U cmp op ep f i k j o l lc u uc l' u' HL I L V H N.
  destruct (c89_interrupted_assignment _ _ _ _ _ _ _ _ _ _ _ _ _ _ _ _ I L V H N) as [_ [(O & ->)|[(O & C & _ & ->)|(O & C & _ & ->)]]]; cbn.
  - split; [tauto|]. rewrite O. intros [A|[(_ & A)|A]]; auto. discriminate.
  - split; [tauto|]. intros [A|[(A & _)|A]]; auto. exfalso. apply C. unfold lt in A. rewrite (ord_opp HL), A. reflexivity.
  - split; [|left; exact (gt_lt HL _ _ C)]. intros _. right; left. split; auto. exact (gt_lt HL _ _ C).
Qed.
Print Assumptions c89_when_assignment_stays_well_formed.

(** An update that keeps the order of the ends leaves a well-formed interval,
    whichever comparison panics. *)
Theorem c89_order_keeping_assignment_is_safe : forall T U (cmp : T -> T -> comparison) op ep (f : T -> U -> outcome T) i k j o l lc u uc l' u',
  ord_laws cmp -> well_formed cmp (iv_into_tuple i) -> iv_into_tuple i = Some (l, lc, u, uc) ->
  f l k = Ret l' -> f u k = Ret u' -> (cmp l' u' = cmp l u) ->
  iv_add_assign_p cmp op ep (assign_of f) i k = (j, o) \/ iv_sub_assign_p cmp op ep (assign_of f) i k = (j, o) \/
  iv_mul_assign_p cmp op ep (assign_of f) i k = (j, o) \/ iv_div_assign_p cmp op ep (assign_of f) i k = (j, o) ->
  o <> Ret tt ->
  iv_into_tuple j = Some (l', lc, u', uc) /\ well_formed cmp (iv_into_tuple j).
Proof.
  intros T U cmp op ep f i k j o l lc u uc l' u' HL W I L V M H N. rewrite I in W.
  assert (W' : well_formed cmp (Some (l', lc, u', uc))) by (cbn in *; unfold lt, eqv in *; now rewrite M).
  destruct (c89_interrupted_assignment _ _ _ _ _ _ _ _ _ _ _ _ _ _ _ _ I L V H N) as [_ [(O & ->)|[(O & C & _ & ->)|(O & C & _ & ->)]]]; auto.
  exfalso. destruct W' as [A|(A & _)]; unfold lt, eqv in A; congruence.
Qed.
Print Assumptions c89_order_keeping_assignment_is_safe.

(** Adding to and subtracting from an interval of integers is such an update
    unless it overflows. *)
Theorem c89_integer_shifts_are_safe : forall I op ep i k j o, zob i ->
  (iv_add_assign_p Z.compare op ep (assign_of (int_add I)) i k = (j, o) /\ no_overflow I (fun x => x + k)%Z (iv_into_tuple i) ->
   o <> Ret tt -> well_formed Z.compare (iv_into_tuple j) /\
   forall x, mem Z.compare (iv_into_tuple j) x <-> mem Z.compare (iv_into_tuple i) (x - k)%Z) /\
  (iv_sub_assign_p Z.compare op ep (assign_of (int_sub I)) i k = (j, o) /\ no_overflow I (fun x => x - k)%Z (iv_into_tuple i) ->
   o <> Ret tt -> well_formed Z.compare (iv_into_tuple j) /\
   forall x, mem Z.compare (iv_into_tuple j) x <-> mem Z.compare (iv_into_tuple i) (x + k)%Z).
Proof.
  intros I op ep i k j o Ho. pose proof (obtainable_wf Z_ord Ho) as W. unfold wf in W.
  destruct i as [[[[[l lc]] [[u uc]]]|]]; [|split; intros [H _] N; cbn in H; injection H as _ <-; now elim N].
  split; intros [H [R1 R2]] N.
  - destruct (@c89_order_keeping_assignment_is_safe _ _ Z.compare op ep (int_add I) _ k j o l lc u uc (l + k)%Z (u + k)%Z Z_ord W) as [E W']; auto.
    + apply int_result_in; auto.
    + apply int_result_in; auto.
    + destruct (Z.compare_spec l u), (Z.compare_spec (l + k) (u + k)); auto; lia.
    + split; auto. rewrite E. intros x. cbn. unfold admits_above, admits_below, le, lt. destruct lc, uc;
      rewrite ?Z.compare_gt_iff, ?Z.compare_lt_iff; lia.
  - destruct (@c89_order_keeping_assignment_is_safe _ _ Z.compare op ep (int_sub I) _ k j o l lc u uc (l - k)%Z (u - k)%Z Z_ord W) as [E W']; auto.
    + apply int_result_in; auto.
    + apply int_result_in; auto.
    + destruct (Z.compare_spec l u), (Z.compare_spec (l - k) (u - k)); auto; lia.
    + split; auto. rewrite E. intros x. cbn. unfold admits_above, admits_below, le, lt. destruct lc, uc;
      rewrite ?Z.compare_gt_iff, ?Z.compare_lt_iff; lia.
Qed.
Print Assumptions c89_integer_shifts_are_safe.

(** [1, 2] *= -1 whose comparison of the new ends panics leaves [-1, -2]. *)
Theorem c89_assignment_keeps_well_formed_refuted : exists op ep i j, zob i /\
  iv_mul_assign_p Z.compare op ep (assign_of (int_mul (i32 true))) i (-1)%Z = (j, Panic) /\
  iv_into_tuple j = Some (-1, true, -2, true)%Z /\ ~ well_formed Z.compare (iv_into_tuple j).
Proof.
  exists (fun x y => (x =? -1)%Z && (y =? -2)%Z), never, (zt 1 true 2 true), (ivt (-1)%Z true (-2)%Z true).
  split; [ob|]. split; [reflexivity|]. split; [reflexivity|]. intros [A|(A & _)]; discriminate A.
Qed.
Print Assumptions c89_assignment_keeps_well_formed_refuted.

(** the equality test panics instead: the ends are in order again; scaling by 0
    with a panicking equality leaves the malformed (0, 0] *)
Example c89_assign_ex :
  let all := fun _ _ : Z => true in
  iv_mul_assign_p Z.compare never all (assign_of (int_mul (i32 true))) (zt 1 true 2 false) (-1)%Z = (zt (-2) false (-1) true, Panic) /\
  iv_mul_assign_p Z.compare never all (assign_of (int_mul (i32 true))) (zt 1 false 2 true) 0%Z = (ivt 0%Z false 0%Z true, Panic) /\
  ~ well_formed Z.compare (iv_into_tuple (ivt 0%Z false 0%Z true)) /\
  iv_add_assign_p Z.compare all never (assign_of (int_add (u8 true))) (zt 1 true 2 false) 100%Z = (zt 101 true 102 false, Panic) /\
  iv_sub_assign_p Z.compare all never (assign_of (int_sub (u8 true))) (zt 1 true 2 false) 1%Z = (zt 0 true 1 false, Panic) /\
  iv_div_assign_p Z.compare all never (assign_of (int_div (i32 true))) (zt 6 true 9 false) (-3)%Z = (ivt (-2)%Z true (-3)%Z false, Panic) /\
  (* a comparison that does not concern the two ends does no harm *)
  iv_mul_assign_p Z.compare nine_four never (assign_of (int_mul (i32 true))) (zt 1 true 2 false) (-3)%Z = (zt (-6) false (-3) true, Ret tt).
Proof. cbv zeta. do 2 (split; [reflexivity|]). split; [intros [A|(_ & A & _)]; discriminate A|]. repeat split. Qed.
