(** Property theorems C90: intervals left malformed by an interrupted compound
    assignment (C39, C89) in later calls.  The theorems are about all intervals,
    whatever their ends. *)
From Coq Require Import ZArith Lia Bool.
From Verif Require Import Base IVModel IVModel3 IVSpec IVRun IVProofs IVProofs2 IVProofs3 IVProofs4 IVProofs5 IVProofs6 IVProps1 IVProps2 IVProps6.

Section Lemmas.
Variable T : Type.
Variable cmp : T -> T -> comparison.
Hypothesis HL : ord_laws cmp.
Notation mk l u := (Interval (Some (NonEmpty l u))).
Notation ok := (ok cmp).

Lemma ok_dec l u : {ok l u} + {~ ok l u}.
Proof. destruct (lu_gt cmp l u) eqn:E; [right|left]; [intros O; apply (ok_alt HL) in O; congruence|now apply (ok_alt HL)]. Qed.
Lemma from_bounds_bad l u : ~ ok l u -> iv_from_bounds cmp l u = Panic.
Proof.
  destruct l as [[l lc]], u as [[u uc]]. unfold IVProofs.ok, iv_from_bounds, create_checked, vgt, veq; cbn. intros N.
  destruct (cmp l u) eqn:C; auto.
  - destruct lc, uc; auto. elim N. auto.
  - elim N. left. exact C.
Qed.
Lemma raw_inter l1 u1 l2 u2 x : exists r, iv_intersection cmp (mk l1 u1) (mk l2 u2) = Ret r /\
  (mem cmp (iv_into_tuple r) x <-> mem cmp (iv_into_tuple (mk l1 u1)) x /\ mem cmp (iv_into_tuple (mk l2 u2)) x).
Proof.
  unfold iv_intersection. cbn [iv_is_empty imp orb]. rewrite (iv_lt_mk HL), iv_gt_mk.
  assert (E : forall l u, lu_gt cmp l u = true -> aboveb cmp l x -> belowb cmp u x -> False).
  { intros l u G. apply (not_ok_empty HL). intros O. apply (ok_alt HL) in O. congruence. }
  destruct (lu_gt cmp l1 u2) eqn:G1; cbn [orb].
  { eexists; split; [reflexivity|]. rewrite !mem_bounds. split; [intros []|]. intros [[A _] [_ B]]. exact (E _ _ G1 A B). }
  destruct (lu_gt cmp l2 u1) eqn:G2; cbn [orb].
  { eexists; split; [reflexivity|]. rewrite !mem_bounds. split; [intros []|]. intros [[_ A] [B _]]. exact (E _ _ G2 B A). }
  cbn [unwrap obind lo up]. eexists; split; [reflexivity|]. rewrite !mem_bounds.
  pose proof (lmax_if HL l1 l2) as [Hl Hl']. pose proof (umin_if HL u1 u2) as [Hu Hu'].
  set (l := if lower_lt cmp l1 l2 then l2 else l1) in *. set (u := if upper_gt cmp u1 u2 then u2 else u1) in *.
  split.
  - intros [A B]. repeat split.
    + apply (lle_points HL) with (m := l); auto. apply Hl'; cbn; auto.
    + apply (ule_points HL) with (l := u); auto. apply Hu'; cbn; auto.
    + apply (lle_points HL) with (m := l); auto. apply Hl'; cbn; auto.
    + apply (ule_points HL) with (l := u); auto. apply Hu'; cbn; auto.
  - intros [[A B] [C D]]. cbn in Hl, Hu. destruct Hl as [<-|[<-|[]]], Hu as [<-|[<-|[]]]; auto.
Qed.
(** [min]/[max] and the two [if]s choose ends that are the same up to equality *)
Lemma chosen (l l' : lower T) (u u' : upper T) : eqv (lower_cmp cmp) l l' -> eqv (upper_cmp cmp) u u' ->
  (ok l u -> exists r, iv_from_bounds cmp l' u' = Ret r /\ iv_eq cmp (mk l u) r = true) /\
  (~ ok l u -> iv_from_bounds cmp l' u' = Panic).
Proof.
  intros A B. split.
  - intros O. exists (mk l' u'). split; [apply (from_bounds_ok HL), (ok_eqv HL A B O)|]. apply iv_eq_same, same_bounds; auto.
  - intros N. apply from_bounds_bad. intros O. apply N. exact (ok_eqv HL (eqv_sym_l HL A) (eqv_sym_u HL B) O).
Qed.
Lemma vanishes l1 u1 l2 u2 : ~ ok l1 u1 -> are_separated cmp l2 u1 = false -> are_separated cmp l1 u2 = false ->
  le (lower_cmp cmp) l2 l1 /\ le (upper_cmp cmp) u1 u2.
Proof.
  destruct l1 as [[l1 a]], u1 as [[u1 b]], l2 as [[l2 c]], u2 as [[u2 d]].
  unfold IVProofs.ok, are_separated, le, lower_cmp, upper_cmp, vgt, veq, lt, eqv; cbn. intros N S1 S2.
  assert (L : cmp u1 l1 <> Gt) by (rewrite (ord_opp HL l1 u1); destruct (cmp l1 u1); cbn; try discriminate; elim N; auto).
  assert (F : cmp l1 u1 = Eq -> a && b = false) by (intros E; destruct a, b; auto; elim N; auto).
  assert (L1 : cmp l2 u1 <> Gt) by (destruct (cmp l2 u1); discriminate).
  assert (F1 : cmp u1 l2 = Eq -> b || c = true) by (intros E; rewrite E in S1; destruct (cmp l2 u1); try discriminate; destruct b, c; auto).
  assert (L2 : cmp l1 u2 <> Gt) by (destruct (cmp l1 u2); discriminate).
  assert (F2 : cmp u2 l1 = Eq -> a || d = true) by (intros E; rewrite E in S2; destruct (cmp l1 u2); try discriminate; destruct a, d; auto).
  clear N S1 S2. split.
  - destruct (cmp l2 l1) eqn:E; try discriminate; [|exfalso; ord HL].
    assert (A : cmp l1 u1 = Eq) by (change (eqv cmp l1 u1); ord HL). assert (B : cmp u1 l2 = Eq) by (change (eqv cmp u1 l2); ord HL).
    specialize (F A). specialize (F1 B). destruct a, b, c; cbn in *; try discriminate.
  - destruct (cmp u1 u2) eqn:E; try discriminate; [|exfalso; ord HL].
    assert (A : cmp l1 u1 = Eq) by (change (eqv cmp l1 u1); ord HL). assert (B : cmp u2 l1 = Eq) by (change (eqv cmp u2 l1); ord HL).
    specialize (F A). specialize (F2 B). destruct a, b, d; cbn in *; try discriminate.
Qed.
End Lemmas.

(** ** C90 *)
(** A malformed interval has no points and says so of every value, although it
    is not [is_empty]. *)
Theorem c90_malformed_has_no_points : forall T (cmp : T -> T -> comparison) i x, ord_laws cmp ->
  ~ well_formed cmp (iv_into_tuple i) ->
  ~ mem cmp (iv_into_tuple i) x /\ iv_contains_val cmp i x = false /\ iv_is_empty i = false.
Proof.
  intros T cmp i x HL N. iv_destruct i; [|elim N; exact I].
  assert (M : ~ mem cmp (iv_into_tuple (ivt l lc u uc)) x).
  { intros M. apply (mem_bounds cmp (Lower (Bound l lc)) (Upper (Bound u uc))) in M. destruct M as [A B].
    exact (not_ok_empty HL _ N A B). }
  split; [exact M|]. split; [|reflexivity].
  unfold iv_contains_val. apply negb_false_iff. apply orb_true_iff.
  destruct (ivv_gt cmp _ x) eqn:G; auto. right. destruct (ivv_lt cmp _ x) eqn:L; auto. exfalso. apply M.
  revert G L. cbn. unfold lv_gt, uv_lt, admits_above, admits_below, le, lt. cbn.
  unfold vgt, veq, vlt. pose proof (ord_opp HL u x) as O. rewrite O. destruct lc, uc; cbn;
  destruct (cmp l x), (cmp u x); cbn; intros; try discriminate; split; auto; discriminate.
Qed.
Print Assumptions c90_malformed_has_no_points.

(** [intersection] and [merge] in place are still the set operations, and [span]
    still covers both sets. *)
Theorem c90_in_place_set_operations : forall T (cmp : T -> T -> comparison) a b, ord_laws cmp ->
  (exists j, iv_intersection cmp a b = Ret j /\
     forall x, mem cmp (iv_into_tuple j) x <-> mem cmp (iv_into_tuple a) x /\ mem cmp (iv_into_tuple b) x) /\
  (iv_merge cmp a b = (a, inr b) \/
   exists j, iv_merge cmp a b = (j, inl tt) /\
     forall x, mem cmp (iv_into_tuple j) x <-> mem cmp (iv_into_tuple a) x \/ mem cmp (iv_into_tuple b) x) /\
  (exists j, iv_span cmp a b = Ret j /\
     forall x, mem cmp (iv_into_tuple a) x \/ mem cmp (iv_into_tuple b) x -> mem cmp (iv_into_tuple j) x).
Proof.
  intros T cmp a b HL.
  destruct a as [[[l1 u1]|]].
  2: { split; [exists (Interval None); split; [reflexivity|intros x; cbn; tauto]|].
       split; [right; exists b; split; [reflexivity|intros x; cbn; tauto]|].
       exists b; split; [destruct b as [[[l2 u2]|]]; reflexivity|intros x; cbn; tauto]. }
  destruct b as [[[l2 u2]|]].
  2: { split; [exists (Interval None); split; [apply inter_none_r|intros x; cbn; tauto]|].
       split; [right; exists (Interval (Some (NonEmpty l1 u1))); split; [reflexivity|intros x; cbn [imp iv_into_tuple mem]; tauto]|].
       exists (Interval (Some (NonEmpty l1 u1))); split; [reflexivity|intros x; cbn [imp iv_into_tuple mem]; tauto]. }
  split; [|split].
  - destruct (raw_inter T cmp HL l1 u1 l2 u2 (lval l1)) as (j & H & _). exists j; split; auto. intros x.
    destruct (raw_inter T cmp HL l1 u1 l2 u2 x) as (j' & H' & E). rewrite H' in H. now injection H as <-.
  - destruct (iv_can_be_merged cmp (Interval (Some (NonEmpty l1 u1))) (Interval (Some (NonEmpty l2 u2)))) eqn:M.
    + right. eexists. split; [unfold iv_merge; rewrite M; reflexivity|]. intros x.
      rewrite merge_sep, negb_true_iff, orb_false_iff in M. destruct M as [S1 S2].
      pose proof (sep_points HL _ _ S1 x) as P1. pose proof (sep_points HL _ _ S2 x) as P2.
      pose proof (lmin_if HL l1 l2) as [Hl Hl']. pose proof (umax_if HL u1 u2) as [Hu Hu'].
      cbn [imp lo up]. rewrite !mem_bounds.
      set (l := if lower_lt cmp l2 l1 then l2 else l1) in *. set (u := if upper_gt cmp u2 u1 then u2 else u1) in *.
      split.
      * intros [A B]. cbn in Hl, Hu. destruct Hl as [<-|[<-|[]]], Hu as [<-|[<-|[]]]; tauto.
      * intros [[A B]|[A B]].
        -- split; [apply (lle_points HL) with (m := l1)|apply (ule_points HL) with (l := u1)]; auto; [apply Hl'|apply Hu']; cbn; auto.
        -- split; [apply (lle_points HL) with (m := l2)|apply (ule_points HL) with (l := u2)]; auto; [apply Hl'|apply Hu']; cbn; auto.
    + left. exact (proj1 (merge_refused _ _ _ M)).
  - destruct (span_mk HL l1 u1 l2 u2) as (j & H & C). exists j. split; auto. destruct (span_contains HL C) as (A & B & _).
    intros x [M|M]; eauto using contains_points.
Qed.
Print Assumptions c90_in_place_set_operations.

(** The consuming forms compute the same interval and panic exactly when it is
    malformed. *)
Theorem c90_consuming_set_operations : forall T (cmp : T -> T -> comparison) a b j, ord_laws cmp ->
  iv_is_empty a = false -> iv_is_empty b = false ->
  (iv_intersection cmp a b = Ret j ->
     (well_formed cmp (iv_into_tuple j) -> exists j', iv_into_intersection cmp a b = Ret j' /\ iv_eq cmp j j' = true) /\
     (~ well_formed cmp (iv_into_tuple j) -> iv_into_intersection cmp a b = Panic)) /\
  (iv_span cmp a b = Ret j ->
     (well_formed cmp (iv_into_tuple j) -> exists j', iv_into_span cmp a b = Ret j' /\ iv_eq cmp j j' = true) /\
     (~ well_formed cmp (iv_into_tuple j) -> iv_into_span cmp a b = Panic)) /\
  (iv_merge cmp a b = (j, inl tt) ->
     (well_formed cmp (iv_into_tuple j) -> exists j', iv_into_merged cmp a b = Ret (inl j') /\ iv_eq cmp j j' = true) /\
     (~ well_formed cmp (iv_into_tuple j) -> iv_into_merged cmp a b = Panic)) /\
  (forall c, iv_merge cmp a b = (j, inr c) -> j = a /\ c = b /\ iv_into_merged cmp a b = Ret (inr (a, b))).
Proof.
  intros T cmp a b j HL Ea Eb.
  destruct a as [[[l1 u1]|]]; [|discriminate]. destruct b as [[[l2 u2]|]]; [|discriminate].
  assert (SP := chosen T cmp HL _ _ _ _ (lmin_uniq HL (lmin_if HL l1 l2) (lmin_is HL l1 l2)) (umax_uniq HL (umax_if HL u1 u2) (umax_is HL u1 u2))).
  assert (IN := chosen T cmp HL _ _ _ _ (lmax_uniq HL (lmax_if HL l1 l2) (lmax_is HL l1 l2)) (umin_uniq HL (umin_if HL u1 u2) (umin_is HL u1 u2))).
  split; [|split; [|split]].
  - unfold iv_intersection, iv_into_intersection, iv_intersects. cbn [iv_is_empty imp orb].
    destruct (iv_gt cmp _ _); cbn [orb negb].
    { intros H; injection H as <-. split; [intros _; eexists; split; reflexivity|]. intros N; elim N; exact I. }
    destruct (iv_lt cmp _ _); cbn [orb negb].
    { intros H; injection H as <-. split; [intros _; eexists; split; reflexivity|]. intros N; elim N; exact I. }
    cbn [unwrap obind imp lo up iv_into_bounds]. intros H; injection H as <-. exact IN.
  - unfold iv_span, iv_into_span. cbn [iv_is_empty unwrap obind imp lo up iv_into_bounds]. intros H; injection H as <-. exact SP.
  - unfold iv_merge, iv_into_merged. destruct (iv_can_be_merged cmp _ _); cbn [negb]; [|discriminate].
    cbn [iv_is_empty unwrap obind imp lo up iv_into_bounds]. intros H; injection H as <-. destruct SP as [S1 S2]. split.
    + intros O. destruct (S1 O) as (r & -> & E). exists r. split; auto.
    + intros N. now rewrite (S2 N).
  - intros c. unfold iv_merge, iv_into_merged. destruct (iv_can_be_merged cmp _ _); cbn [negb]; [discriminate|].
    intros H; injection H as <- <-. auto.
Qed.
Print Assumptions c90_consuming_set_operations.

(** A malformed interval merges with another one only by vanishing in it. *)
Theorem c90_merging_a_malformed_one : forall T (cmp : T -> T -> comparison) a b j, ord_laws cmp ->
  ~ well_formed cmp (iv_into_tuple a) -> iv_is_empty b = false ->
  (iv_merge cmp a b = (j, inl tt) -> iv_eq cmp j b = true) /\
  (iv_merge cmp b a = (j, inl tt) -> iv_eq cmp j b = true).
Proof.
  intros T cmp a b j HL Na Eb.
  destruct a as [[[l1 u1]|]]; [|elim Na; exact I]. destruct b as [[[l2 u2]|]]; [|discriminate].
  assert (G : are_separated cmp l2 u1 = false -> are_separated cmp l1 u2 = false ->
    le (lower_cmp cmp) l2 l1 /\ le (upper_cmp cmp) u1 u2).
  { assert (Na' : ~ ok cmp l1 u1) by (intros O; apply Na; now apply wf_ok). clear - HL Na'. exact (vanishes T cmp HL l1 u1 l2 u2 Na'). }
  assert (SY : are_separated cmp l2 u1 = false /\ are_separated cmp l1 u2 = false -> 
    iv_eq cmp (Interval (Some (NonEmpty (if lower_lt cmp l2 l1 then l2 else l1) (if upper_gt cmp u2 u1 then u2 else u1)))) (Interval (Some (NonEmpty l2 u2))) = true /\
    iv_eq cmp (Interval (Some (NonEmpty (if lower_lt cmp l1 l2 then l1 else l2) (if upper_gt cmp u1 u2 then u1 else u2)))) (Interval (Some (NonEmpty l2 u2))) = true).
  { intros [S1 S2]. destruct (G S1 S2) as [L U]. split; apply iv_eq_same, same_bounds; split.
    - apply (les_eqv (lower_cmp_laws HL)); [apply (lmin_if HL l1 l2); cbn; auto|].
      destruct (lmin_if HL l1 l2) as [[<-|[<-|[]]] _]; auto. apply (le_refl (lower_cmp_laws HL)).
    - apply (les_eqv (upper_cmp_laws HL)); [|apply (umax_if HL u1 u2); cbn; auto].
      destruct (umax_if HL u1 u2) as [[<-|[<-|[]]] _]; auto. apply (le_refl (upper_cmp_laws HL)).
    - apply (les_eqv (lower_cmp_laws HL)); [apply (lmin_if HL l2 l1); cbn; auto|].
      destruct (lmin_if HL l2 l1) as [[<-|[<-|[]]] _]; auto. apply (le_refl (lower_cmp_laws HL)).
    - apply (les_eqv (upper_cmp_laws HL)); [|apply (umax_if HL u2 u1); cbn; auto].
      destruct (umax_if HL u2 u1) as [[<-|[<-|[]]] _]; auto. apply (le_refl (upper_cmp_laws HL)). }
  unfold iv_merge. rewrite !merge_sep, (orb_comm (are_separated cmp l1 u2)).
  destruct (are_separated cmp l2 u1), (are_separated cmp l1 u2); cbn [orb negb imp lo up]; split; try discriminate;
  intros H; injection H as <-; apply SY; auto.
Qed.
Print Assumptions c90_merging_a_malformed_one.

(** Every arithmetic operation that returns repairs the interval. *)
Theorem c90_arithmetic_repairs : forall T U (cmp : T -> T -> comparison) (f : T -> U -> outcome T) (g : T -> outcome T) i k j,
  ord_laws cmp ->
  iv_add cmp f i k = Ret j \/ iv_sub cmp f i k = Ret j \/ iv_mul cmp f i k = Ret j \/ iv_div cmp f i k = Ret j \/
  iv_neg cmp g i = Ret j \/
  iv_add_assign cmp (assign_of f) i k = (j, Ret tt) \/ iv_sub_assign cmp (assign_of f) i k = (j, Ret tt) \/
  iv_mul_assign cmp (assign_of f) i k = (j, Ret tt) \/ iv_div_assign cmp (assign_of f) i k = (j, Ret tt) ->
  well_formed cmp (iv_into_tuple j).
Proof.
  intros T U cmp f g i k j HL H.
  assert (M : forall h, iv_map cmp h i = Ret j -> wf cmp j).
  { intros h E. unfold iv_map in E. destruct (iv_into_tuple i) as [[[[l lc] u] uc]|] eqn:I.
    - destruct (h u); cbn [obind] in E; try discriminate. destruct (h l); cbn [obind] in E; try discriminate. injection E as <-. apply (fix_wf HL).
    - injection E as <-. unfold wf. rewrite I. exact Logic.I. }
  destruct H as [H|[H|[H|[H|[H|[H|[H|[H|H]]]]]]]].
  - rewrite iv_add_map in H. exact (M _ H).
  - rewrite iv_sub_map in H. exact (M _ H).
  - rewrite iv_mul_map in H. exact (M _ H).
  - rewrite iv_div_map in H. exact (M _ H).
  - unfold iv_neg in H. destruct (iv_into_tuple i) as [[[[l lc] u] uc]|].
    + destruct (g u); cbn [obind] in H; try discriminate. destruct (g l); cbn [obind] in H; try discriminate. injection H as <-. apply (fix_wf HL).
    + injection H as <-. exact I.
  - rewrite iv_add_assign_map in H. apply map_assign_same in H. exact (M _ H).
  - rewrite iv_sub_assign_map in H. apply map_assign_same in H. exact (M _ H).
  - rewrite iv_mul_assign_map in H. apply map_assign_same in H. exact (M _ H).
  - rewrite iv_div_assign_map in H. apply map_assign_same in H. exact (M _ H).
Qed.
Print Assumptions c90_arithmetic_repairs.

(** what [120, 200] += 100 leaves behind in u8 (C39) *)
Definition c90_bad : interval Z := ivt 220%Z true 200%Z true.
Example c90_ex :
  iv_add_assign Z.compare (assign_of (int_add (u8 true))) (zt 120 true 200 true) 100%Z = (c90_bad, Panic) /\
  ~ well_formed Z.compare (iv_into_tuple c90_bad) /\
  iv_contains_val Z.compare c90_bad 210%Z = false /\ iv_contains_val Z.compare c90_bad 220%Z = false /\
  iv_intersection Z.compare c90_bad (zt 100 true 230 true) = Ret c90_bad /\
  iv_into_intersection Z.compare c90_bad (zt 100 true 230 true) = Panic /\
  iv_into_intersection Z.compare c90_bad (zt 100 true 210 true) = Ret zempty /\
  iv_merge Z.compare c90_bad (zt 100 true 230 true) = (zt 100 true 230 true, inl tt) /\
  iv_into_merged Z.compare c90_bad (zt 100 true 230 true) = Ret (inl (zt 100 true 230 true)) /\
  iv_merge Z.compare c90_bad (zt 100 true 210 true) = (c90_bad, inr (zt 100 true 210 true)) /\
  iv_span Z.compare c90_bad (zt 1 true 2 true) = Ret (zt 1 true 200 true) /\
  iv_into_span Z.compare c90_bad c90_bad = Panic /\
  iv_sub_assign Z.compare (assign_of (int_sub (u8 true))) c90_bad 1%Z = (zt 199 true 219 true, Ret tt) /\
  zob (zt 120 true 200 true) /\ zob (zt 100 true 230 true) /\ zob (zt 100 true 210 true).
Proof.
  split; [reflexivity|]. split; [intros [A|(A & _)]; discriminate A|]. do 11 (split; [reflexivity|]). repeat split; ob.
Qed.
