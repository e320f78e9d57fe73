(** Property theorems C20-C33, C40 and C60-C62: intervals as sets and their order. *)
From Coq Require Import ZArith QArith Lia Lqa.
From Verif Require Import Base IVModel IVSpec IVRun IVProofs IVProofs2 IVProofs3 IVProofs4 IVProofs5.

(** ** Intervals used in the examples *)
Definition zt (l : Z) lc u uc : interval Z := ivt l lc u uc.
Definition qt (l : Q) lc u uc : interval Q := ivt l lc u uc.
Definition zempty : interval Z := iv_empty Z.
Definition qempty : interval Q := iv_empty Q.
Lemma zt_ob l lc u uc : iv_new Z.compare l lc u uc = Ret (zt l lc u uc) -> obtainable Z.compare (zt l lc u uc).
Proof. apply ob_new. Qed.
Lemma qt_ob l lc u uc : iv_new Qcompare l lc u uc = Ret (qt l lc u uc) -> obtainable Qcompare (qt l lc u uc).
Proof. apply ob_new. Qed.
Ltac ob := first [apply zt_ob; reflexivity | apply qt_ob; reflexivity | apply ob_empty].

(** ** C20 *)
Theorem c20_well_formed : forall T (cmp : T -> T -> comparison) i,
  ord_laws cmp -> obtainable cmp i -> well_formed cmp (iv_into_tuple i).
Proof. exact (fun T cmp i HL => @obtainable_wf T cmp HL i). Qed.
Print Assumptions c20_well_formed.

(** a merge followed by a scaling by -2 and a negation *)
Definition c20_merged := fst (iv_merge Z.compare (zt 1 true 3 false) (zt 3 true 5 false)).
Example c20_ex : exists i j, iv_mul Z.compare (int_mul (i32 true)) c20_merged (-2)%Z = Ret i /\
  iv_neg Z.compare (int_neg (i32 true)) i = Ret j /\ obtainable Z.compare j /\
  iv_into_tuple j = Some (2%Z, true, 10%Z, false).
Proof.
  exists (zt (-10) false (-2) true), (zt 2 true 10 false).
  split; [reflexivity|]. split; [reflexivity|]. split; [|reflexivity].
  eapply ob_neg with (f := int_neg (i32 true)) (a := zt (-10) false (-2) true); [|reflexivity].
  eapply ob_mul with (f := int_mul (i32 true)) (a := c20_merged) (k := (-2)%Z); [|reflexivity]. apply ob_merge; ob.
Qed.

(** ** C21 *)
Theorem c21_new_panics_iff_invalid : forall T (cmp : T -> T -> comparison) l lc u uc, ord_laws cmp ->
  iv_new cmp l lc u uc = Panic <-> lt cmp u l \/ eqv cmp l u /\ (lc = false \/ uc = false).
Proof.
  intros T cmp l lc u uc HL. unfold iv_new, create_checked, vgt, veq, lt, eqv. rewrite (ord_opp HL l u).
  destruct (cmp l u), lc, uc; cbn; split; auto; try discriminate; intros [?|[? [?|?]]]; discriminate.
Qed.
Print Assumptions c21_new_panics_iff_invalid.

Theorem c21_new_keeps_bounds : forall T (cmp : T -> T -> comparison) l lc u uc,
  iv_new cmp l lc u uc = Panic \/
  exists i, iv_new cmp l lc u uc = Ret i /\ iv_into_tuple i = Some (l, lc, u, uc) /\
    iv_into_bounds i = Some (lower_new l lc, upper_new u uc).
Proof.
  intros. unfold iv_new, create_checked. destruct (vgt cmp l u); auto. destruct (veq cmp l u && (negb lc || negb uc)); auto.
  right. eexists; repeat split.
Qed.
Print Assumptions c21_new_keeps_bounds.

Theorem c21_other_constructors : forall T (cmp : T -> T -> comparison) l lc u uc,
  iv_from_bounds cmp (lower_new l lc) (upper_new u uc) = iv_new cmp l lc u uc /\
  iv_open cmp l u = iv_new cmp l false u false /\
  iv_closed cmp l u = iv_new cmp l true u true /\
  iv_lower_closed cmp l u = iv_new cmp l true u false /\
  iv_upper_closed cmp l u = iv_new cmp l false u true /\
  iv_into_tuple (iv_single l) = Some (l, true, l, true) /\
  iv_into_tuple (iv_empty T) = None.
Proof. intros; repeat split. Qed.
Print Assumptions c21_other_constructors.

(** taking an interval apart and rebuilding it gives it back *)
Theorem c21_round_trip : forall T (cmp : T -> T -> comparison) i l lc u uc, ord_laws cmp -> obtainable cmp i ->
  iv_into_tuple i = Some (l, lc, u, uc) -> iv_new cmp l lc u uc = Ret i /\
  exists lo up, iv_into_bounds i = Some (lo, up) /\ iv_from_bounds cmp lo up = Ret i.
Proof.
  intros T cmp i l lc u uc HL Ho Ht. pose proof (obtainable_wf HL Ho) as W.
  destruct (ivt_eta i) as [->|(l0 & lc0 & u0 & uc0 & ->)]; [discriminate|]. injection Ht as -> -> -> ->.
  split; [exact (create_checked_ok HL W)|]. exists (lower_new l lc), (upper_new u uc). split; [reflexivity|].
  exact (from_bounds_ok HL W).
Qed.
Print Assumptions c21_round_trip.

Example c21_ex : iv_new Z.compare 5%Z true 3%Z true = Panic /\ iv_lower_closed Z.compare 3%Z 3%Z = Panic /\
  iv_closed Z.compare 3%Z 3%Z = Ret (iv_single 3%Z) /\ iv_new Qcompare (1#2)%Q false (2#4)%Q true = Panic.
Proof. repeat split. Qed.

(** ** C22 *)
Theorem c22_contains_val_partial : forall T (cmp : T -> T -> comparison) i x, ord_laws cmp ->
  iv_is_empty i = false -> (iv_contains_val cmp i x = true <-> has cmp i x).
Proof. exact (fun T cmp i x HL => @contains_val_spec T cmp HL i x). Qed.
Print Assumptions c22_contains_val_partial.

(** the empty interval claims to contain every value *)
Theorem c22_empty_contains_val_refuted : forall T (cmp : T -> T -> comparison) x,
  iv_contains_val cmp (iv_empty T) x = true /\ ~ has cmp (iv_empty T) x.
Proof. intros; split; [reflexivity|intros []]. Qed.
Print Assumptions c22_empty_contains_val_refuted.

Example c22_ex : iv_contains_val Z.compare (zt 1 false 3 true) 3%Z = true /\
  iv_contains_val Z.compare (zt 1 false 3 true) 1%Z = false /\ iv_contains_val Z.compare zempty 7%Z = true.
Proof. repeat split. Qed.

(** ** C23 *)
Theorem c23_contains_interval_sound : forall T (cmp : T -> T -> comparison) a b x, ord_laws cmp ->
  iv_contains_interval cmp a b = true -> has cmp b x -> has cmp a x.
Proof. exact (fun T cmp a b x HL => @contains_points T cmp HL a b x). Qed.
Print Assumptions c23_contains_interval_sound.

Theorem c23_contains_interval_complete : forall T (cmp : T -> T -> comparison) a b, ord_laws cmp -> dense cmp ->
  obtainable cmp b -> (forall x, has cmp b x -> has cmp a x) -> iv_contains_interval cmp a b = true.
Proof. exact (fun T cmp a b HL HD Ho => @contains_complete T cmp HL HD a b (obtainable_wf HL Ho)). Qed.
Print Assumptions c23_contains_interval_complete.

(** a partial order up to [==] *)
Theorem c23_contains_interval_order : forall T (cmp : T -> T -> comparison) a b c, ord_laws cmp ->
  iv_contains_interval cmp a a = true /\
  (iv_contains_interval cmp a b = true -> iv_contains_interval cmp b c = true -> iv_contains_interval cmp a c = true) /\
  (iv_contains_interval cmp a b = true -> iv_contains_interval cmp b a = true -> iv_eq cmp a b = true) /\
  iv_contains_interval cmp a (iv_empty T) = true.
Proof.
  intros T cmp a b c HL. split; [apply (contains_refl HL)|]. split; [apply (contains_trans HL)|].
  split; [apply (contains_antisym HL)|]. destruct a as [[[? ?]|]]; reflexivity.
Qed.
Print Assumptions c23_contains_interval_order.

(** over the integers (0,3) holds exactly the points of [1,2], but does not contain it the other way round *)
Example c23_ex : iv_contains_interval Z.compare (zt 0 false 3 false) (zt 1 true 2 true) = true /\
  iv_contains_interval Z.compare (zt 1 true 2 true) (zt 0 false 3 false) = false /\
  (forall x, has Z.compare (zt 0 false 3 false) x -> has Z.compare (zt 1 true 2 true) x) /\
  iv_contains_interval Qcompare (qt 0 false 3 true) (qt 0 false 2 true) = true /\ dense Qcompare.
Proof.
  split; [reflexivity|]. split; [reflexivity|]. split; [|split; [reflexivity|apply Q_dense]].
  intros x [A B]. cbn in A, B. change ((0 < x)%Z) in A. change ((x < 3)%Z) in B.
  split; cbn; [change (1 <= x)%Z|change (x <= 2)%Z]; lia.
Qed.

(** ** C24 *)
Theorem c24_merge_is_union : forall T (cmp : T -> T -> comparison) a b, ord_laws cmp ->
  obtainable cmp a -> obtainable cmp b -> iv_can_be_merged cmp a b = true ->
  exists r r', iv_merge cmp a b = (r, inl tt) /\ iv_into_merged cmp a b = Ret (inl r') /\
    iv_eq cmp r r' = true /\ (forall x, has cmp r x <-> has cmp a x \/ has cmp b x) /\
    (forall x, has cmp r' x <-> has cmp a x \/ has cmp b x).
Proof.
  intros T cmp a b HL Ha Hb H.
  destruct (merge_spec HL _ _ (obtainable_wf HL Ha) (obtainable_wf HL Hb) H) as (r & r' & H1 & H2 & H3 & W & W' & M & _).
  exists r, r'. split; auto. split; auto. split; auto. split; auto. intros x. unfold has. rewrite <- M.
  apply iv_eq_same in H3. destruct (ivt_eta r) as [->|(l & lc & u & uc & ->)], (ivt_eta r') as [->|(l' & lc' & u' & uc' & ->)];
  cbn in H3; try (destruct H3; fail); [reflexivity|]. destruct H3 as (A & -> & B & ->). cbn.
  destruct lc', uc'; cbn; split; intros [? ?]; split; ord HL.
Qed.
Print Assumptions c24_merge_is_union.

Theorem c24_refused_returns_operands : forall T (cmp : T -> T -> comparison) a b,
  iv_can_be_merged cmp a b = false ->
  iv_merge cmp a b = (a, inr b) /\ iv_into_merged cmp a b = Ret (inr (a, b)).
Proof. exact (fun T cmp a b => @merge_refused T cmp a b). Qed.
Print Assumptions c24_refused_returns_operands.

Theorem c24_mergeable_iff_no_gap : forall T (cmp : T -> T -> comparison) a b, ord_laws cmp -> dense cmp ->
  obtainable cmp a -> obtainable cmp b ->
  (iv_can_be_merged cmp a b = true <-> convex cmp (fun x => has cmp a x \/ has cmp b x)).
Proof.
  intros T cmp a b HL HD Ha Hb. split.
  - exact (merge_convex HL _ _ (obtainable_wf HL Ha) (obtainable_wf HL Hb)).
  - exact (@merge_complete T cmp HL a b HD (obtainable_wf HL Ha) (obtainable_wf HL Hb)).
Qed.
Print Assumptions c24_mergeable_iff_no_gap.

Theorem c24_mergeable_has_no_gap : forall T (cmp : T -> T -> comparison) a b, ord_laws cmp ->
  obtainable cmp a -> obtainable cmp b ->
  iv_can_be_merged cmp a b = true -> convex cmp (fun x => has cmp a x \/ has cmp b x).
Proof. exact (fun T cmp a b HL Ha Hb => merge_convex HL _ _ (obtainable_wf HL Ha) (obtainable_wf HL Hb)). Qed.
Print Assumptions c24_mergeable_has_no_gap.

Example c24_ex : iv_merge Z.compare (zt 1 true 3 false) (zt 3 true 5 false) = (zt 1 true 5 false, inl tt) /\
  iv_merge Z.compare (zt 1 true 3 false) (zt 3 false 5 false) = (zt 1 true 3 false, inr (zt 3 false 5 false)) /\
  iv_can_be_merged Qcompare (qt 1 true 3 false) (qt 3 false 5 false) = false /\
  obtainable Z.compare (zt 1 true 3 false) /\ obtainable Z.compare (zt 3 true 5 false).
Proof. split; [reflexivity|]. split; [reflexivity|]. split; [reflexivity|]. split; ob. Qed.

(** ** C25 *)
Theorem c25_intersection : forall T (cmp : T -> T -> comparison) a b, ord_laws cmp ->
  obtainable cmp a -> obtainable cmp b ->
  exists r r', iv_intersection cmp a b = Ret r /\ iv_into_intersection cmp a b = Ret r' /\ iv_eq cmp r r' = true /\
    forall x, has cmp r x <-> has cmp a x /\ has cmp b x.
Proof.
  intros T cmp a b HL Ha Hb.
  destruct (intersection_spec HL _ _ (obtainable_wf HL Ha) (obtainable_wf HL Hb)) as (r & r' & H1 & H2 & H3 & _ & _ & M).
  exists r, r'; auto.
Qed.
Print Assumptions c25_intersection.

(** equal intervals have equal points, so this covers [into_intersection] as well *)
Theorem c25_equal_intervals_have_equal_points : forall T (cmp : T -> T -> comparison) a b x, ord_laws cmp ->
  iv_eq cmp a b = true -> (has cmp a x <-> has cmp b x).
Proof.
  intros T cmp a b x HL H. apply iv_eq_same in H.
  destruct (ivt_eta a) as [->|(l & lc & u & uc & ->)], (ivt_eta b) as [->|(l' & lc' & u' & uc' & ->)];
  cbn in H; try (destruct H; fail); [reflexivity|]. destruct H as (A & -> & B & ->). unfold has; cbn.
  destruct lc', uc'; cbn; split; intros [? ?]; split; ord HL.
Qed.
Print Assumptions c25_equal_intervals_have_equal_points.

Example c25_ex : iv_intersection Z.compare (zt 1 true 5 false) (zt 3 false 9 true) = Ret (zt 3 false 5 false) /\
  iv_into_intersection Z.compare (zt 1 true 5 false) (zt 3 false 9 true) = Ret (zt 3 false 5 false) /\
  iv_intersection Z.compare (zt 1 true 5 false) (zt 5 true 9 true) = Ret zempty /\
  obtainable Z.compare (zt 1 true 5 false) /\ obtainable Z.compare (zt 3 false 9 true).
Proof. split; [reflexivity|]. split; [reflexivity|]. split; [reflexivity|]. split; ob. Qed.

(** ** C26 *)
Theorem c26_common_point_intersects : forall T (cmp : T -> T -> comparison) a b x, ord_laws cmp ->
  has cmp a x -> has cmp b x -> iv_intersects cmp a b = true.
Proof. exact (fun T cmp a b x HL => @common_intersects T cmp HL a b x). Qed.
Print Assumptions c26_common_point_intersects.

(** missing: empty operands, and orders that are not dense *)
Theorem c26_intersects_dense_partial : forall T (cmp : T -> T -> comparison) a b, ord_laws cmp -> dense cmp ->
  obtainable cmp a -> obtainable cmp b -> iv_is_empty a = false -> iv_is_empty b = false ->
  (iv_intersects cmp a b = true <-> exists x, has cmp a x /\ has cmp b x).
Proof.
  intros T cmp a b HL HD Ha Hb Na Nb. split.
  - exact (@intersects_common T cmp HL a b HD (obtainable_wf HL Ha) (obtainable_wf HL Hb) Na Nb).
  - intros (x & A & B). exact (@common_intersects T cmp HL a b x A B).
Qed.
Print Assumptions c26_intersects_dense_partial.

(** the empty interval "intersects" everything *)
Theorem c26_empty_intersects_refuted : forall T (cmp : T -> T -> comparison) b,
  iv_intersects cmp (iv_empty T) b = true /\ iv_intersects cmp b (iv_empty T) = true /\
  ~ (exists x, has cmp (iv_empty T) x /\ has cmp b x).
Proof.
  intros. split; [reflexivity|]. split; [destruct b as [[[? ?]|]]; reflexivity|]. intros (x & [] & _).
Qed.
Print Assumptions c26_empty_intersects_refuted.

(** over the integers (1,3) and (2,4) have no common point *)
Theorem c26_integer_gap_refuted :
  iv_intersects Z.compare (zt 1 false 3 false) (zt 2 false 4 false) = true /\
  ~ (exists x, has Z.compare (zt 1 false 3 false) x /\ has Z.compare (zt 2 false 4 false) x).
Proof.
  split; [reflexivity|]. intros (x & [A B] & [C D]). cbn in A, B, C, D.
  change (1 < x)%Z in A. change (x < 3)%Z in B. change (2 < x)%Z in C. change (x < 4)%Z in D. lia.
Qed.
Print Assumptions c26_integer_gap_refuted.

Example c26_ex : iv_intersects Qcompare (qt 1 true 2 true) (qt 2 true 3 true) = true /\
  iv_intersects Qcompare (qt 1 true 2 false) (qt 2 true 3 true) = false /\
  obtainable Qcompare (qt 1 true 2 true) /\ obtainable Qcompare (qt 2 true 3 true).
Proof. split; [reflexivity|]. split; [reflexivity|]. split; ob. Qed.

(** ** C27 *)
Theorem c27_span_is_least : forall T (cmp : T -> T -> comparison) a b, ord_laws cmp ->
  obtainable cmp a -> obtainable cmp b ->
  exists r r', iv_span cmp a b = Ret r /\ iv_into_span cmp a b = Ret r' /\ iv_eq cmp r r' = true /\
    iv_contains_interval cmp r a = true /\ iv_contains_interval cmp r b = true /\
    (forall c, iv_contains_interval cmp c a = true -> iv_contains_interval cmp c b = true ->
      iv_contains_interval cmp c r = true).
Proof.
  intros T cmp a b HL Ha Hb.
  destruct (span_spec HL _ _ (obtainable_wf HL Ha) (obtainable_wf HL Hb)) as (r & r' & H1 & H2 & H3 & _ & _ & M).
  exists r, r'; auto.
Qed.
Print Assumptions c27_span_is_least.

(** over a dense order: exactly the points between points of the operands *)
Theorem c27_span_is_hull : forall T (cmp : T -> T -> comparison) a b r x, ord_laws cmp -> dense cmp ->
  obtainable cmp a -> obtainable cmp b -> iv_span cmp a b = Ret r ->
  (has cmp r x <-> exists p q, (has cmp a p \/ has cmp b p) /\ (has cmp a q \/ has cmp b q) /\ le cmp p x /\ le cmp x q).
Proof.
  exact (fun T cmp a b r x HL HD Ha Hb => @span_hull T cmp HL a b r x HD (obtainable_wf HL Ha) (obtainable_wf HL Hb)).
Qed.
Print Assumptions c27_span_is_hull.

Example c27_ex : iv_span Z.compare (zt 1 false 3 true) (zt 1 true 3 false) = Ret (zt 1 true 3 true) /\
  iv_span Qcompare (qt 1 true 2 false) (qt 7 false 8 false) = Ret (qt 1 true 8 false) /\
  iv_into_span Qcompare (qt 7 false 8 false) (qt 1 true 2 false) = Ret (qt 1 true 8 false) /\
  iv_span Z.compare zempty (zt 1 true 3 false) = Ret (zt 1 true 3 false) /\
  obtainable Qcompare (qt 1 true 2 false) /\ obtainable Qcompare (qt 7 false 8 false).
Proof. do 4 (split; [reflexivity|]). split; ob. Qed.

(** ** C28 *)
Theorem c28_lt_compares_points : forall T (cmp : T -> T -> comparison) a b, ord_laws cmp ->
  (iv_lt cmp a b = true -> forall x y, has cmp a x -> has cmp b y -> lt cmp x y) /\
  (iv_gt cmp a b = true -> forall x y, has cmp a x -> has cmp b y -> lt cmp y x) /\
  (iv_le cmp a b = true -> forall x y, has cmp a x -> has cmp b y -> le cmp x y) /\
  (iv_ge cmp a b = true -> forall x y, has cmp a x -> has cmp b y -> le cmp y x).
Proof.
  intros T cmp a b HL. rewrite (iv_gt_lt HL a b), (iv_ge_le HL a b).
  split; [|split; [|split]]; intros H x y A B.
  - exact (@lt_points T cmp HL a b x y H A B).
  - exact (@lt_points T cmp HL b a y x H B A).
  - exact (@le_points T cmp HL a b x y H A B).
  - exact (@le_points T cmp HL b a y x H B A).
Qed.
Print Assumptions c28_lt_compares_points.

Theorem c28_lt_complete : forall T (cmp : T -> T -> comparison) a b, ord_laws cmp -> dense cmp ->
  obtainable cmp a -> obtainable cmp b -> iv_is_empty a = false -> iv_is_empty b = false ->
  ((forall x y, has cmp a x -> has cmp b y -> lt cmp x y) -> iv_lt cmp a b = true /\ iv_gt cmp b a = true) /\
  ((forall x y, has cmp a x -> has cmp b y -> le cmp x y) -> iv_le cmp a b = true /\ iv_ge cmp b a = true).
Proof.
  intros T cmp a b HL HD Ha Hb Na Nb. rewrite (iv_gt_lt HL b a), (iv_ge_le HL b a).
  pose proof (obtainable_wf HL Ha) as Wa. pose proof (obtainable_wf HL Hb) as Wb. split; intros H.
  - pose proof (@lt_complete T cmp HL a b HD Wa Wb Na Nb H); auto.
  - pose proof (@le_complete T cmp HL a b HD Wa Wb Na Nb H); auto.
Qed.
Print Assumptions c28_lt_complete.

Theorem c28_lt_strict_order : forall T (cmp : T -> T -> comparison) a b c, ord_laws cmp ->
  obtainable cmp a -> obtainable cmp b ->
  iv_lt cmp a a = false /\ (iv_lt cmp a b = true -> iv_lt cmp b a = false) /\
  (iv_lt cmp a b = true -> iv_lt cmp b c = true -> iv_lt cmp a c = true) /\
  iv_gt cmp a b = iv_lt cmp b a /\ iv_ge cmp a b = iv_le cmp b a.
Proof.
  intros T cmp a b c HL Ha Hb. pose proof (obtainable_wf HL Ha) as Wa. pose proof (obtainable_wf HL Hb) as Wb.
  split; [exact (@iv_lt_irrefl T cmp HL a Wa)|]. split; [exact (@iv_lt_asym T cmp HL a b Wa Wb)|].
  split; [exact (@iv_lt_trans T cmp HL a b c Wb)|]. split; [apply (iv_gt_lt HL)|apply (iv_ge_le HL)].
Qed.
Print Assumptions c28_lt_strict_order.

Theorem c28_le_at_most_one_common_point : forall T (cmp : T -> T -> comparison) a b x y, ord_laws cmp ->
  iv_le cmp a b = true -> has cmp a x -> has cmp b x -> has cmp a y -> has cmp b y -> eqv cmp x y.
Proof.
  intros T cmp a b x y HL H A B C D.
  pose proof (@le_points T cmp HL a b x y H A D). pose proof (@le_points T cmp HL a b y x H C B). ord HL.
Qed.
Print Assumptions c28_le_at_most_one_common_point.

Example c28_ex : iv_lt Qcompare (qt 1 true 2 false) (qt 2 true 3 true) = true /\
  iv_lt Qcompare (qt 2 true 3 true) (qt 3 false 4 true) = true /\
  iv_lt Qcompare (qt 1 true 2 true) (qt 2 true 3 true) = false /\
  iv_le Qcompare (qt 1 true 2 true) (qt 2 true 3 true) = true /\
  has Qcompare (qt 1 true 2 true) 2 /\ has Qcompare (qt 2 true 3 true) 2 /\
  obtainable Qcompare (qt 1 true 2 false) /\ obtainable Qcompare (qt 2 true 3 true).
Proof.
  do 4 (split; [reflexivity|]). split; [split; discriminate|]. split; [split; discriminate|]. split; ob.
Qed.

(** ** C29 *)
Theorem c29_partial_cmp_partial : forall T (cmp : T -> T -> comparison) a b, ord_laws cmp ->
  obtainable cmp a -> obtainable cmp b ->
  (iv_partial_cmp cmp a b = Some Lt <-> iv_lt cmp a b = true) /\
  (iv_partial_cmp cmp a b = Some Gt <-> iv_gt cmp a b = true) /\
  (iv_partial_cmp cmp a b = Some Eq <-> iv_eq cmp a b = true).
Proof. exact (fun T cmp a b HL Ha Hb => @iv_pcmp T cmp HL a b (obtainable_wf HL Ha) (obtainable_wf HL Hb)). Qed.
Print Assumptions c29_partial_cmp_partial.

Theorem c29_exclusive : forall T (cmp : T -> T -> comparison) a b, ord_laws cmp ->
  obtainable cmp a -> obtainable cmp b ->
  ~ (iv_lt cmp a b = true /\ iv_gt cmp a b = true) /\ ~ (iv_lt cmp a b = true /\ iv_eq cmp a b = true) /\
  ~ (iv_gt cmp a b = true /\ iv_eq cmp a b = true) /\
  (iv_lt cmp a b = true -> iv_le cmp a b = true) /\ (iv_gt cmp a b = true -> iv_ge cmp a b = true).
Proof.
  intros T cmp a b HL Ha Hb.
  destruct (@iv_pcmp T cmp HL a b (obtainable_wf HL Ha) (obtainable_wf HL Hb)) as (A & B & C).
  rewrite <- A, <- B, <- C. split; [|split; [|split; [|split]]]; try (intros [K K']; congruence).
  - rewrite A. exact (@iv_lt_le T cmp a b).
  - rewrite B, (iv_gt_lt HL), (iv_ge_le HL). exact (@iv_lt_le T cmp b a).
Qed.
Print Assumptions c29_exclusive.

(** [==] is an equivalence *)
Theorem c29_eq_equivalence : forall T (cmp : T -> T -> comparison) a b c, ord_laws cmp ->
  iv_eq cmp a a = true /\ (iv_eq cmp a b = true -> iv_eq cmp b a = true) /\
  (iv_eq cmp a b = true -> iv_eq cmp b c = true -> iv_eq cmp a c = true) /\
  (iv_eq cmp a b = true <-> same cmp (iv_into_tuple a) (iv_into_tuple b)).
Proof.
  intros T cmp a b c HL. split; [apply (iv_eq_refl HL)|]. split; [apply (iv_eq_sym HL)|].
  split; [apply (iv_eq_trans HL)|apply iv_eq_same].
Qed.
Print Assumptions c29_eq_equivalence.

(** [<=] is neither implied by [==] nor confined to [<] or [==] *)
Theorem c29_le_refuted :
  (exists a b, obtainable Z.compare a /\ obtainable Z.compare b /\ iv_eq Z.compare a b = true /\ iv_le Z.compare a b = false) /\
  (exists a b, obtainable Z.compare a /\ obtainable Z.compare b /\ iv_le Z.compare a b = true /\
     iv_partial_cmp Z.compare a b = None).
Proof.
  split.
  - exists (zt 1 true 3 true), (zt 1 true 3 true). split; [ob|]. split; [ob|]. split; reflexivity.
  - exists (zt 3 true 5 true), (zt 5 true 7 true). split; [ob|]. split; [ob|]. split; reflexivity.
Qed.
Print Assumptions c29_le_refuted.

Example c29_ex : iv_partial_cmp Z.compare (zt 1 true 3 false) (zt 3 true 4 true) = Some Lt /\
  iv_partial_cmp Z.compare (zt 1 true 3 false) (zt 1 true 3 true) = None /\
  iv_partial_cmp Qcompare (qt (1#2) true 3 false) (qt (2#4) true 3 false) = Some Eq /\
  obtainable Z.compare (zt 1 true 3 false) /\ obtainable Z.compare (zt 3 true 4 true).
Proof. do 3 (split; [reflexivity|]). split; ob. Qed.

(** ** C30 *)
Theorem c30_bound_orders : forall T (cmp : T -> T -> comparison), ord_laws cmp ->
  ord_laws (lower_cmp cmp) /\ ord_laws (upper_cmp cmp).
Proof. intros T cmp HL; split; [exact (lower_cmp_laws HL)|exact (upper_cmp_laws HL)]. Qed.
Print Assumptions c30_bound_orders.

Theorem c30_bound_operators_agree : forall T (cmp : T -> T -> comparison) (l m : lower T) (u v : upper T),
  agrees (Some (lower_cmp cmp l m)) (lower_lt cmp l m) (lower_le cmp l m) (lower_gt cmp l m) (lower_ge cmp l m) (lower_eq cmp l m) /\
  lower_partial_cmp cmp l m = Some (lower_cmp cmp l m) /\
  agrees (Some (upper_cmp cmp u v)) (upper_lt cmp u v) (upper_le cmp u v) (upper_gt cmp u v) (upper_ge cmp u v) (upper_eq cmp u v) /\
  upper_partial_cmp cmp u v = Some (upper_cmp cmp u v).
Proof.
  intros T cmp l m u v. unfold agrees, lower_lt, lower_le, lower_gt, lower_ge, upper_lt, upper_le, upper_gt, upper_ge.
  rewrite !lower_pcmp, !upper_pcmp.
  pose proof (lower_eq_cmp cmp l m) as A. pose proof (upper_eq_cmp cmp u v) as B.
  destruct (lower_eq cmp l m), (lower_cmp cmp l m), (upper_eq cmp u v), (upper_cmp cmp u v); repeat split; auto;
  try (destruct A as [A1 A2]; (discriminate (A1 eq_refl) || discriminate (A2 eq_refl)));
  try (destruct B as [B1 B2]; (discriminate (B1 eq_refl) || discriminate (B2 eq_refl))).
Qed.
Print Assumptions c30_bound_operators_agree.

Theorem c30_bounds_admit : forall T (cmp : T -> T -> comparison) (l m : lower T) (u v : upper T), ord_laws cmp ->
  (lower_le cmp l m = true -> forall x, admits_above cmp (lval m) (lclosed m) x -> admits_above cmp (lval l) (lclosed l) x) /\
  (upper_ge cmp u v = true -> forall x, admits_below cmp (uval v) (uclosed v) x -> admits_below cmp (uval u) (uclosed u) x).
Proof.
  intros T cmp l m u v HL. rewrite (lower_le_spec cmp), (upper_ge_spec HL). split; intros H x.
  - exact (@lle_points T cmp HL l m x H).
  - exact (@ule_points T cmp HL v u x H).
Qed.
Print Assumptions c30_bounds_admit.

Theorem c30_bounds_admit_dense : forall T (cmp : T -> T -> comparison) (l m : lower T) (u v : upper T), ord_laws cmp -> dense cmp ->
  ((forall x, admits_above cmp (lval m) (lclosed m) x -> admits_above cmp (lval l) (lclosed l) x) -> lower_le cmp l m = true) /\
  ((forall x, admits_below cmp (uval v) (uclosed v) x -> admits_below cmp (uval u) (uclosed u) x) -> upper_ge cmp u v = true).
Proof.
  intros T cmp l m u v HL HD. rewrite (lower_le_spec cmp), (upper_ge_spec HL). split; intros H.
  - exact (@lle_complete T cmp HL l m HD H).
  - exact (@ule_complete T cmp HL v u HD H).
Qed.
Print Assumptions c30_bounds_admit_dense.

(** min and max pick an operand and order it *)
Theorem c30_min_max : forall T (cmp : T -> T -> comparison) (l m : lower T) (u v : upper T), ord_laws cmp ->
  lower_le cmp (lower_min cmp l m) l = true /\ lower_le cmp (lower_min cmp l m) m = true /\
  lower_ge cmp (lower_max cmp l m) l = true /\ lower_ge cmp (lower_max cmp l m) m = true /\
  (lower_min cmp l m = l /\ lower_max cmp l m = m \/ lower_min cmp l m = m /\ lower_max cmp l m = l) /\
  upper_le cmp (upper_min cmp u v) u = true /\ upper_le cmp (upper_min cmp u v) v = true /\
  upper_ge cmp (upper_max cmp u v) u = true /\ upper_ge cmp (upper_max cmp u v) v = true /\
  (upper_min cmp u v = u /\ upper_max cmp u v = v \/ upper_min cmp u v = v /\ upper_max cmp u v = u).
Proof.
  intros T cmp l m u v HL. pose proof (lower_cmp_laws HL) as LL. pose proof (upper_cmp_laws HL) as UL.
  unfold lower_le, lower_ge, upper_le, upper_ge, lower_min, lower_max, upper_min, upper_max.
  rewrite !lower_pcmp, !upper_pcmp.
  pose proof (ord_opp LL l m) as A. pose proof (ord_opp UL u v) as B.
  destruct (lower_cmp cmp l m) eqn:E1, (upper_cmp cmp u v) eqn:E2; cbn in A, B; rewrite ?A, ?B, ?E1, ?E2, ?(cmp_refl LL), ?(cmp_refl UL); repeat split; auto.
Qed.
Print Assumptions c30_min_max.

Example c30_ex : lower_lt Z.compare (lower_new 2%Z true) (lower_new 2%Z false) = true /\
  upper_lt Z.compare (upper_new 2%Z true) (upper_new 2%Z false) = false /\
  lower_le Qcompare (lower_new (1#2)%Q true) (lower_new (2#4)%Q false) = true /\
  upper_ge Qcompare (upper_new (1#2)%Q true) (upper_new (2#4)%Q false) = true.
Proof. repeat split. Qed.

(** ** C31 *)
Theorem c31_lower_upper_order_refuted :
  (exists l u, lu_lt Z.compare l u = true /\ lu_gt Z.compare l u = true) /\
  (exists l u, lu_ne l u = false /\ lu_eq l u = false /\ lval l <> uval (T := Z) u) /\
  (exists l u, lu_le Z.compare l u = true /\ lu_lt Z.compare l u = false /\ lu_eq l u = false) /\
  (exists l u, ul_lt Z.compare u l = true /\ ul_gt Z.compare u l = true).
Proof.
  split; [|split; [|split]].
  - exists (lower_new 1%Z true), (upper_new 1%Z false). split; reflexivity.
  - exists (lower_new 1%Z true), (upper_new 2%Z true). repeat split. discriminate.
  - exists (lower_new 1%Z true), (upper_new 1%Z true). repeat split.
  - exists (lower_new 1%Z true), (upper_new 1%Z false). split; reflexivity.
Qed.
Print Assumptions c31_lower_upper_order_refuted.

(** what does hold: each operator has its mirror image, the operators agree
    with the element order away from equal values, and [l > u] tells exactly
    when no interval has these bounds *)
Theorem c31_lower_upper_order_partial : forall T (cmp : T -> T -> comparison) (l : lower T) (u : upper T), ord_laws cmp ->
  lu_lt cmp l u = ul_gt cmp u l /\ lu_gt cmp l u = ul_lt cmp u l /\
  lu_le cmp l u = ul_ge cmp u l /\ lu_ge cmp l u = ul_le cmp u l /\
  (lu_le cmp l u = true <-> le cmp (lval l) (uval u)) /\ (lu_ge cmp l u = true <-> le cmp (uval u) (lval l)) /\
  (lt cmp (lval l) (uval u) -> lu_lt cmp l u = true /\ lu_gt cmp l u = false) /\
  (lt cmp (uval u) (lval l) -> lu_lt cmp l u = false /\ lu_gt cmp l u = true) /\
  (lu_gt cmp l u = true <-> iv_from_bounds cmp l u = Panic) /\
  (lu_partial_cmp cmp l u = Some Lt <-> lu_lt cmp l u = true) /\
  (ul_partial_cmp cmp u l = Some Lt <-> ul_lt cmp u l = true).
Proof.
  intros T cmp [[l lc]] [[u uc]] HL.
  unfold lu_partial_cmp, ul_partial_cmp, lu_lt, lu_gt, lu_le, lu_ge, ul_lt, ul_gt, ul_le, ul_ge, vle, vge,
    iv_from_bounds, create_checked, vgt, veq, lt, le; cbn.
  rewrite (ord_opp HL l u). destruct (cmp l u), lc, uc; cbn; repeat split; auto; try discriminate; try congruence.
Qed.
Print Assumptions c31_lower_upper_order_partial.

Example c31_ex : lu_gt Z.compare (lower_new 3%Z true) (upper_new 3%Z false) = true /\
  iv_from_bounds Z.compare (lower_new 3%Z true) (upper_new 3%Z false) = Panic /\
  lu_lt Z.compare (lower_new 2%Z false) (upper_new 3%Z false) = true.
Proof. repeat split. Qed.

(** ** C32 *)
Theorem c32_bound_value_operators : forall T (cmp : T -> T -> comparison) (l : lower T) (u : upper T) v, ord_laws cmp ->
  agrees (lv_partial_cmp cmp l v) (lv_lt cmp l v) (lv_le cmp l v) (lv_gt cmp l v) (lv_ge cmp l v) (lv_eq cmp l v) /\
  agrees (uv_partial_cmp cmp u v) (uv_lt cmp u v) (uv_le cmp u v) (uv_gt cmp u v) (uv_ge cmp u v) (uv_eq cmp u v).
Proof.
  intros T cmp [[l lc]] [[u uc]] v HL.
  unfold agrees, lv_partial_cmp, lv_lt, lv_le, lv_gt, lv_ge, lv_eq, uv_partial_cmp, uv_lt, uv_le, uv_gt, uv_ge, uv_eq,
    vlt, vle, vgt, vge, veq; cbn.
  destruct (cmp l v), (cmp u v), lc, uc; repeat split.
Qed.
Print Assumptions c32_bound_value_operators.

Theorem c32_admits : forall T (cmp : T -> T -> comparison) (l : lower T) (u : upper T) v, ord_laws cmp ->
  (lv_le cmp l v = true <-> admits_above cmp (lval l) (lclosed l) v) /\
  (uv_ge cmp u v = true <-> admits_below cmp (uval u) (uclosed u) v).
Proof. intros T cmp l u v HL; split; [exact (lv_le_above cmp l v)|exact (uv_ge_below HL u v)]. Qed.
Print Assumptions c32_admits.

Example c32_ex : lv_partial_cmp Z.compare (lower_new 3%Z false) 3%Z = Some Gt /\
  uv_partial_cmp Z.compare (upper_new 3%Z false) 3%Z = Some Lt /\
  lv_eq Z.compare (lower_new 3%Z true) 3%Z = true /\ uv_ge Z.compare (upper_new 3%Z true) 3%Z = true.
Proof. repeat split. Qed.

(** ** C33 *)
Theorem c33_interval_value_sound : forall T (cmp : T -> T -> comparison) i v, ord_laws cmp ->
  (ivv_lt cmp i v = true -> forall x, has cmp i x -> lt cmp x v) /\
  (ivv_gt cmp i v = true -> forall x, has cmp i x -> lt cmp v x) /\
  (ivv_le cmp i v = true -> forall x, has cmp i x -> le cmp x v) /\
  (ivv_ge cmp i v = true -> forall x, has cmp i x -> le cmp v x) /\
  (ivv_eq cmp i v = true -> forall x, has cmp i x <-> eqv cmp x v).
Proof.
  intros T cmp i v HL. split; [|split; [|split; [|split]]]; intros H.
  - exact (fun x => @ivv_lt_points T cmp HL i v x H).
  - exact (fun x => @ivv_gt_points T cmp HL i v x H).
  - exact (fun x => @ivv_le_points T cmp HL i v x H).
  - exact (fun x => @ivv_ge_points T cmp HL i v x H).
  - exact (@ivv_eq_points T cmp HL i v H).
Qed.
Print Assumptions c33_interval_value_sound.

Theorem c33_interval_value_complete : forall T (cmp : T -> T -> comparison) i v, ord_laws cmp -> dense cmp ->
  obtainable cmp i ->
  (iv_is_empty i = false -> (forall x, has cmp i x -> lt cmp x v) -> ivv_lt cmp i v = true) /\
  (iv_is_empty i = false -> (forall x, has cmp i x -> lt cmp v x) -> ivv_gt cmp i v = true) /\
  ((forall x, has cmp i x <-> eqv cmp x v) -> ivv_eq cmp i v = true).
Proof.
  intros T cmp i v HL HD Ho. pose proof (obtainable_wf HL Ho) as W. split; [|split].
  - exact (@ivv_lt_complete T cmp HL i v HD W).
  - exact (@ivv_gt_complete T cmp HL i v HD W).
  - exact (@ivv_eq_complete T cmp HL i v HD W).
Qed.
Print Assumptions c33_interval_value_complete.

(** [==] on values tells the single closed point, over any order *)
Theorem c33_eq_is_single : forall T (cmp : T -> T -> comparison) i v,
  ivv_eq cmp i v = true <-> same cmp (iv_into_tuple i) (Some (v, true, v, true)).
Proof. exact (fun T cmp i v => @ivv_eq_spec T cmp i v). Qed.
Print Assumptions c33_eq_is_single.

Theorem c33_partial_cmp : forall T (cmp : T -> T -> comparison) i v, ord_laws cmp -> obtainable cmp i ->
  (ivv_partial_cmp cmp i v = Some Lt <-> ivv_lt cmp i v = true) /\
  (ivv_partial_cmp cmp i v = Some Gt <-> ivv_gt cmp i v = true) /\
  (ivv_partial_cmp cmp i v = Some Eq <-> ivv_eq cmp i v = true).
Proof. exact (fun T cmp i v HL Ho => @ivv_pcmp T cmp HL i v (obtainable_wf HL Ho)). Qed.
Print Assumptions c33_partial_cmp.

Example c33_ex : ivv_lt Z.compare (zt 1 true 3 false) 3%Z = true /\ ivv_lt Z.compare (zt 1 true 3 true) 3%Z = false /\
  ivv_le Z.compare (zt 1 true 3 true) 3%Z = true /\
  ivv_eq Z.compare (iv_single 3%Z) 3%Z = true /\ ivv_partial_cmp Z.compare (zt 1 true 3 true) 2%Z = None /\
  obtainable Z.compare (zt 1 true 3 false).
Proof. do 5 (split; [reflexivity|]). ob. Qed.

(** ** C40 *)
Theorem c40_intersection_laws : forall T (cmp : T -> T -> comparison) a b c, ord_laws cmp ->
  obtainable cmp a -> obtainable cmp b -> obtainable cmp c ->
  (forall r r', iv_intersection cmp a b = Ret r -> iv_intersection cmp b a = Ret r' -> iv_eq cmp r r' = true) /\
  (forall r, iv_intersection cmp a a = Ret r -> iv_eq cmp r a = true) /\
  (forall ab bc r r', iv_intersection cmp a b = Ret ab -> iv_intersection cmp ab c = Ret r ->
    iv_intersection cmp b c = Ret bc -> iv_intersection cmp a bc = Ret r' -> iv_eq cmp r r' = true).
Proof.
  intros T cmp a b c HL Ha Hb Hc.
  pose proof (obtainable_wf HL Ha) as Wa. pose proof (obtainable_wf HL Hb) as Wb. pose proof (obtainable_wf HL Hc) as Wc.
  split; [|split]; intros.
  - exact (@inter_comm T cmp HL a b r r' Wa Wb H H0).
  - exact (@inter_idem T cmp HL a r Wa H).
  - exact (@inter_assoc T cmp HL a b c ab bc r r' Wa Wb Wc H H0 H1 H2).
Qed.
Print Assumptions c40_intersection_laws.

Theorem c40_span_laws : forall T (cmp : T -> T -> comparison) a b c, ord_laws cmp ->
  obtainable cmp a -> obtainable cmp b -> obtainable cmp c ->
  (forall r r', iv_span cmp a b = Ret r -> iv_span cmp b a = Ret r' -> iv_eq cmp r r' = true) /\
  (forall r, iv_span cmp a a = Ret r -> iv_eq cmp r a = true) /\
  (forall ab bc r r', iv_span cmp a b = Ret ab -> iv_span cmp ab c = Ret r ->
    iv_span cmp b c = Ret bc -> iv_span cmp a bc = Ret r' -> iv_eq cmp r r' = true).
Proof.
  intros T cmp a b c HL Ha Hb Hc.
  pose proof (obtainable_wf HL Ha) as Wa. pose proof (obtainable_wf HL Hb) as Wb. pose proof (obtainable_wf HL Hc) as Wc.
  split; [|split]; intros.
  - exact (@span_comm T cmp HL a b r r' H H0).
  - exact (@span_idem T cmp HL a r H).
  - exact (@span_assoc T cmp HL a b c ab bc r r' Wa Wb Wc H H0 H1 H2).
Qed.
Print Assumptions c40_span_laws.

Theorem c40_absorption : forall T (cmp : T -> T -> comparison) a b s r, ord_laws cmp ->
  obtainable cmp a -> obtainable cmp b ->
  (iv_span cmp a b = Ret s -> iv_intersection cmp a s = Ret r -> iv_eq cmp r a = true) /\
  (iv_intersection cmp a b = Ret s -> iv_span cmp a s = Ret r -> iv_eq cmp r a = true).
Proof.
  intros T cmp a b s r HL Ha Hb. pose proof (obtainable_wf HL Ha) as Wa. pose proof (obtainable_wf HL Hb) as Wb.
  split; [exact (@absorb_inter_span T cmp HL a b s r Wa Wb)|exact (@absorb_span_inter T cmp HL a b s r Wa Wb)].
Qed.
Print Assumptions c40_absorption.

Theorem c40_merge_agrees_with_span : forall T (cmp : T -> T -> comparison) a b r, ord_laws cmp ->
  obtainable cmp a -> obtainable cmp b -> iv_merge cmp a b = (r, inl tt) ->
  exists s, iv_span cmp a b = Ret s /\ iv_eq cmp r s = true.
Proof.
  intros T cmp a b r HL Ha Hb H. destruct (iv_can_be_merged cmp a b) eqn:E.
  - destruct (merge_spec HL _ _ (obtainable_wf HL Ha) (obtainable_wf HL Hb) E) as (r0 & r' & H1 & _ & _ & _ & _ & _ & S).
    rewrite H in H1; injection H1 as <-; exact S.
  - destruct (merge_refused _ _ _ E) as [K _]. rewrite H in K; discriminate.
Qed.
Print Assumptions c40_merge_agrees_with_span.

(** merge is commutative *)
Theorem c40_merge_commutes : forall T (cmp : T -> T -> comparison) a b, ord_laws cmp ->
  obtainable cmp a -> obtainable cmp b ->
  iv_can_be_merged cmp a b = iv_can_be_merged cmp b a /\
  forall r r', iv_merge cmp a b = (r, inl tt) -> iv_merge cmp b a = (r', inl tt) -> iv_eq cmp r r' = true.
Proof.
  intros T cmp a b HL Ha Hb. split.
  - destruct a as [[[l1 u1]|]], b as [[[l2 u2]|]]; try reflexivity. rewrite !merge_sep. f_equal. apply orb_comm.
  - intros r r' H H'.
    destruct (@c40_merge_agrees_with_span T cmp a b r HL Ha Hb H) as (s & S1 & S2).
    destruct (@c40_merge_agrees_with_span T cmp b a r' HL Hb Ha H') as (s' & S1' & S2').
    eapply (iv_eq_trans HL); [exact S2|]. apply (iv_eq_sym HL). eapply (iv_eq_trans HL); [exact S2'|].
    eapply (span_comm HL); eauto.
Qed.
Print Assumptions c40_merge_commutes.

Example c40_ex :
  obtainable Qcompare (qt 1 true 4 false) /\ obtainable Qcompare (qt 2 false 6 true) /\ obtainable Qcompare (qt (3#1) true 5 true) /\
  iv_intersection Qcompare (qt 1 true 4 false) (qt 2 false 6 true) = Ret (qt 2 false 4 false) /\
  iv_intersection Qcompare (qt 2 false 4 false) (qt 3 true 5 true) = Ret (qt 3 true 4 false) /\
  iv_span Qcompare (qt 1 true 4 false) (qt 2 false 6 true) = Ret (qt 1 true 6 true) /\
  iv_merge Qcompare (qt 1 true 4 false) (qt 2 false 6 true) = (qt 1 true 6 true, inl tt).
Proof. split; [ob|]. split; [ob|]. split; [ob|]. repeat split. Qed.

(** ** C60: bounds that are separated *)
Theorem c60_gap_separates : forall T (cmp : T -> T -> comparison) (l : lower T) (u : upper T) x, ord_laws cmp ->
  ~ admits_above cmp (lval l) (lclosed l) x -> ~ admits_below cmp (uval u) (uclosed u) x ->
  lower_is_separated_from cmp l u = true /\ upper_is_separated_from cmp u l = true.
Proof.
  intros T cmp l u x HL A B.
  assert (are_separated cmp l u = true) by (apply (separated_spec HL l u); exists x; auto). auto.
Qed.
Print Assumptions c60_gap_separates.
Theorem c60_separated_gap : forall T (cmp : T -> T -> comparison) (l : lower T) (u : upper T), ord_laws cmp -> dense cmp ->
  lower_is_separated_from cmp l u = true ->
  exists x, ~ admits_above cmp (lval l) (lclosed l) x /\ ~ admits_below cmp (uval u) (uclosed u) x.
Proof. exact (fun T cmp l u HL HD => @separated_gap T cmp HL l u HD). Qed.
Print Assumptions c60_separated_gap.
Theorem c60_symmetric : forall T (cmp : T -> T -> comparison) (l : lower T) (u : upper T),
  lower_is_separated_from cmp l u = upper_is_separated_from cmp u l.
Proof. reflexivity. Qed.
Print Assumptions c60_symmetric.
Example c60_ex : lower_is_separated_from Qcompare (lower_new 2 false) (upper_new 2 false) = true /\
  lower_is_separated_from Qcompare (lower_new 2 true) (upper_new 2 false) = false /\
  ~ admits_above Qcompare 2 false 2 /\ ~ admits_below Qcompare 2 false 2.
Proof. split; [reflexivity|]. split; [reflexivity|]. split; discriminate. Qed.

(** ** C61: equal intervals hash equally *)
Theorem c61_hash_respects_eq : forall T (cmp : T -> T -> comparison) (hv : T -> list nat) a b,
  (forall x y, eqv cmp x y -> hv x = hv y) -> iv_eq cmp a b = true -> iv_hash hv a = iv_hash hv b.
Proof. exact (fun T cmp hv a b => @hash_eq T cmp hv a b). Qed.
Print Assumptions c61_hash_respects_eq.
(** intervals of different shape or closedness feed different data *)
Theorem c61_hash_separates : forall T (cmp : T -> T -> comparison) (hv : T -> list nat) n a b,
  (forall x, length (hv x) = n) -> (forall x y, hv x = hv y -> eqv cmp x y) ->
  iv_hash hv a = iv_hash hv b -> iv_eq cmp a b = true.
Proof.
  intros T cmp hv n a b Hn Hv E. apply iv_eq_same.
  destruct (ivt_eta a) as [->|(l & lc & u & uc & ->)], (ivt_eta b) as [->|(l' & lc' & u' & uc' & ->)]; try discriminate; [exact I|].
  unfold iv_hash in E; cbn in E. injection E as E.
  assert (K : forall A (p q r s : list A), length p = length q -> p ++ r = q ++ s -> p = q /\ r = s).
  { induction p as [|x p IH]; intros [|y q] r s; cbn; try discriminate; auto. intros L K. injection K as -> K.
    destruct (IH q r s) as [-> ->]; auto. }
  apply K in E; [|now rewrite !Hn]. destruct E as [E1 E]. injection E as E2 E. apply K in E; [|now rewrite !Hn].
  destruct E as [E3 E4]. injection E4 as E4. cbn. repeat split; auto.
  - destruct lc, lc'; auto; discriminate.
  - destruct uc, uc'; auto; discriminate.
Qed.
Print Assumptions c61_hash_separates.
(** an interval feeds what the tuple it converts into feeds, as an option of a
    tuple of two elements and two booleans: 0, or 1 and the four parts in order *)
Definition fed_bool (b : bool) : list nat := if b then [1]%nat else [0]%nat.
Theorem c61_hashes_as_its_tuple : forall T (hv : T -> list nat) (i : interval T),
  iv_hash hv i = match iv_into_tuple i with
                 | None => [0]%nat
                 | Some (l, lc, u, uc) => concat [[1]%nat; hv l; fed_bool lc; hv u; fed_bool uc]
                 end.
Proof.
  intros T hv i. destruct (ivt_eta i) as [->|(l & lc & u & uc & ->)]; [reflexivity|].
  unfold iv_hash. destruct lc, uc; reflexivity.
Qed.
Print Assumptions c61_hashes_as_its_tuple.
Example c61_ex : iv_hash (fun z => [Z.to_nat z]) (zt 1 true 3 false) = [1; 1; 1; 3; 0]%nat /\
  iv_hash (fun z => [Z.to_nat z]) zempty = [0]%nat.
Proof. split; reflexivity. Qed.

(** ** C62: accessors *)
Theorem c62_accessors : forall T (i : interval T),
  match iv_into_tuple i with
  | Some (l, lc, u, uc) =>
      iv_is_empty i = false /\ iv_lower i = Some (lower_new l lc) /\ iv_upper i = Some (upper_new u uc) /\
      iv_bounds i = Some (lower_new l lc, upper_new u uc) /\ iv_into_bounds i = Some (lower_new l lc, upper_new u uc) /\
      iv_is_lower_closed i = Some lc /\ iv_is_upper_closed i = Some uc
  | None =>
      iv_is_empty i = true /\ iv_lower i = None /\ iv_upper i = None /\ iv_bounds i = None /\ iv_into_bounds i = None /\
      iv_is_lower_closed i = None /\ iv_is_upper_closed i = None
  end.
Proof. intros T i. destruct (ivt_eta i) as [->|(l & lc & u & uc & ->)]; cbn; repeat split. Qed.
Print Assumptions c62_accessors.
Theorem c62_is_single : forall T (cmp : T -> T -> comparison) i, ord_laws cmp -> obtainable cmp i ->
  (iv_is_single cmp i = true -> exists v, forall x, has cmp i x <-> eqv cmp x v) /\
  (dense cmp -> (exists v, forall x, has cmp i x <-> eqv cmp x v) -> iv_is_single cmp i = true).
Proof.
  intros T cmp i HL Ho. pose proof (obtainable_wf HL Ho) as W. split.
  - exact (@is_single_points T cmp HL i W).
  - exact (fun HD => @is_single_complete T cmp HL i HD W).
Qed.
Print Assumptions c62_is_single.
(** [is_empty] decides emptiness over a dense order *)
Theorem c62_is_empty : forall T (cmp : T -> T -> comparison) i, ord_laws cmp -> obtainable cmp i ->
  (iv_is_empty i = true -> forall x, ~ has cmp i x) /\
  (dense cmp -> (forall x, ~ has cmp i x) -> iv_is_empty i = true).
Proof.
  intros T cmp i HL Ho. pose proof (obtainable_wf HL Ho) as W. split.
  - destruct i as [[[l u]|]]; [discriminate|]. intros _ x [].
  - intros HD H. destruct i as [[[l u]|]]; auto. exfalso.
    destruct (ok_inhabited HL HD (wf_ok1 W)) as (x & X). apply (H x). apply mem_bounds; auto.
Qed.
Print Assumptions c62_is_empty.
(** over the integers (1,2) is not reported as empty though it has no point *)
Example c62_ex : iv_is_empty (zt 1 false 2 false) = false /\ iv_is_single Z.compare (zt 2 true 2 true) = true /\
  iv_is_single Qcompare (qt (1#2) true (2#4) true) = true /\ iv_lower (zt 1 false 2 true) = Some (lower_new 1%Z false) /\
  obtainable Qcompare (qt (1#2) true (2#4) true).
Proof. do 4 (split; [reflexivity|]). ob. Qed.
