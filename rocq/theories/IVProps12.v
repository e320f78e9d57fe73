(** Property theorems C114 and C115: interval arithmetic and the other operations of
    intervals, and the laws of interval arithmetic. *)
From Coq Require Import ZArith QArith Lia Lqa List.
From Verif Require Import Base IVModel IVSpec IVSpec2 IVRun IVProofs IVProofs2 IVProofs3 IVProofs4 IVProofs9 IVProps1 IVProps2.
Import ListNotations.
Local Open Scope Z_scope.

(** ** Lemmas *)
Section Carry.
Variable T : Type.
Variable cmp : T -> T -> comparison.
Hypothesis HL : ord_laws cmp.
Variable f : T -> outcome T.
Implicit Types a b i j m : interval T.

Definition Ru (x p : T) := f x = Ret p.
Definition Rd (x p : T) := exists y y', cmp x y = Eq /\ f y = Ret y' /\ cmp y' p = Eq.
Definition Rf (x p : T) := x = p /\ exists y, f x = Ret y.

Lemma Ru_K : keeps_order cmp f -> forall x y p q, Ru x p -> Ru y q -> cmp p q = cmp x y.
Proof. intros K x y p q X Y. exact (K x y p q X Y). Qed.
Lemma ceq_r x y z : cmp y z = Eq -> cmp x y = cmp x z.
Proof. intros H. rewrite (ord_opp HL y x), (ord_opp HL z x), (ord_eq HL y z x H). reflexivity. Qed.
Lemma Rd_K : turns_order cmp f -> forall x y p q, Rd x p -> Rd y q -> cmp p q = cmp y x.
Proof.
  intros K x y p q (x1 & x2 & A & B & C) (y1 & y2 & D & E & F).
  rewrite <- (ord_eq HL x2 p q C), <- (ceq_r x2 y2 q F), (K _ _ _ _ B E), <- (ceq_r y1 x x1 A), <- (ord_eq HL y y1 x D). reflexivity.
Qed.
Lemma Rd_E x y p : cmp x y = Eq -> Rd x p -> Rd y p.
Proof.
  intros H (x1 & x2 & A & B & C). exists x1, x2. repeat split; auto.
  rewrite <- (ord_eq HL x y x1 H). exact A.
Qed.
Lemma Rd_f x p : f x = Ret p -> Rd x p.
Proof. intros H. exists x, p. repeat split; auto; apply (cmp_refl HL). Qed.
Lemma Rf_K x y p q : Rf x p -> Rf y q -> cmp p q = cmp x y.
Proof. intros [-> _] [-> _]. reflexivity. Qed.

Lemma map_img i i' : keeps_order cmp f -> wf cmp i -> iv_map cmp f i = Ret i' -> img Ru i i'.
Proof.
  intros K W H. destruct (ivt_eta i) as [->|(l & lc & u & uc & ->)]; [injection H as <-; exact I|].
  rewrite iv_map_ivt in H. destruct (f u) as [u'| | | |] eqn:U; try discriminate. destruct (f l) as [l'| | | |] eqn:L; try discriminate.
  cbn [obind] in H. injection H as <-. pose proof (K _ _ _ _ L U) as E.
  unfold fix_after_modification, ivt, vgt, veq. cbn. rewrite E.
  destruct W as [W|(W & W1 & W2)]; unfold lt, eqv in W; cbn in W |- *; rewrite W; cbn; rewrite E, W; [repeat split; auto|].
  cbn in W1, W2. subst. repeat split; auto.
Qed.
Lemma img_map m m' : keeps_order cmp f -> wf cmp m -> img Ru m m' -> iv_map cmp f m = Ret m'.
Proof.
  intros K W H. destruct (ivt_eta m) as [->|(l & lc & u & uc & ->)], (ivt_eta m') as [->|(l' & lc' & u' & uc' & ->)]; try contradiction; auto.
  destruct H as [[L L2] [U U2]]. cbn in L, L2, U, U2. subst. rewrite iv_map_ivt, U, L. cbn [obind]. pose proof (K _ _ _ _ L U) as E.
  unfold fix_after_modification, ivt, vgt, veq. cbn. rewrite E.
  destruct W as [W|(W & W1 & W2)]; unfold lt, eqv in W; cbn in W |- *; rewrite W; cbn; rewrite E, W; [reflexivity|].
  cbn in W1, W2. subst. reflexivity.
Qed.
Lemma map_defined i i' : iv_map cmp f i = Ret i' -> img Rf i i.
Proof.
  intros H. destruct (ivt_eta i) as [->|(l & lc & u & uc & ->)]; [exact I|].
  rewrite iv_map_ivt in H. destruct (f u) as [u'| | | |] eqn:U; try discriminate. destruct (f l) as [l'| | | |] eqn:L; try discriminate.
  repeat split; eauto.
Qed.
Lemma map_dimg i i' : turns_order cmp f -> wf cmp i -> iv_map cmp f i = Ret i' -> dimg Rd i i'.
Proof.
  intros K W H. destruct (ivt_eta i) as [->|(l & lc & u & uc & ->)]; [injection H as <-; exact I|].
  rewrite iv_map_ivt in H. destruct (f u) as [u'| | | |] eqn:U; try discriminate. destruct (f l) as [l'| | | |] eqn:L; try discriminate.
  cbn [obind] in H. injection H as <-. pose proof (K _ _ _ _ L U) as E. pose proof (K _ _ _ _ U L) as E'. rewrite (ord_opp HL l u) in E.
  unfold fix_after_modification, ivt, vgt, veq. cbn. rewrite E.
  destruct W as [W|(W & W1 & W2)]; unfold lt, eqv in W; cbn in W |- *; rewrite W; cbn.
  - rewrite E', W. cbn. repeat split; auto using Rd_f.
  - cbn in W1, W2. subst. rewrite E, W. cbn. repeat split; cbn.
    + apply Rd_E with l; auto using Rd_f.
    + apply Rd_E with u; auto using Rd_f. rewrite (ord_opp HL l u), W. reflexivity.
Qed.
Lemma dimg_map m m'' : turns_order cmp f -> wf cmp m -> img Rf m m -> dimg Rd m m'' ->
  exists m', iv_map cmp f m = Ret m' /\ iv_eq cmp m'' m' = true.
Proof.
  intros K W D H. destruct (ivt_eta m) as [->|(l & lc & u & uc & ->)].
  { exists (Interval None). split; auto. destruct m'' as [[?|]]; [contradiction|reflexivity]. }
  destruct D as [[[_ [l' L]] _] [[_ [u' U]] _]]. cbn in L, U.
  assert (M : iv_map cmp f (ivt l lc u uc) = Ret (fix_after_modification cmp (ivt l' lc u' uc))).
  { rewrite iv_map_ivt, U, L. reflexivity. }
  eexists. split; [exact M|]. apply (map_dimg _ _ K W) in M.
  destruct m'' as [[[x y]|]], (fix_after_modification cmp (ivt l' lc u' uc)) as [[[x' y']|]]; try contradiction.
  destruct H as [[H1 H2] [H3 H4]], M as [[M1 M2] [M3 M4]]. cbn in *.
  unfold iv_eq, lower_eq, upper_eq, veq. cbn. rewrite H2, M2, H4, M4.
  rewrite (Rd_K K _ _ _ _ H1 M1), (Rd_K K _ _ _ _ H3 M3), !(cmp_refl HL), !Bool.eqb_reflx. reflexivity.
Qed.
Lemma neg_dimg i i' : turns_order cmp f -> wf cmp i -> iv_neg cmp f i = Ret i' -> dimg Rd i i'.
Proof.
  intros K W H. destruct (ivt_eta i) as [->|(l & lc & u & uc & ->)]; [injection H as <-; exact I|].
  rewrite iv_neg_ivt in H. destruct (f u) as [u'| | | |] eqn:U; try discriminate. destruct (f l) as [l'| | | |] eqn:L; try discriminate.
  cbn [obind] in H. injection H as <-. pose proof (K _ _ _ _ U L) as E'.
  unfold fix_after_modification, ivt, vgt, veq. cbn. rewrite E'.
  destruct W as [W|(W & W1 & W2)]; unfold lt, eqv in W; cbn in W |- *; rewrite W; cbn; rewrite E', W; cbn.
  - repeat split; auto using Rd_f.
  - cbn in W1, W2. subst. cbn. repeat split; cbn; auto using Rd_f.
Qed.
Lemma neg_defined i i' : iv_neg cmp f i = Ret i' -> img Rf i i.
Proof.
  intros H. destruct (ivt_eta i) as [->|(l & lc & u & uc & ->)]; [exact I|].
  rewrite iv_neg_ivt in H. destruct (f u) as [u'| | | |] eqn:U; try discriminate. destruct (f l) as [l'| | | |] eqn:L; try discriminate.
  repeat split; eauto.
Qed.
Lemma dimg_neg m m'' : turns_order cmp f -> wf cmp m -> img Rf m m -> dimg Rd m m'' ->
  exists m', iv_neg cmp f m = Ret m' /\ iv_eq cmp m'' m' = true.
Proof.
  intros K W D H. destruct (ivt_eta m) as [->|(l & lc & u & uc & ->)].
  { exists (Interval None). split; auto. destruct m'' as [[?|]]; [contradiction|reflexivity]. }
  destruct D as [[[_ [l' L]] _] [[_ [u' U]] _]]. cbn in L, U.
  assert (M : iv_neg cmp f (ivt l lc u uc) = Ret (fix_after_modification cmp (ivt u' uc l' lc))).
  { rewrite iv_neg_ivt, U, L. reflexivity. }
  eexists. split; [exact M|]. apply (neg_dimg _ _ K W) in M.
  destruct m'' as [[[x y]|]], (fix_after_modification cmp (ivt u' uc l' lc)) as [[[x' y']|]]; try contradiction.
  destruct H as [[H1 H2] [H3 H4]], M as [[M1 M2] [M3 M4]]. cbn in *.
  unfold iv_eq, lower_eq, upper_eq, veq. cbn. rewrite H2, M2, H4, M4.
  rewrite (Rd_K K _ _ _ _ H1 M1), (Rd_K K _ _ _ _ H3 M3), !(cmp_refl HL), !Bool.eqb_reflx. reflexivity.
Qed.
End Carry.

(** [i op k] for the four operators *)
Definition four {T U} (cmp : T -> T -> comparison) (op : T -> U -> outcome T) : list (interval T -> U -> outcome (interval T)) :=
  [iv_add cmp op; iv_sub cmp op; iv_mul cmp op; iv_div cmp op].
Lemma four_map : forall T U (cmp : T -> T -> comparison) (op : T -> U -> outcome T) F, In F (four cmp op) ->
  forall i k, F i k = iv_map cmp (fun x => op x k) i.
Proof.
  intros T U cmp op F H i k. cbn in H. destruct H as [<-|[<-|[<-|[<-|[]]]]];
    [apply iv_add_map|apply iv_sub_map|apply iv_mul_map|apply iv_div_map].
Qed.

(** the answers to all questions about two intervals *)
Definition answers {T} (cmp : T -> T -> comparison) (a b : interval T) :=
  ([iv_lt cmp a b; iv_le cmp a b; iv_gt cmp a b; iv_ge cmp a b; iv_eq cmp a b;
    iv_contains_interval cmp a b; iv_can_be_merged cmp a b; iv_intersects cmp a b], iv_partial_cmp cmp a b).
(** ... and about an interval and a value *)
Definition answers_v {T} (cmp : T -> T -> comparison) (a : interval T) (x : T) :=
  ([iv_contains_val cmp a x; ivv_lt cmp a x; ivv_le cmp a x; ivv_gt cmp a x; ivv_ge cmp a x; ivv_eq cmp a x], ivv_partial_cmp cmp a x).

(** ** C114 *)

(** An operator that keeps the order of the elements changes no answer, and it does
    not matter whether it is applied before or after an intersection, a span or a
    merge. *)
Theorem c114_operators_keeping_the_order : forall T U (cmp : T -> T -> comparison) (op : T -> U -> outcome T) F k a b a' b',
  ord_laws cmp -> keeps_order cmp (fun x => op x k) -> In F (four cmp op) ->
  obtainable cmp a -> obtainable cmp b -> F a k = Ret a' -> F b k = Ret b' ->
  answers cmp a' b' = answers cmp a b /\
  (forall x x', op x k = Ret x' -> answers_v cmp a' x' = answers_v cmp a x) /\
  (forall G, In G [iv_intersection cmp; iv_into_intersection cmp; iv_span cmp; iv_into_span cmp] ->
   exists m m', G a b = Ret m /\ F m k = Ret m' /\ G a' b' = Ret m') /\
  (iv_can_be_merged cmp a b = true ->
   exists m m', iv_merge cmp a b = (m, inl tt) /\ F m k = Ret m' /\ iv_merge cmp a' b' = (m', inl tt)) /\
  (iv_can_be_merged cmp a b = true ->
   exists m m', iv_into_merged cmp a b = Ret (inl m) /\ F m k = Ret m' /\ iv_into_merged cmp a' b' = Ret (inl m')).
Proof.
  intros T U cmp op F k a b a' b' HL K HF Oa Ob Ha Hb. rewrite (four_map _ _ _ _ _ HF) in Ha, Hb.
  pose proof (obtainable_wf HL Oa) as Wa. pose proof (obtainable_wf HL Ob) as Wb.
  pose proof (map_img _ _ _ _ _ K Wa Ha) as A. pose proof (map_img _ _ _ _ _ K Wb Hb) as B.
  pose proof (@Ru_K _ _ _ K) as KK.
  split; [|split; [|split; [|split]]].
  - unfold answers. now rewrite (@up_lt T cmp _ KK a b a' b' A B), (@up_le T cmp _ KK a b a' b' A B), (@up_gt T cmp _ KK a b a' b' A B), (@up_ge T cmp _ KK a b a' b' A B), (@up_eq T cmp _ KK a b a' b' A B), (@up_ci T cmp _ KK a b a' b' A B), (@up_cm T cmp _ KK a b a' b' A B), (@up_is T cmp _ KK a b a' b' A B), (@up_pc T cmp _ KK a b a' b' A B).
  - intros x x' Hx. destruct (@up_val T cmp _ KK a a' A x x' Hx) as (E1 & E2 & E3 & E4 & E5 & E6 & E7).
    unfold answers_v. now rewrite E1, E2, E3, E4, E5, E6, E7.
  - destruct (intersection_spec HL _ _ Wa Wb) as (r & r' & R1 & R2 & _ & R3 & R4 & _).
    destruct (span_spec HL _ _ Wa Wb) as (s & s' & S1 & S2 & _ & S3 & S4 & _).
    intros G [<-|[<-|[<-|[<-|[]]]]]; setoid_rewrite (four_map _ _ _ _ _ HF).
    + pose proof (@up_intersection T cmp _ KK a b a' b' A B) as X. rewrite R1 in *. destruct (iv_intersection cmp a' b') as [m'| | | |]; try contradiction.
      exists r, m'. repeat split; auto using img_map.
    + pose proof (@up_into_intersection T cmp _ KK a b a' b' A B) as X. rewrite R2 in *. destruct (iv_into_intersection cmp a' b') as [m'| | | |]; try contradiction.
      exists r', m'. repeat split; auto using img_map.
    + pose proof (@up_span T cmp _ KK a b a' b' A B) as X. rewrite S1 in *. destruct (iv_span cmp a' b') as [m'| | | |]; try contradiction.
      exists s, m'. repeat split; auto using img_map.
    + pose proof (@up_into_span T cmp _ KK a b a' b' A B) as X. rewrite S2 in *. destruct (iv_into_span cmp a' b') as [m'| | | |]; try contradiction.
      exists s', m'. repeat split; auto using img_map.
  - intros M. destruct (merge_spec HL _ _ Wa Wb M) as (r & r' & R1 & _ & _ & R3 & _). setoid_rewrite (four_map _ _ _ _ _ HF).
    destruct (@up_merge T cmp _ KK a b a' b' A B) as [X1 X2]. rewrite R1 in X1, X2. destruct (iv_merge cmp a' b') as [m' [[]|]]; [|contradiction].
    exists r, m'. repeat split; auto using img_map.
  - intros M. destruct (merge_spec HL _ _ Wa Wb M) as (r & r' & _ & R1 & _ & _ & R3 & _). setoid_rewrite (four_map _ _ _ _ _ HF).
    pose proof (@up_into_merged T cmp _ KK a b a' b' A B) as X. rewrite R1 in X. destruct (iv_into_merged cmp a' b') as [[m'|]| | | |]; try contradiction.
    exists r', m'. repeat split; auto using img_map.
Qed.
Print Assumptions c114_operators_keeping_the_order.

(** the answers with left and right exchanged *)
Definition answers_turned {T} (cmp : T -> T -> comparison) (a b : interval T) :=
  ([iv_gt cmp a b; iv_ge cmp a b; iv_lt cmp a b; iv_le cmp a b; iv_eq cmp a b;
    iv_contains_interval cmp a b; iv_can_be_merged cmp a b; iv_intersects cmp a b], option_map CompOpp (iv_partial_cmp cmp a b)).
(** ... and those about a value *)
Definition answers_v_turned {T} (cmp : T -> T -> comparison) (a : interval T) (x : T) :=
  ([iv_contains_val cmp a x; ivv_gt cmp a x; ivv_ge cmp a x; ivv_lt cmp a x; ivv_le cmp a x; ivv_eq cmp a x],
   option_map CompOpp (ivv_partial_cmp cmp a x)).

Lemma value_one_side : forall T (cmp : T -> T -> comparison) a x, ord_laws cmp -> wf cmp a ->
  ivv_lt cmp a x = true -> ivv_gt cmp a x = true -> False.
Proof.
  intros T cmp a x HL W L G. destruct (ivt_eta a) as [->|(l & lc & u & uc & ->)]; [discriminate|].
  unfold ivv_lt, ivv_gt, iv_upper, iv_lower, uv_lt, lv_gt, vlt, vgt, veq in L, G. cbn in L, G.
  assert (X1 : cmp u x <> Gt) by (intros E; rewrite E in L; discriminate).
  assert (X2 : cmp x l <> Gt) by (rewrite (ord_opp HL l x); intros E; destruct (cmp l x); discriminate).
  pose proof (@le_trans _ _ HL) as LT. unfold le in LT.
  pose proof (LT _ _ _ X1 X2) as X3.
  destruct W as [W|(W & W1 & W2)]; unfold lt, eqv in W; cbn in W.
  - rewrite (ord_opp HL l u), W in X3. now apply X3.
  - cbn in W1, W2. subst. rewrite (ord_eq HL l u x W) in G. destruct (cmp u x); discriminate.
Qed.

Section Turned.
Variable T : Type.
Variable cmp : T -> T -> comparison.
Hypothesis HL : ord_laws cmp.
Variable f : T -> outcome T.
Hypothesis K : turns_order cmp f.
Variable F : interval T -> outcome (interval T).
Hypothesis F_def : forall i i', F i = Ret i' -> img (Rf T f) i i.
Hypothesis F_dimg : forall i i', wf cmp i -> F i = Ret i' -> dimg (Rd T cmp f) i i'.
Hypothesis dimg_F : forall m m'', wf cmp m -> img (Rf T f) m m -> dimg (Rd T cmp f) m m'' -> exists m', F m = Ret m' /\ iv_eq cmp m'' m' = true.

Lemma turned_all a b a' b' : obtainable cmp a -> obtainable cmp b -> F a = Ret a' -> F b = Ret b' ->
  answers cmp a' b' = answers_turned cmp a b /\
  (forall x x', f x = Ret x' -> answers_v cmp a' x' = answers_v_turned cmp a x) /\
  (forall G, In G [iv_intersection cmp; iv_into_intersection cmp; iv_span cmp; iv_into_span cmp] ->
   exists m m' m'', G a b = Ret m /\ F m = Ret m' /\ G a' b' = Ret m'' /\ iv_eq cmp m'' m' = true) /\
  (iv_can_be_merged cmp a b = true ->
   exists m m' m'', iv_merge cmp a b = (m, inl tt) /\ F m = Ret m' /\ iv_merge cmp a' b' = (m'', inl tt) /\ iv_eq cmp m'' m' = true) /\
  (iv_can_be_merged cmp a b = true ->
   exists m m' m'', iv_into_merged cmp a b = Ret (inl m) /\ F m = Ret m' /\ iv_into_merged cmp a' b' = Ret (inl m'') /\ iv_eq cmp m'' m' = true).
Proof.
  intros Oa Ob Ha Hb.
  pose proof (obtainable_wf HL Oa) as Wa. pose proof (obtainable_wf HL Ob) as Wb.
  pose proof (F_dimg _ _ Wa Ha) as A. pose proof (F_dimg _ _ Wb Hb) as B.
  pose proof (F_def _ _ Ha) as A0. pose proof (F_def _ _ Hb) as B0.
  pose proof (@Rd_K _ _ HL _ K) as KK. pose proof (@Rd_E _ _ HL f) as RE. pose proof (@Rf_K _ cmp f) as KF.
  split; [|split; [|split; [|split]]].
  - unfold answers, answers_turned.
    now rewrite (@dn_lt T cmp HL _ KK a b a' b' A B), (@dn_le T cmp HL _ KK a b a' b' A B), (@dn_gt T cmp HL _ KK a b a' b' A B),
      (@dn_ge T cmp HL _ KK a b a' b' A B), (@dn_eq T cmp HL _ KK a b a' b' A B), (@dn_ci T cmp HL _ KK a b a' b' A B),
      (@dn_cm T cmp HL _ KK a b a' b' A B), (@dn_is T cmp HL _ KK a b a' b' A B), (@dn_pc T cmp HL _ KK a b a' b' A B Wa Wb).
  - intros x x' Hx. destruct (@dn_val T cmp HL _ KK a a' A x x' (Rd_f _ _ HL f x x' Hx)) as (E1 & E2 & E3 & E4 & E5 & E6).
    unfold answers_v, answers_v_turned, ivv_partial_cmp. rewrite E1, E2, E3, E4, E5, E6. f_equal.
    pose proof (@value_one_side T cmp a x HL Wa) as N.
    destruct (ivv_lt cmp a x), (ivv_gt cmp a x), (ivv_eq cmp a x); try reflexivity; destruct (N eq_refl eq_refl).
  - destruct (intersection_spec HL _ _ Wa Wb) as (r & r' & R1 & R2 & _ & R3 & R4 & _).
    destruct (span_spec HL _ _ Wa Wb) as (s & s' & S1 & S2 & _ & S3 & S4 & _).
    intros G [<-|[<-|[<-|[<-|[]]]]].
    + pose proof (@dn_intersection T cmp HL _ KK a b a' b' A B) as X. pose proof (@up_intersection T cmp _ KF a b a b A0 B0) as Y.
      rewrite R1 in *. destruct (iv_intersection cmp a' b') as [m''| | | |]; try contradiction.
      destruct (dimg_F _ _ R3 Y X) as (m' & M1 & M2). exists r, m', m''. auto.
    + pose proof (@dn_into_intersection T cmp HL _ KK a b a' b' A B RE) as X. pose proof (@up_into_intersection T cmp _ KF a b a b A0 B0) as Y.
      rewrite R2 in *. destruct (iv_into_intersection cmp a' b') as [m''| | | |]; try contradiction.
      destruct (dimg_F _ _ R4 Y X) as (m' & M1 & M2). exists r', m', m''. auto.
    + pose proof (@dn_span T cmp HL _ KK a b a' b' A B) as X. pose proof (@up_span T cmp _ KF a b a b A0 B0) as Y.
      rewrite S1 in *. destruct (iv_span cmp a' b') as [m''| | | |]; try contradiction.
      destruct (dimg_F _ _ S3 Y X) as (m' & M1 & M2). exists s, m', m''. auto.
    + pose proof (@dn_into_span T cmp HL _ KK a b a' b' A B RE) as X. pose proof (@up_into_span T cmp _ KF a b a b A0 B0) as Y.
      rewrite S2 in *. destruct (iv_into_span cmp a' b') as [m''| | | |]; try contradiction.
      destruct (dimg_F _ _ S4 Y X) as (m' & M1 & M2). exists s', m', m''. auto.
  - intros M. destruct (merge_spec HL _ _ Wa Wb M) as (r & r' & R1 & _ & _ & R3 & _).
    destruct (@dn_merge T cmp HL _ KK a b a' b' A B) as [X1 X2]. destruct (@up_merge T cmp _ KF a b a b A0 B0) as [Y _].
    rewrite R1 in *. destruct (iv_merge cmp a' b') as [m'' [[]|]]; [|contradiction].
    destruct (dimg_F _ _ R3 Y X1) as (m' & M1 & M2). exists r, m', m''. auto.
  - intros M. destruct (merge_spec HL _ _ Wa Wb M) as (r & r' & _ & R1 & _ & _ & R3 & _).
    pose proof (@dn_into_merged T cmp HL _ KK a b a' b' A B RE) as X. pose proof (@up_into_merged T cmp _ KF a b a b A0 B0) as Y.
    rewrite R1 in *. destruct (iv_into_merged cmp a' b') as [[m''|]| | | |]; try contradiction.
    destruct (dimg_F _ _ R3 Y X) as (m' & M1 & M2). exists r', m', m''. auto.
Qed.
End Turned.

(** An operator that turns the order round exchanges left and right in every answer;
    the combined intervals are equal in the sense of ==. *)
Theorem c114_operators_turning_the_order : forall T U (cmp : T -> T -> comparison) (op : T -> U -> outcome T) F k a b a' b',
  ord_laws cmp -> turns_order cmp (fun x => op x k) -> In F (four cmp op) ->
  obtainable cmp a -> obtainable cmp b -> F a k = Ret a' -> F b k = Ret b' ->
  answers cmp a' b' = answers_turned cmp a b /\
  (forall x x', op x k = Ret x' -> answers_v cmp a' x' = answers_v_turned cmp a x) /\
  (forall G, In G [iv_intersection cmp; iv_into_intersection cmp; iv_span cmp; iv_into_span cmp] ->
   exists m m' m'', G a b = Ret m /\ F m k = Ret m' /\ G a' b' = Ret m'' /\ iv_eq cmp m'' m' = true) /\
  (iv_can_be_merged cmp a b = true ->
   exists m m' m'', iv_merge cmp a b = (m, inl tt) /\ F m k = Ret m' /\ iv_merge cmp a' b' = (m'', inl tt) /\ iv_eq cmp m'' m' = true) /\
  (iv_can_be_merged cmp a b = true ->
   exists m m' m'', iv_into_merged cmp a b = Ret (inl m) /\ F m k = Ret m' /\ iv_into_merged cmp a' b' = Ret (inl m'') /\ iv_eq cmp m'' m' = true).
Proof.
  intros T U cmp op F k a b a' b' HL K HF Oa Ob Ha Hb.
  apply (@turned_all T cmp HL (fun x => op x k) K (fun i => F i k)); auto; clear - HL K HF.
  - intros i i' H. rewrite (four_map _ _ _ _ _ HF) in H. exact (map_defined _ _ _ _ _ H).
  - intros i i' W H. rewrite (four_map _ _ _ _ _ HF) in H. exact (map_dimg _ _ HL _ _ _ K W H).
  - intros m m'' W D H. rewrite (four_map _ _ _ _ _ HF). exact (dimg_map _ _ HL _ _ _ K W D H).
Qed.
Print Assumptions c114_operators_turning_the_order.

(** Unary minus does the same. *)
Theorem c114_negation_turns_the_order : forall T (cmp : T -> T -> comparison) neg a b a' b',
  ord_laws cmp -> turns_order cmp neg -> obtainable cmp a -> obtainable cmp b -> iv_neg cmp neg a = Ret a' -> iv_neg cmp neg b = Ret b' ->
  answers cmp a' b' = answers_turned cmp a b /\
  (forall x x', neg x = Ret x' -> answers_v cmp a' x' = answers_v_turned cmp a x) /\
  (forall G, In G [iv_intersection cmp; iv_into_intersection cmp; iv_span cmp; iv_into_span cmp] ->
   exists m m' m'', G a b = Ret m /\ iv_neg cmp neg m = Ret m' /\ G a' b' = Ret m'' /\ iv_eq cmp m'' m' = true) /\
  (iv_can_be_merged cmp a b = true ->
   exists m m' m'', iv_merge cmp a b = (m, inl tt) /\ iv_neg cmp neg m = Ret m' /\ iv_merge cmp a' b' = (m'', inl tt) /\ iv_eq cmp m'' m' = true) /\
  (iv_can_be_merged cmp a b = true ->
   exists m m' m'', iv_into_merged cmp a b = Ret (inl m) /\ iv_neg cmp neg m = Ret m' /\ iv_into_merged cmp a' b' = Ret (inl m'') /\ iv_eq cmp m'' m' = true).
Proof.
  intros T cmp neg a b a' b' HL K Oa Ob Ha Hb.
  apply (@turned_all T cmp HL neg K (iv_neg cmp neg)); auto; clear - HL K.
  - intros i i' H. exact (neg_defined _ _ _ _ _ H).
  - intros i i' W H. exact (neg_dimg _ _ HL _ _ _ K W H).
  - intros m m'' W D H. exact (dimg_neg _ _ HL _ _ _ K W D H).
Qed.
Print Assumptions c114_negation_turns_the_order.

(** Which operators do: of an integer type with overflow checks, and of exact
    rationals. *)
Theorem c114_which_operators : forall I, ichecked I = true ->
  (forall k, keeps_order Z.compare (fun x => int_add I x k) /\ keeps_order Z.compare (fun x => int_sub I x k)) /\
  (forall k, 0 < k -> keeps_order Z.compare (fun x => int_mul I x k)) /\
  (forall k, k < 0 -> turns_order Z.compare (fun x => int_mul I x k)) /\ turns_order Z.compare (int_neg I) /\
  (forall k, keeps_order Qcompare (fun x => q_add x k) /\ keeps_order Qcompare (fun x => q_sub x k)) /\
  (forall k, 0 < k -> keeps_order Qcompare (fun x => q_mul x k) /\ keeps_order Qcompare (fun x => q_div x k))%Q /\
  (forall k, k < 0 -> turns_order Qcompare (fun x => q_mul x k) /\ turns_order Qcompare (fun x => q_div x k))%Q /\ turns_order Qcompare q_neg.
Proof.
  intros I C.
  assert (R : forall z z', int_result I z = Ret z' -> z' = z).
  { unfold int_result. intros z z'. rewrite C. destruct (_ && _)%bool; intros H; congruence. }
  assert (ZC : forall p q x y, (p < q <-> x < y) -> (p = q <-> x = y) -> (p ?= q) = (x ?= y)).
  { intros p q x y A B. destruct (Z.compare_spec x y), (Z.compare_spec p q); auto; exfalso; lia. }
  assert (QC : forall p q x y, (p < q <-> x < y)%Q -> (q < p <-> y < x)%Q -> (p ?= q)%Q = (x ?= y)%Q).
  { intros p q x y A B. destruct (Qcompare_spec x y) as [E|E|E], (Qcompare_spec p q) as [E'|E'|E']; auto; exfalso; lra. }
  unfold keeps_order, turns_order, int_add, int_sub, int_mul, int_neg, q_add, q_sub, q_mul, q_neg, q_div.
  repeat split; intros.
  - apply R in H, H0. subst. apply ZC; lia.
  - apply R in H, H0. subst. apply ZC; lia.
  - apply R in H0, H1. subst. apply ZC; nia.
  - apply R in H0, H1. subst. apply ZC; nia.
  - apply R in H, H0. subst. apply ZC; lia.
  - injection H as <-; injection H0 as <-. apply QC; lra.
  - injection H as <-; injection H0 as <-. apply QC; lra.
  - injection H0 as <-; injection H1 as <-. apply QC; apply Qmult_lt_r; auto.
  - destruct (Qeq_bool k 0) eqn:E; [discriminate|]. injection H0 as <-; injection H1 as <-.
    apply Qinv_lt_0_compat in H. apply QC; apply Qmult_lt_r; auto.
  - injection H0 as <-; injection H1 as <-. assert (0 < - k)%Q by lra.
    apply QC; [rewrite <- (Qmult_lt_r y x (- k)) by auto|rewrite <- (Qmult_lt_r x y (- k)) by auto]; split; lra.
  - destruct (Qeq_bool k 0) eqn:E; [discriminate|]. injection H0 as <-; injection H1 as <-.
    assert (P : (0 < - / k)%Q).
    { assert (0 < - k)%Q as P by lra. apply Qinv_lt_0_compat in P. assert (N : ~ (k == 0)%Q) by (intros X; rewrite X in H; lra).
      assert (X : (- / k == / - k)%Q) by (field; auto). rewrite X; auto. }
    unfold Qdiv. apply QC; [rewrite <- (Qmult_lt_r y x (- / k)) by auto|rewrite <- (Qmult_lt_r x y (- / k)) by auto]; split; lra.
  - injection H as <-; injection H0 as <-. apply QC; lra.
Qed.
Print Assumptions c114_which_operators.

(** [1, 3) and (2, 7]: moved by 10, scaled by -2 and negated; the intersection (2, 3)
    becomes (12, 13), (-6, -4) and (-3, -2) *)
Example c114_example : exists a b, obtainable Z.compare a /\ obtainable Z.compare b /\
  answers Z.compare a b = ([false; false; false; false; false; false; true; true], None) /\
  omap (answers_v Z.compare a) (Ret 3) = Ret ([false; true; true; false; false; false], Some Lt) /\
  obind (iv_add Z.compare (int_add (i32 true)) a 10) (fun a' => obind (iv_add Z.compare (int_add (i32 true)) b 10) (iv_intersection Z.compare a'))
    = iv_open Z.compare 12 13 /\
  obind (iv_mul Z.compare (int_mul (i32 true)) a (-2)) (fun a' => obind (iv_mul Z.compare (int_mul (i32 true)) b (-2)) (iv_intersection Z.compare a'))
    = iv_open Z.compare (-6) (-4) /\
  obind (iv_neg Z.compare (int_neg (i32 true)) a) (fun a' => omap (answers_v Z.compare a') (int_neg (i32 true) 3))
    = Ret ([false; false; false; true; true; false], Some Gt).
Proof.
  exists (ivt 1 true 3 false), (ivt 2 false 7 true). split; [|split].
  - apply ob_lower_closed with 1 3. reflexivity.
  - apply ob_upper_closed with 2 7. reflexivity.
  - repeat split; reflexivity.
Qed.
(** Division of integers keeps only part of the order: [2, 2] and [3, 3] differ, their
    halves do not.  Without overflow checks even a translation may change answers. *)
Example c114_limits :
  obind (iv_div Z.compare (int_div (i32 true)) (ivt 2 true 2 true) 2) (fun a' => omap (iv_eq Z.compare a') (iv_div Z.compare (int_div (i32 true)) (ivt 3 true 3 true) 2)) = Ret true /\
  iv_eq Z.compare (ivt 2 true 2 true) (ivt 3 true 3 true) = false /\
  obind (iv_add Z.compare (int_add (u8 false)) (ivt 1 true 2 true) 100) (fun a' => omap (iv_lt Z.compare a') (iv_add Z.compare (int_add (u8 false)) (ivt 200 true 201 true) 100)) = Ret false /\
  iv_lt Z.compare (ivt 1 true 2 true) (ivt 200 true 201 true) = true.
Proof. repeat split; reflexivity. Qed.

(** ** C115 *)

(** the interval of the values [p * x + q] *)
Definition affine (p q : Z) (i : interval Z) : interval Z :=
  match iv_into_tuple i with
  | None => Interval None
  | Some (l, lc, u, uc) =>
      match p ?= 0 with
      | Gt => ivt (p * l + q) lc (p * u + q) uc
      | Lt => ivt (p * u + q) uc (p * l + q) lc
      | Eq => if lc && uc then ivt q true q true else Interval None
      end
  end.
Lemma map_affine f p q a b : wf Z.compare a -> (forall x y, f x = Ret y -> y = p * x + q) ->
  iv_map Z.compare f a = Ret b -> b = affine p q a.
Proof.
  intros W A H. destruct (ivt_eta a) as [->|(l & lc & u & uc & ->)]; [injection H as <-; reflexivity|].
  rewrite iv_map_ivt in H. destruct (f u) as [u'| | | |] eqn:U; try discriminate. destruct (f l) as [l'| | | |] eqn:L; try discriminate.
  cbn [obind] in H. injection H as <-. apply A in U, L. subst u' l'.
  unfold affine. cbn [iv_into_tuple ivt imp lower_into_tuple upper_into_tuple lo up lower_new upper_new lbound ubound bval bclosed].
  unfold fix_after_modification, ivt, vgt, veq. cbn.
  destruct W as [W|(W & W1 & W2)]; cbn in W.
  - change (l < u) in W.
    destruct (Z.compare_spec p 0) as [E|E|E].
    + subst. rewrite Z.compare_refl. cbn. rewrite Z.compare_refl. destruct lc, uc; reflexivity.
    + assert (X : p * l + q > p * u + q) by nia. rewrite (proj2 (Z.compare_gt_iff (p * l + q) (p * u + q))) by lia. cbn.
      rewrite (proj2 (Z.compare_lt_iff (p * u + q) (p * l + q))) by lia. reflexivity.
    + assert (X : p * l + q < p * u + q) by nia. rewrite (proj2 (Z.compare_lt_iff (p * l + q) (p * u + q))) by lia. cbn.
      rewrite (proj2 (Z.compare_lt_iff (p * l + q) (p * u + q))) by lia. reflexivity.
  - apply Z_eqv in W. cbn in W1, W2. subst. rewrite Z.compare_refl. cbn. rewrite Z.compare_refl. cbn.
    destruct (Z.compare_spec p 0); subst; reflexivity.
Qed.
Lemma affine_wf p q a : wf Z.compare a -> wf Z.compare (affine p q a).
Proof.
  intros W. destruct (ivt_eta a) as [->|(l & lc & u & uc & ->)]; [exact I|]. unfold affine. cbn.
  unfold wf, well_formed in *. cbn in W.
  destruct (Z.compare_spec p 0) as [E|E|E].
  - destruct lc, uc; cbn; auto. right. repeat split; auto. apply Z_eqv; auto.
  - cbn. destruct W as [W|(W & -> & ->)]; [left; change (l < u) in W; change (p * u + q < p * l + q); nia|].
    right. apply Z_eqv in W. subst. repeat split. apply Z_eqv; auto.
  - cbn. destruct W as [W|(W & -> & ->)]; [left; change (l < u) in W; change (p * l + q < p * u + q); nia|].
    right. apply Z_eqv in W. subst. repeat split. apply Z_eqv; auto.
Qed.
Ltac same_ends := match goal with |- ivt ?a _ ?b _ = ivt ?c _ ?d _ => replace a with c by ring; replace b with d by ring; reflexivity end.
Lemma affine_affine p q p' q' a : affine p' q' (affine p q a) = affine (p' * p) (p' * q + q') a.
Proof.
  destruct (ivt_eta a) as [->|(l & lc & u & uc & ->)]; [reflexivity|]. unfold affine at 2 3. cbn.
  destruct (Z.compare_spec p 0) as [E|E|E], (Z.compare_spec (p' * p) 0) as [E'|E'|E'];
    try (exfalso; nia); try (subst; exfalso; nia).
  - subst. destruct (lc && uc)%bool; [|reflexivity]. unfold affine. cbn.
    destruct (Z.compare_spec p' 0) as [F|F|F]; subst; cbn; auto; same_ends.
  - assert (p' = 0) by nia. subst. unfold affine. cbn. destruct lc, uc; reflexivity.
  - unfold affine. cbn. destruct (Z.compare_spec p' 0) as [F|F|F]; try (exfalso; nia). same_ends.
  - unfold affine. cbn. destruct (Z.compare_spec p' 0) as [F|F|F]; try (exfalso; nia). same_ends.
  - assert (p' = 0) by nia. subst. unfold affine. cbn. destruct lc, uc; reflexivity.
  - unfold affine. cbn. destruct (Z.compare_spec p' 0) as [F|F|F]; try (exfalso; nia). same_ends.
  - unfold affine. cbn. destruct (Z.compare_spec p' 0) as [F|F|F]; try (exfalso; nia). same_ends.
Qed.
Section Laws.
Variable I : int_type.
Hypothesis C : ichecked I = true.
Lemma result_inv z z' : int_result I z = Ret z' -> z' = z /\ in_range I z.
Proof.
  unfold int_result, in_range. rewrite C. destruct (_ && _)%bool eqn:E; intros H; [|discriminate].
  injection H as <-. split; auto. lia.
Qed.
(** both ends of [a], if it has any, satisfy [P] *)
Definition ends (P : Z -> Prop) (a : interval Z) : Prop :=
  match iv_into_tuple a with Some (l, _, u, _) => P l /\ P u | None => True end.
Lemma run_affine g p q a b : (forall x, g x = p * x + q) -> wf Z.compare a ->
  iv_map Z.compare (fun x => int_result I (g x)) a = Ret b ->
  b = affine p q a /\ wf Z.compare b /\ ends (fun x => in_range I (p * x + q)) a.
Proof.
  intros G W H. assert (B : b = affine p q a).
  { apply (@map_affine (fun x => int_result I (g x))); auto. intros x y E. apply result_inv in E. rewrite <- G. tauto. }
  split; [exact B|]. split; [rewrite B; now apply affine_wf|].
  destruct (ivt_eta a) as [->|(l & lc & u & uc & ->)]; [exact Logic.I|]. rewrite iv_map_ivt in H. unfold ends. cbn.
  destruct (int_result I (g u)) eqn:U; try discriminate. destruct (int_result I (g l)) eqn:L; try discriminate.
  apply result_inv in U, L. rewrite G in U, L. tauto.
Qed.
Lemma affine_run g p q a : (forall x, g x = p * x + q) -> wf Z.compare a -> ends (fun x => in_range I (p * x + q)) a ->
  iv_map Z.compare (fun x => int_result I (g x)) a = Ret (affine p q a).
Proof.
  intros G W E.
  assert (M : exists b, iv_map Z.compare (fun x => int_result I (g x)) a = Ret b).
  { destruct (ivt_eta a) as [->|(l & lc & u & uc & ->)]; [eexists; reflexivity|]. rewrite iv_map_ivt.
    unfold ends in E. cbn in E. rewrite !int_result_in by (rewrite G; tauto). eexists; reflexivity. }
  destruct M as [b M]. destruct (run_affine _ _ _ _ _ G W M) as [-> _]. exact M.
Qed.
(** the ends of the image are images of the ends *)
Lemma ends_affine P p q a : ends P (affine p q a) -> p <> 0 -> ends (fun x => P (p * x + q)) a.
Proof.
  destruct (ivt_eta a) as [->|(l & lc & u & uc & ->)]; auto. unfold affine, ends. cbn.
  destruct (Z.compare_spec p 0) as [E|E|E]; intros H N; cbn in H; tauto.
Qed.
Lemma ends_imp (P Q : Z -> Prop) a : (forall x, P x -> Q x) -> ends P a -> ends Q a.
Proof. intros H. unfold ends. destruct (iv_into_tuple a) as [[[[l lc] u] uc]|]; [|auto]. intros [A B]; auto. Qed.
Lemma affine_id a : affine 1 0 a = a.
Proof.
  destruct (ivt_eta a) as [->|(l & lc & u & uc & ->)]; auto. unfold affine. cbn -[Z.mul Z.add]. same_ends.
Qed.
End Laws.

(** [a op k] of an integer type *)
Notation "'zadd' I" := (iv_add Z.compare (int_add I)) (at level 9, I at level 9).
Notation "'zsub' I" := (iv_sub Z.compare (int_sub I)) (at level 9, I at level 9).
Notation "'zmul' I" := (iv_mul Z.compare (int_mul I)) (at level 9, I at level 9).
Notation "'zdiv' I" := (iv_div Z.compare (int_div I)) (at level 9, I at level 9).
Notation "'zneg' I" := (iv_neg Z.compare (int_neg I)) (at level 9, I at level 9).

Lemma map_ext T (cmp : T -> T -> comparison) f g i : (forall x, f x = g x) -> iv_map cmp f i = iv_map cmp g i.
Proof. intros E. unfold iv_map. destruct (iv_into_tuple i) as [[[[l lc] u] uc]|]; auto. now rewrite !E. Qed.
Lemma neg_as_map I i : zob i -> zneg I i = iv_map Z.compare (int_neg I) i.
Proof.
  intros Ho. apply (obtainable_wf Z_ord) in Ho. destruct (ivt_eta i) as [->|(l & lc & u & uc & ->)]; [reflexivity|].
  rewrite iv_neg_ivt, iv_map_ivt. destruct (int_neg I u) as [x| | | |] eqn:U; auto. destruct (int_neg I l) as [y| | | |] eqn:L; auto.
  cbn [obind]. f_equal. destruct Ho as [W|(W & W1 & W2)]; cbn in W.
  - unfold fix_after_modification, ivt, vgt, veq. cbn. rewrite (Z.compare_antisym x y).
    destruct (Z.compare_spec x y) as [E|E|E]; cbn.
    + subst. rewrite Z.compare_refl. destruct lc, uc; reflexivity.
    + rewrite (proj2 (Z.compare_lt_iff x y)) by auto. reflexivity.
    + rewrite (proj2 (Z.compare_lt_iff y x)) by auto. reflexivity.
  - cbn in W1, W2. apply Z_eqv in W. subst. rewrite U in L. injection L as ->. reflexivity.
Qed.

(** Interval arithmetic on an integer type with overflow checks obeys the laws of the
    integers: two translations are one, two scalings are one, also by 0; scaling
    distributes over translating. *)
Theorem c115_steps_combine : forall I a b c k m n, ichecked I = true -> zob a ->
  (zadd I a k = Ret b -> zadd I b m = Ret c -> int_add I k m = Ret n -> zadd I a n = Ret c) /\
  (zmul I a k = Ret b -> zmul I b m = Ret c -> int_mul I k m = Ret n -> zmul I a n = Ret c) /\
  (forall d, zadd I a k = Ret b -> zmul I b m = Ret c -> zmul I a m = Ret d -> int_mul I k m = Ret n -> zadd I d n = Ret c).
Proof.
  intros I a b c k m n C Ho. pose proof (obtainable_wf Z_ord Ho) as W.
  split; [|split].
  - intros A B N. rewrite iv_add_map in *. unfold int_add in *. apply (@run_affine I C _ 1 k) in A; [|intros; ring|auto]. destruct A as (-> & WB & EA).
    apply (@run_affine I C _ 1 m) in B; [|intros; ring|auto]. destruct B as (-> & WC & EB).
    apply (result_inv I C) in N. destruct N as [-> N].
    rewrite affine_affine. rewrite (@affine_run I C _ 1 (k + m)); [|intros; ring|auto|].
    + f_equal. f_equal; ring.
    + apply ends_affine in EB; [|lia]. revert EB. apply ends_imp. intros x. now replace (1 * (1 * x + k) + m) with (1 * x + (k + m)) by ring.
  - intros A B N. rewrite iv_mul_map in *. unfold int_mul in *. apply (@run_affine I C _ k 0) in A; [|intros; ring|auto]. destruct A as (-> & WB & EA).
    apply (@run_affine I C _ m 0) in B; [|intros; ring|auto]. destruct B as (-> & WC & EB).
    apply (result_inv I C) in N. destruct N as [-> N].
    rewrite affine_affine. rewrite (@affine_run I C _ (k * m) 0); [|intros; ring|auto|].
    + f_equal. f_equal; ring.
    + destruct (Z.eq_dec k 0) as [->|K].
      * unfold ends. destruct (iv_into_tuple a) as [[[[l lc] u] uc]|]; auto.
      * apply ends_affine in EB; [|lia]. revert EB. apply ends_imp. intros x. now replace (m * (k * x + 0) + 0) with (k * m * x + 0) by ring.
  - intros d A B D N. rewrite iv_add_map in A |- *. rewrite iv_mul_map in B, D. unfold int_add, int_mul in *. apply (@run_affine I C _ 1 k) in A; [|intros; ring|auto]. destruct A as (-> & WB & EA).
    apply (@run_affine I C _ m 0) in B; [|intros; ring|auto]. destruct B as (-> & WC & EB).
    apply (@run_affine I C _ m 0) in D; [|intros; ring|auto]. destruct D as (-> & WD & ED).
    apply (result_inv I C) in N. destruct N as [-> N].
    rewrite affine_affine. rewrite (@affine_run I C _ 1 (k * m)); [|intros; ring|auto|].
    + rewrite affine_affine. f_equal. f_equal; ring.
    + apply ends_affine in EB; [|lia].
      destruct (ivt_eta a) as [->|(l & lc & u & uc & ->)]; [exact Logic.I|].
      unfold ends in EB. cbn -[Z.mul Z.add] in EB. unfold affine, ends. cbn -[Z.mul Z.add].
      destruct (Z.compare_spec m 0) as [E|E|E].
      * subst. destruct (lc && uc)%bool; [|exact Logic.I]. cbn -[Z.mul Z.add]. now replace (1 * 0 + k * 0) with (k * 0) by ring.
      * cbn -[Z.mul Z.add]. replace (1 * (m * u + 0) + k * m) with (m * (1 * u + k) + 0) by ring.
        replace (1 * (m * l + 0) + k * m) with (m * (1 * l + k) + 0) by ring. tauto.
      * cbn -[Z.mul Z.add]. replace (1 * (m * u + 0) + k * m) with (m * (1 * u + k) + 0) by ring.
        replace (1 * (m * l + 0) + k * m) with (m * (1 * l + k) + 0) by ring. tauto.
Qed.
Print Assumptions c115_steps_combine.

(** Minus is plus the opposite and times -1, for every integer type, checked or not;
    the opposite of a translated interval is the opposite, translated back. *)
Theorem c115_minus : forall I a k, zob a ->
  (forall n, n = - k -> zsub I a k = zadd I a n) /\ zneg I a = zmul I a (-1) /\
  (ichecked I = true -> forall b c d, zneg I a = Ret b -> zadd I a k = Ret c -> zneg I c = Ret d -> zsub I b k = Ret d).
Proof.
  intros I a k Ho. pose proof (obtainable_wf Z_ord Ho) as W. split; [|split].
  - intros n ->. rewrite iv_add_map, iv_sub_map. apply map_ext. intros x. unfold int_sub, int_add. f_equal; ring.
  - rewrite (neg_as_map I a Ho), iv_mul_map. apply map_ext. intros x. unfold int_neg, int_mul. f_equal; ring.
  - intros C b c d A B D. assert (Oc : zob c) by (eapply ob_add; eauto).
    rewrite neg_as_map in A, D by auto. rewrite iv_add_map in B. rewrite iv_sub_map. unfold int_neg, int_add, int_sub in *.
    apply (@run_affine I C _ (-1) 0) in A; [|intros; ring|auto]. destruct A as (-> & WB & EA).
    apply (@run_affine I C _ 1 k) in B; [|intros; ring|auto]. destruct B as (-> & WC & EB).
    apply (@run_affine I C _ (-1) 0) in D; [|intros; ring|auto]. destruct D as (-> & WD & ED).
    rewrite affine_affine. rewrite (@affine_run I C _ 1 (- k)); [|intros; ring|auto|].
    + rewrite affine_affine. f_equal. f_equal; ring.
    + apply ends_affine in ED; [|lia]. clear - ED. destruct (ivt_eta a) as [->|(l & lc & u & uc & ->)]; [exact Logic.I|].
      unfold ends, affine in *. cbn -[Z.mul Z.add] in *.
      replace (1 * (-1 * u + 0) + - k) with (-1 * (1 * u + k) + 0) by ring.
      replace (1 * (-1 * l + 0) + - k) with (-1 * (1 * l + k) + 0) by ring. tauto.
Qed.
Print Assumptions c115_minus.

(** Adding 0 and multiplying or dividing by 1 change nothing; dividing undoes scaling. *)
Theorem c115_neutral_and_inverse : forall I a, ichecked I = true -> zob a -> no_overflow I (fun x => x) (iv_into_tuple a) ->
  zadd I a 0 = Ret a /\ zsub I a 0 = Ret a /\ zmul I a 1 = Ret a /\ zdiv I a 1 = Ret a /\
  (forall k b, k <> 0 -> zmul I a k = Ret b -> zdiv I b k = Ret a).
Proof.
  intros I a C Ho R. pose proof (obtainable_wf Z_ord Ho) as W.
  assert (E : ends (fun x => in_range I (1 * x + 0)) a).
  { unfold no_overflow in R. unfold ends. destruct (iv_into_tuple a) as [[[[l lc] u] uc]|]; auto.
    replace (1 * l + 0) with l by ring. replace (1 * u + 0) with u by ring. exact R. }
  assert (D : forall k b, k <> 0 -> zmul I a k = Ret b -> zdiv I b k = Ret a).
  { intros k b K M. rewrite iv_mul_map in M. unfold int_mul in M. apply (@run_affine I C _ k 0) in M; [|intros; ring|auto].
    destruct M as (-> & _ & _). rewrite iv_div_map. unfold int_div.
    assert (Q : forall x, Z.quot (k * x + 0) k = x) by (intros x; rewrite Z.add_0_r, Z.mul_comm; apply Z.quot_mul; auto).
    destruct (ivt_eta a) as [->|(l & lc & u & uc & ->)]; [reflexivity|]. cbn in R. unfold in_range in R.
    assert (L : ((imin I <=? l) && (l <=? imax I) = true)%bool) by lia.
    assert (U : ((imin I <=? u) && (u <=? imax I) = true)%bool) by lia.
    unfold affine. cbn -[Z.mul Z.add].
    destruct (Z.compare_spec k 0) as [X|X|X]; [congruence| |]; rewrite iv_map_ivt, !Q, (proj2 (Z.eqb_neq k 0) K), L, U; cbn [obind]; f_equal;
      unfold fix_after_modification, ivt, vgt, veq; cbn; destruct W as [W|(W & W1 & W2)]; cbn in W.
    - rewrite (Z.compare_antisym l u). unfold lt in W. rewrite W. cbn. rewrite W. reflexivity.
    - apply Z_eqv in W. cbn in W1, W2. subst. rewrite Z.compare_refl. cbn. rewrite Z.compare_refl. reflexivity.
    - unfold lt in W. rewrite W. cbn. rewrite W. reflexivity.
    - apply Z_eqv in W. cbn in W1, W2. subst. rewrite Z.compare_refl. cbn. rewrite Z.compare_refl. reflexivity. }
  assert (M1 : zmul I a 1 = Ret a).
  { rewrite iv_mul_map. unfold int_mul. rewrite (@affine_run I C _ 1 0), affine_id; auto. intros; ring. }
  rewrite iv_add_map, iv_sub_map. unfold int_add, int_sub.
  rewrite !(@affine_run I C _ 1 0), affine_id; auto; try (intros; ring).
  repeat split; auto. apply (D 1 a); auto; lia.
Qed.
Print Assumptions c115_neutral_and_inverse.

(** (1, 3] on i32: (1, 3] + 2 - 5, times -2, and times 0, where an open end leaves
    nothing *)
Example c115_example : exists a, zob a /\ no_overflow (i32 true) (fun x => x) (iv_into_tuple a) /\
  obind (zadd (i32 true) a 2) (fun b => zsub (i32 true) b 5) = iv_upper_closed Z.compare (-2) 0 /\
  obind (zadd (i32 true) a 2) (fun b => zmul (i32 true) b (-2)) = iv_lower_closed Z.compare (-10) (-6) /\
  obind (zmul (i32 true) a (-2)) (fun d => zadd (i32 true) d (-4)) = iv_lower_closed Z.compare (-10) (-6) /\
  obind (zmul (i32 true) a (-2)) (fun b => zdiv (i32 true) b (-2)) = Ret a /\
  obind (zmul (i32 true) a 3) (fun b => zmul (i32 true) b 0) = Ret (iv_empty Z) /\ zmul (i32 true) a 0 = Ret (iv_empty Z).
Proof.
  exists (ivt 1 false 3 true). split; [apply ob_upper_closed with 1 3; reflexivity|].
  split; [cbn; unfold in_range; cbn; lia|]. repeat split; reflexivity.
Qed.
(** The order of scaling and dividing matters: (3, 7) / 2 * 2 is (2, 6).  And where one
    step of two overflows, the two do not return although the one step would. *)
Example c115_limits :
  obind (zdiv (i32 true) (ivt 3 false 7 false) 2) (fun b => zmul (i32 true) b 2) = iv_open Z.compare 2 6 /\
  obind (zadd (u8 true) (ivt 100 true 200 true) 100) (fun b => zsub (u8 true) b 100) = Panic.
Proof. split; reflexivity. Qed.
