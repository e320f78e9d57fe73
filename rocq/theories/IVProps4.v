(** Property theorems C33 (exact form) and C81 (the Debug output of bounds and
    intervals). *)
From Coq Require Import ZArith QArith Lia String Ascii.
From Verif Require Import Base IVModel IVModel2 IVSpec IVRun IVProofs IVProofs2 IVProofs3 IVProofs4 IVProofs5 IVProps1 IVProps2.
Local Open Scope Z_scope.

Lemma append_assoc (s t u : string) : ((s ++ t) ++ u)%string = (s ++ t ++ u)%string.
Proof. induction s as [|c s IH]; cbn; congruence. Qed.

Lemma prefix_cancel (p s t : string) : (p ++ s)%string = (p ++ t)%string -> s = t.
Proof. induction p as [|c p IH]; cbn; [auto|]. intros [= H]. auto. Qed.

(** a bound printed in front of any text: value, flag and the rest are determined *)
Lemma bound_split T (dbg : T -> string) (b b' : bound T) t t' : (forall x, ~ occurs ","%char (dbg x)) ->
  (bound_debug dbg b ++ t)%string = (bound_debug dbg b' ++ t')%string ->
  dbg (bval b) = dbg (bval b') /\ bclosed b = bclosed b' /\ t = t'.
Proof.
  intros Hc. unfold bound_debug. rewrite !append_assoc. intros H. apply prefix_cancel in H.
  apply (app_split ","%char) in H; auto. destruct H as [H1 H2]. split; auto.
  apply (prefix_cancel " is_closed: ") in H2.
  destruct b as [v c], b' as [v' c']; cbn in *. destruct c, c'; cbn in H2; try discriminate; injection H2 as ->; auto.
Qed.

(** ** C33 *)
Lemma ivv_le_complete T (cmp : T -> T -> comparison) (HL : ord_laws cmp) (HD : dense cmp) i v :
  obtainable cmp i -> iv_is_empty i = false -> (forall x, has cmp i x -> le cmp x v) -> ivv_le cmp i v = true.
Proof.
  intros W N H. apply (obtainable_wf HL) in W. destruct i as [[[l u]|]]; [|discriminate]. apply wf_ok1 in W.
  destruct (ivv_le cmp (Interval (Some (NonEmpty l u))) v) eqn:K; auto. exfalso.
  assert (Hu : lt cmp v (uval u)).
  { revert K. destruct u as [[u c]]. unfold ivv_le, uv_le, vle, vlt, lt; cbn. rewrite (ord_opp HL u v).
    destruct (cmp u v), c; cbn; congruence. }
  destruct (ok_inhabited HL HD W) as (x & X1 & X2). assert (Hx : le cmp x v) by (apply H, mem_bounds; auto).
  destruct (HD _ _ Hu) as (y & Y1 & Y2).
  assert (le cmp y v); [|ord HL]. apply H, mem_bounds. split.
  - destruct l as [[l c]]; unfold aboveb in *; destruct c; cbn in *; ord HL.
  - destruct u as [[u c]]; unfold belowb in *; destruct c; cbn in *; ord HL.
Qed.
Lemma ivv_ge_complete T (cmp : T -> T -> comparison) (HL : ord_laws cmp) (HD : dense cmp) i v :
  obtainable cmp i -> iv_is_empty i = false -> (forall x, has cmp i x -> le cmp v x) -> ivv_ge cmp i v = true.
Proof.
  intros W N H. apply (obtainable_wf HL) in W. destruct i as [[[l u]|]]; [|discriminate]. apply wf_ok1 in W.
  destruct (ivv_ge cmp (Interval (Some (NonEmpty l u))) v) eqn:K; auto. exfalso.
  assert (Hu : lt cmp (lval l) v).
  { revert K. destruct l as [[l c]]. unfold ivv_ge, lv_ge, vge, vgt, lt; cbn.
    destruct (cmp l v), c; cbn; congruence. }
  destruct (ok_inhabited HL HD W) as (x & X1 & X2). assert (Hx : le cmp v x) by (apply H, mem_bounds; auto).
  destruct (HD _ _ Hu) as (y & Y1 & Y2).
  assert (le cmp v y); [|ord HL]. apply H, mem_bounds. split.
  - destruct l as [[l c]]; unfold aboveb in *; destruct c; cbn in *; ord HL.
  - destruct u as [[u c]]; unfold belowb in *; destruct c; cbn in *; ord HL.
Qed.

(** the four operators in full over dense orders; the empty interval answers
    false to each of them, in every order *)
Theorem c33_interval_value_exact : forall T (cmp : T -> T -> comparison) i v, ord_laws cmp -> dense cmp -> obtainable cmp i ->
  (ivv_lt cmp i v = true <-> iv_is_empty i = false /\ forall x, has cmp i x -> lt cmp x v) /\
  (ivv_le cmp i v = true <-> iv_is_empty i = false /\ forall x, has cmp i x -> le cmp x v) /\
  (ivv_gt cmp i v = true <-> iv_is_empty i = false /\ forall x, has cmp i x -> lt cmp v x) /\
  (ivv_ge cmp i v = true <-> iv_is_empty i = false /\ forall x, has cmp i x -> le cmp v x).
Proof.
  intros T cmp i v HL HD Ho. pose proof (obtainable_wf HL Ho) as W.
  assert (N : forall f : interval T -> T -> bool, f (iv_empty T) v = false -> f i v = true -> iv_is_empty i = false).
  { intros f F H. destruct i as [[a|]]; auto. unfold iv_empty in F. congruence. }
  destruct (c33_interval_value_sound _ cmp i v HL) as (S1 & S2 & S3 & S4 & _).
  split; [|split; [|split]]; (split; [intros H; split; [eapply N; [|exact H]; reflexivity|auto]|intros [E H]]).
  - exact (@ivv_lt_complete T cmp HL i v HD W E H).
  - exact (@ivv_le_complete T cmp HL HD i v Ho E H).
  - exact (@ivv_gt_complete T cmp HL i v HD W E H).
  - exact (@ivv_ge_complete T cmp HL HD i v Ho E H).
Qed.
Print Assumptions c33_interval_value_exact.

Theorem c33_empty_is_incomparable : forall T (cmp : T -> T -> comparison) v,
  ivv_lt cmp (iv_empty T) v = false /\ ivv_le cmp (iv_empty T) v = false /\ ivv_gt cmp (iv_empty T) v = false /\
  ivv_ge cmp (iv_empty T) v = false /\ ivv_eq cmp (iv_empty T) v = false /\ ivv_partial_cmp cmp (iv_empty T) v = None.
Proof. intros. repeat split. Qed.
Print Assumptions c33_empty_is_incomparable.

Example c33_ex_exact : ord_laws Qcompare /\ dense Qcompare /\ obtainable Qcompare (qt (1#2) false 3 false) /\
  ivv_le Qcompare (qt (1#2) false 3 false) 3%Q = true /\ ivv_le Qcompare (qt (1#2) false 3 false) (29#10) = false /\
  ivv_ge Qcompare (qt (1#2) false 3 false) (1#2) = true /\ ivv_gt Qcompare (qt (1#2) true 3 false) (1#2) = false.
Proof. split; [exact Q_ord|]. split; [exact Q_dense|]. split; [ob|]. repeat split. Qed.

(** ** C81 *)
(** bounds that print equally are equal, and a lower bound never prints like an
    upper bound *)
Theorem c81_debug_of_bounds_faithful : forall T (cmp : T -> T -> comparison) (dbg : T -> string),
  (forall x y, dbg x = dbg y -> eqv cmp x y) -> (forall x, ~ occurs ","%char (dbg x)) ->
  (forall a b : lower T, lower_debug dbg a = lower_debug dbg b ->
     eqv cmp (lval a) (lval b) /\ lclosed a = lclosed b) /\
  (forall a b : upper T, upper_debug dbg a = upper_debug dbg b ->
     eqv cmp (uval a) (uval b) /\ uclosed a = uclosed b) /\
  (forall (a : lower T) (b : upper T), lower_debug dbg a <> upper_debug dbg b).
Proof.
  intros T cmp dbg Hi Hc. split; [|split].
  - intros [a] [b] H. unfold lower_debug in H. apply prefix_cancel in H. cbn [lbound ubound] in H.
    apply bound_split in H; [|exact Hc]. destruct H as (A & B & _). auto.
  - intros [a] [b] H. unfold upper_debug in H. apply prefix_cancel in H. cbn [lbound ubound] in H.
    apply bound_split in H; [|exact Hc]. destruct H as (A & B & _). auto.
  - intros a b. discriminate.
Qed.
Print Assumptions c81_debug_of_bounds_faithful.

(** intervals that print equally are equal *)
Theorem c81_debug_of_intervals_faithful : forall T (cmp : T -> T -> comparison) (dbg : T -> string) a b,
  (forall x y, dbg x = dbg y -> eqv cmp x y) -> (forall x, ~ occurs ","%char (dbg x)) ->
  iv_debug dbg a = iv_debug dbg b -> iv_eq cmp a b = true.
Proof.
  intros T cmp dbg a b Hi Hc H. apply iv_eq_same.
  destruct (ivt_eta a) as [->|(l & lc & u & uc & ->)], (ivt_eta b) as [->|(l' & lc' & u' & uc' & ->)];
    [exact Logic.I|discriminate|discriminate|].
  unfold iv_debug, nonempty_debug, lower_debug, upper_debug in H. cbn [imp ivt lo up lbound ubound lower_new upper_new] in H.
  apply prefix_cancel in H. rewrite !append_assoc in H.
  apply prefix_cancel in H. apply prefix_cancel in H. apply prefix_cancel in H.
  apply bound_split in H; auto. destruct H as (A1 & A2 & H).
  apply prefix_cancel in H. apply prefix_cancel in H. apply prefix_cancel in H.
  apply bound_split in H; auto. destruct H as (B1 & B2 & _). cbn in *. auto.
Qed.
Print Assumptions c81_debug_of_intervals_faithful.

(** decimal integers satisfy the hypotheses; there equality of the texts is
    equality of the intervals *)
Theorem c81_debug_integers : forall a b : interval Z,
  iv_debug show_Z a = iv_debug show_Z b <-> iv_eq Z.compare a b = true.
Proof.
  intros a b. split.
  - apply c81_debug_of_intervals_faithful; [|exact show_Z_no_comma]. intros x y H. apply Z_eqv. exact (show_Z_inj _ _ H).
  - intros H. apply iv_eq_same in H.
    destruct (ivt_eta a) as [->|(l & lc & u & uc & ->)], (ivt_eta b) as [->|(l' & lc' & u' & uc' & ->)];
      cbn in H; try contradiction; auto.
    destruct H as (H1 & -> & H2 & ->). apply Z_eqv in H1. apply Z_eqv in H2. subst. reflexivity.
Qed.
Print Assumptions c81_debug_integers.

Definition c81_text : string :=
  "Interval { imp: Some(NonEmptyInterval { lo: LowerBound { bound: Bound { val: -3, is_closed: true } }, up: UpperBound { bound: Bound { val: 12, is_closed: false } } }) }".
Example c81_ex : iv_debug show_Z (zt (-3) true 12 false) = c81_text /\
  iv_debug show_Z (iv_empty Z) = "Interval { imp: None }"%string /\
  lower_debug show_Z (lower_new 5 true) = "LowerBound { bound: Bound { val: 5, is_closed: true } }"%string.
Proof. repeat split. Qed.
