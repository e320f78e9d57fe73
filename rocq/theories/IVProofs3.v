(** Comparisons, membership tests and algebraic laws of intervals. *)
From Verif Require Import Base IVModel IVSpec IVRun IVProofs IVProofs2.
Set Implicit Arguments.

Section Facts.
Variable T : Type.
Variable cmp : T -> T -> comparison.
Hypothesis HL : ord_laws cmp.
Implicit Types x y z : T.
Implicit Types a b c i j r : interval T.
Notation lle := (le (lower_cmp cmp)).
Notation ule := (le (upper_cmp cmp)).
Notation wf := (wf cmp).
Notation ok := (ok cmp).
Let LL : ord_laws (lower_cmp cmp) := lower_cmp_laws HL.
Let UL : ord_laws (upper_cmp cmp) := upper_cmp_laws HL.
Notation mk l u := (Interval (Some (NonEmpty l u))).

Lemma wf_ok1 l u : wf (mk l u) -> ok l u.
Proof. destruct l as [[l lc]], u as [[u uc]]. exact (fun H => H). Qed.

(** *** bounds against values *)
Lemma lv_le_above (l : lower T) x : lv_le cmp l x = true <-> aboveb cmp l x.
Proof.
  destruct l as [[l a]]; unfold lv_le, aboveb, vlt, veq, admits_above, le, lt; cbn.
  destruct (cmp l x), a; cbn; split; auto; try discriminate; intros H; exfalso; auto.
Qed.
Lemma uv_ge_below (u : upper T) x : uv_ge cmp u x = true <-> belowb cmp u x.
Proof.
  destruct u as [[u a]]; unfold uv_ge, belowb, vgt, veq, admits_below, le, lt; cbn. rewrite (ord_opp HL u x).
  destruct (cmp u x), a; cbn; split; auto; try discriminate; intros H; exfalso; auto.
Qed.
Lemma lv_gt_le (l : lower T) x : lv_gt cmp l x = negb (lv_le cmp l x).
Proof. destruct l as [[l a]]; unfold lv_gt, lv_le, vlt, vgt, veq; cbn. destruct (cmp l x), a; reflexivity. Qed.
Lemma uv_lt_ge (l : upper T) x : uv_lt cmp l x = negb (uv_ge cmp l x).
Proof. destruct l as [[l a]]; unfold uv_lt, uv_ge, vlt, vgt, veq; cbn. destruct (cmp l x), a; reflexivity. Qed.

Definition agrees (pc : option comparison) (lt_ le_ gt_ ge_ eq_ : bool) : Prop :=
  lt_ = (match pc with Some Lt => true | _ => false end) /\
  gt_ = (match pc with Some Gt => true | _ => false end) /\
  eq_ = (match pc with Some Eq => true | _ => false end) /\
  le_ = (match pc with Some Lt | Some Eq => true | _ => false end) /\
  ge_ = (match pc with Some Gt | Some Eq => true | _ => false end).

(** *** contains_val *)
Lemma contains_val_spec i x : iv_is_empty i = false -> (iv_contains_val cmp i x = true <-> has cmp i x).
Proof.
  destruct i as [[[l u]|]]; [|discriminate]. intros _. unfold has. rewrite mem_bounds.
  unfold iv_contains_val, ivv_gt, ivv_lt; cbn. rewrite lv_gt_le, uv_lt_ge, <- negb_andb, negb_involutive, andb_true_iff.
  rewrite lv_le_above, uv_ge_below. reflexivity.
Qed.

(** *** intersects *)
Lemma common_intersects a b x : has cmp a x -> has cmp b x -> iv_intersects cmp a b = true.
Proof.
  destruct a as [[[l1 u1]|]]; [|intros []]. destruct b as [[[l2 u2]|]]; [|intros ? []].
  unfold has; rewrite !mem_bounds. intros [A B] [C D]. unfold iv_intersects. rewrite iv_lt_mk, iv_gt_mk by auto.
  destruct (lu_gt cmp l1 u2) eqn:G1.
  { exfalso. apply (@not_ok_empty _ cmp HL l1 u2 x); auto. rewrite <- (ok_alt HL); congruence. }
  destruct (lu_gt cmp l2 u1) eqn:G2; auto.
  exfalso. apply (@not_ok_empty _ cmp HL l2 u1 x); auto. rewrite <- (ok_alt HL); congruence.
Qed.
Lemma intersects_common a b (HD : dense cmp) : wf a -> wf b -> iv_is_empty a = false -> iv_is_empty b = false ->
  iv_intersects cmp a b = true -> exists x, has cmp a x /\ has cmp b x.
Proof.
  intros Wa Wb Na Nb H. destruct a as [[[l1 u1]|]]; [|discriminate]. destruct b as [[[l2 u2]|]]; [|discriminate].
  apply wf_ok1 in Wa; apply wf_ok1 in Wb. destruct (inter_mk HL Wa Wb) as (r & Hr & C).
  unfold iv_intersection in Hr. unfold iv_intersects in H. apply negb_true_iff, orb_false_iff in H. destruct H as [H1 H2].
  rewrite H1, H2 in Hr. cbn [iv_is_empty imp orb unwrap obind lo up] in Hr. injection Hr as <-.
  pose proof (fun x => @inter_char_mem T cmp HL _ _ _ _ _ x C) as M.
  destruct C as (l & u & Cl & Cu & [[E O]|[E _]]); [|discriminate].
  destruct (ok_inhabited HL HD O) as (x & X). exists x. unfold has. apply M.
  rewrite E. apply mem_bounds; auto.
Qed.

(** *** order of intervals *)
Lemma lt_points a b x y : iv_lt cmp a b = true -> has cmp a x -> has cmp b y -> lt cmp x y.
Proof.
  destruct a as [[[l1 [[u1 c1]]]|]]; [|intros _ []]. destruct b as [[[[[l2 c2]] u2]|]]; [|intros _ _ []].
  unfold has; rewrite !mem_bounds. unfold iv_lt, ul_lt, aboveb, belowb; cbn.
  intros H [_ A] [B _]. destruct (cmp u1 l2) eqn:K; [| |discriminate]; destruct c1, c2; try discriminate; cbn in *; ord HL.
Qed.
Lemma le_points a b x y : iv_le cmp a b = true -> has cmp a x -> has cmp b y -> le cmp x y.
Proof.
  destruct a as [[[l1 [[u1 c1]]]|]]; [|intros _ []]. destruct b as [[[[[l2 c2]] u2]|]]; [|intros _ _ []].
  unfold has; rewrite !mem_bounds. unfold iv_le, ul_le, vle, aboveb, belowb; cbn.
  intros H [_ A] [B _]. destruct (cmp u1 l2) eqn:K; [| |discriminate]; destruct c1, c2; try discriminate; cbn in *; ord HL.
Qed.
Lemma lt_complete a b (HD : dense cmp) : wf a -> wf b -> iv_is_empty a = false -> iv_is_empty b = false ->
  (forall x y, has cmp a x -> has cmp b y -> lt cmp x y) -> iv_lt cmp a b = true.
Proof.
  intros Wa Wb Na Nb H. destruct a as [[[l1 u1]|]]; [|discriminate]. destruct b as [[[l2 u2]|]]; [|discriminate].
  destruct (iv_lt cmp (mk l1 u1) (mk l2 u2)) eqn:L; auto. exfalso.
  destruct (iv_gt cmp (mk l1 u1) (mk l2 u2)) eqn:G.
  - apply wf_ok1 in Wa; apply wf_ok1 in Wb. destruct (ok_inhabited HL HD Wa) as (x & X). destruct (ok_inhabited HL HD Wb) as (y & Y).
    assert (A : has cmp (mk l1 u1) x) by (apply mem_bounds; auto). assert (B : has cmp (mk l2 u2) y) by (apply mem_bounds; auto).
    pose proof (H _ _ A B). assert (iv_lt cmp (mk l2 u2) (mk l1 u1) = true) by (rewrite iv_lt_mk; auto; rewrite iv_gt_mk in G; auto).
    pose proof (lt_points _ _ _ _ H1 B A). ord HL.
  - destruct (@intersects_common (mk l1 u1) (mk l2 u2) HD Wa Wb Na Nb) as (x & X & Y).
    + unfold iv_intersects; now rewrite L, G.
    + pose proof (H _ _ X Y). ord HL.
Qed.
Lemma le_complete a b (HD : dense cmp) : wf a -> wf b -> iv_is_empty a = false -> iv_is_empty b = false ->
  (forall x y, has cmp a x -> has cmp b y -> le cmp x y) -> iv_le cmp a b = true.
Proof.
  intros Wa Wb Na Nb H. destruct a as [[[l1 u1]|]]; [|discriminate]. destruct b as [[[l2 u2]|]]; [|discriminate].
  apply wf_ok1 in Wa; apply wf_ok1 in Wb.
  unfold iv_le; cbn. unfold ul_le, vle. destruct (cmp (uval u1) (lval l2)) eqn:K; auto. exfalso. apply (gt_lt HL) in K.
  destruct (HD _ _ K) as (z & Z1 & Z2).
  assert (E1 : exists x, aboveb cmp l1 x /\ belowb cmp u1 x /\ lt cmp z x).
  { destruct (@upper_escape _ cmp HL HD l1 u1 (upper_new z true) Wa) as (x & X1 & X2 & X3).
    - destruct u1 as [[u c]]; unfold lt, upper_cmp; cbn in *. rewrite Z2. auto.
    - exists x; repeat split; auto. apply (nle_lt HL). exact X3. }
  assert (E2 : exists x, aboveb cmp l2 x /\ belowb cmp u2 x /\ lt cmp x z).
  { destruct (@lower_escape _ cmp HL HD l2 u2 (lower_new z true) Wb) as (x & X1 & X2 & X3).
    - destruct l2 as [[u c]]; unfold lt, lower_cmp; cbn in *. rewrite Z1. auto.
    - exists x; repeat split; auto. apply (nle_lt HL). exact X3. }
  destruct E1 as (x & X1 & X2 & X3), E2 as (y & Y1 & Y2 & Y3).
  assert (le cmp x y) by (apply H; apply mem_bounds; auto). ord HL.
Qed.

Lemma iv_gt_lt a b : iv_gt cmp a b = iv_lt cmp b a.
Proof. destruct a as [[[l1 u1]|]], b as [[[l2 u2]|]]; auto. rewrite iv_lt_mk; auto. Qed.
Lemma iv_ge_le a b : iv_ge cmp a b = iv_le cmp b a.
Proof.
  destruct a as [[[l1 u1]|]], b as [[[l2 u2]|]]; auto. unfold iv_ge, iv_le; cbn. unfold lu_ge, ul_le, vge, vle.
  rewrite (ord_opp HL (lval l1) (uval u2)). destruct (cmp (lval l1) (uval u2)); reflexivity.
Qed.
Lemma iv_lt_le a b : iv_lt cmp a b = true -> iv_le cmp a b = true.
Proof.
  destruct a as [[[l1 u1]|]], b as [[[l2 u2]|]]; auto. unfold iv_lt, iv_le; cbn. unfold ul_lt, ul_le, vle.
  destruct (cmp (uval u1) (lval l2)); auto.
Qed.
Lemma iv_lt_irrefl a : wf a -> iv_lt cmp a a = false.
Proof. destruct a as [[[l u]|]]; auto. intros W; apply wf_ok1, (ok_alt HL) in W. rewrite iv_lt_mk; auto. Qed.
Lemma iv_lt_trans a b c : wf b -> iv_lt cmp a b = true -> iv_lt cmp b c = true -> iv_lt cmp a c = true.
Proof.
  destruct a as [[[l1 [[u1 d1]]]|]]; [|discriminate]. destruct b as [[[[[l2 c2]] [[u2 d2]]]|]]; [|discriminate].
  destruct c as [[[[[l3 c3]] u3]|]]; [|discriminate].
  intros W. apply wf_ok1 in W. unfold IVProofs.ok in W; cbn in W. unfold iv_lt; cbn; unfold ul_lt; cbn. intros A B.
  destruct (cmp u1 l2) eqn:K1; [| |discriminate]; (destruct (cmp u2 l3) eqn:K2; [| |discriminate]);
  (destruct (cmp u1 l3) eqn:K3; auto; [|destruct W as [W|(W & _)]; ord HL]);
  destruct W as [W|(W & -> & ->)]; try ord HL; cbn in *; destruct d1, c3; auto; discriminate.
Qed.
Lemma iv_lt_asym a b : wf a -> wf b -> iv_lt cmp a b = true -> iv_lt cmp b a = false.
Proof.
  intros Wa Wb H. destruct (iv_lt cmp b a) eqn:K; auto. rewrite <- (@iv_lt_irrefl a Wa). symmetry.
  exact (iv_lt_trans _ _ _ Wb H K).
Qed.
Lemma iv_eq_not_lt a b : wf a -> iv_eq cmp a b = true -> iv_lt cmp a b = false /\ iv_gt cmp a b = false.
Proof.
  intros W H. apply iv_eq_same in H. destruct a as [[[l u]|]], b as [[[l' u']|]]; auto; try (destruct H; fail).
  apply wf_ok1 in W. rewrite iv_lt_mk, iv_gt_mk by auto.
  rewrite same_bounds in H. destruct H as [E1 E2].
  apply (eqv_les LL) in E1. apply (eqv_les UL) in E2. destruct E1, E2.
  split; apply (ok_alt HL); [apply (@ok_mono _ cmp HL l u l' u)|apply (@ok_mono _ cmp HL l u l u')]; auto; apply (le_refl LL) || apply (le_refl UL).
Qed.
Lemma iv_pcmp a b : wf a -> wf b ->
  (iv_partial_cmp cmp a b = Some Lt <-> iv_lt cmp a b = true) /\
  (iv_partial_cmp cmp a b = Some Gt <-> iv_gt cmp a b = true) /\
  (iv_partial_cmp cmp a b = Some Eq <-> iv_eq cmp a b = true).
Proof.
  intros Wa Wb. unfold iv_partial_cmp.
  pose proof (@iv_eq_not_lt a b Wa) as E. pose proof (@iv_lt_asym a b Wa Wb) as A. rewrite <- (iv_gt_lt a b) in A.
  destruct (iv_gt cmp a b), (iv_lt cmp a b), (iv_eq cmp a b);
   try (destruct (E eq_refl); discriminate); try (discriminate (A eq_refl));
   repeat split; auto; intros; discriminate.
Qed.

(** *** interval against value *)
Lemma ivv_lt_points i v x : ivv_lt cmp i v = true -> has cmp i x -> lt cmp x v.
Proof.
  destruct i as [[[l u]|]]; [|intros _ []]. unfold has; rewrite mem_bounds. unfold ivv_lt; cbn. intros H [_ B].
  destruct u as [[u c]]; unfold uv_lt, vlt, veq, belowb in *; cbn in *.
  destruct (cmp u v) eqn:K, c; try discriminate; cbn in *; ord HL.
Qed.
Lemma ivv_gt_points i v x : ivv_gt cmp i v = true -> has cmp i x -> lt cmp v x.
Proof.
  destruct i as [[[l u]|]]; [|intros _ []]. unfold has; rewrite mem_bounds. unfold ivv_gt; cbn. intros H [B _].
  destruct l as [[l c]]; unfold lv_gt, vgt, veq, aboveb in *; cbn in *.
  destruct (cmp l v) eqn:K, c; try discriminate; cbn in *; ord HL.
Qed.
Lemma ivv_le_points i v x : ivv_le cmp i v = true -> has cmp i x -> le cmp x v.
Proof.
  destruct i as [[[l u]|]]; [|intros _ []]. unfold has; rewrite mem_bounds. unfold ivv_le; cbn. intros H [_ B].
  destruct u as [[u c]]; unfold uv_le, vle, belowb in *; cbn in *.
  destruct (cmp u v) eqn:K, c; try discriminate; cbn in *; ord HL.
Qed.
Lemma ivv_ge_points i v x : ivv_ge cmp i v = true -> has cmp i x -> le cmp v x.
Proof.
  destruct i as [[[l u]|]]; [|intros _ []]. unfold has; rewrite mem_bounds. unfold ivv_ge; cbn. intros H [B _].
  destruct l as [[l c]]; unfold lv_ge, vge, aboveb in *; cbn in *.
  destruct (cmp l v) eqn:K, c; try discriminate; cbn in *; ord HL.
Qed.
Lemma ivv_lt_complete i v (HD : dense cmp) : wf i -> iv_is_empty i = false ->
  (forall x, has cmp i x -> lt cmp x v) -> ivv_lt cmp i v = true.
Proof.
  intros W N H. destruct i as [[[l u]|]]; [|discriminate]. apply wf_ok1 in W. unfold ivv_lt; cbn.
  rewrite uv_lt_ge. destruct (uv_ge cmp u v) eqn:K; auto. exfalso.
  apply uv_ge_below in K.
  destruct (lv_le cmp l v) eqn:M.
  - apply lv_le_above in M. assert (lt cmp v v) by (apply H, mem_bounds; auto). ord HL.
  - destruct (ok_inhabited HL HD W) as (x & X1 & X2). assert (lt cmp x v) by (apply H, mem_bounds; auto).
    assert (lv_le cmp l v = true); [|congruence]. apply lv_le_above.
    destruct l as [[l c]]; unfold aboveb in *; destruct c; cbn in *; ord HL.
Qed.
Lemma ivv_gt_complete i v (HD : dense cmp) : wf i -> iv_is_empty i = false ->
  (forall x, has cmp i x -> lt cmp v x) -> ivv_gt cmp i v = true.
Proof.
  intros W N H. destruct i as [[[l u]|]]; [|discriminate]. apply wf_ok1 in W. unfold ivv_gt; cbn.
  rewrite lv_gt_le. destruct (lv_le cmp l v) eqn:K; auto. exfalso.
  apply lv_le_above in K.
  destruct (uv_ge cmp u v) eqn:M.
  - apply uv_ge_below in M. assert (lt cmp v v) by (apply H, mem_bounds; auto). ord HL.
  - destruct (ok_inhabited HL HD W) as (x & X1 & X2). assert (lt cmp v x) by (apply H, mem_bounds; auto).
    assert (uv_ge cmp u v = true); [|congruence]. apply uv_ge_below.
    destruct u as [[u c]]; unfold belowb in *; destruct c; cbn in *; ord HL.
Qed.
Lemma ivv_eq_spec i v : ivv_eq cmp i v = true <-> same cmp (iv_into_tuple i) (Some (v, true, v, true)).
Proof.
  destruct i as [[[[[l a]] [[u b]]]|]]; cbn; [|split; [discriminate|intros []]].
  unfold lv_eq, uv_eq, veq, ivv_eq, eqv; cbn. destruct (cmp l v), (cmp u v), a, b; cbn; split; try discriminate; auto;
  intros (?&?&?&?); discriminate.
Qed.
Lemma ivv_eq_points i v : ivv_eq cmp i v = true -> forall x, has cmp i x <-> eqv cmp x v.
Proof.
  rewrite ivv_eq_spec. destruct i as [[[[[l a]] [[u b]]]|]]; cbn; [|intros []]. intros (A & -> & B & ->) x.
  unfold has; cbn. split.
  - intros [? ?]; ord HL.
  - intros ?; split; ord HL.
Qed.
Lemma ivv_eq_complete i v (HD : dense cmp) : wf i -> (forall x, has cmp i x <-> eqv cmp x v) -> ivv_eq cmp i v = true.
Proof.
  intros W H. apply ivv_eq_spec. change (Some (v, true, v, true)) with (iv_into_tuple (iv_single v)).
  apply iv_eq_same.
  assert (S : forall x, has cmp (iv_single v) x <-> eqv cmp x v).
  { intros x; unfold has; cbn. split; [intros [? ?]; ord HL | intros ?; split; ord HL]. }
  apply (contains_antisym HL).
  - apply (contains_complete HL); auto; [cbn; right; repeat split; apply (cmp_refl HL)|].
    intros x X. apply H, S; auto.
  - apply (contains_complete HL); auto. intros x X. apply S, H; auto.
Qed.
Lemma ivv_pcmp i v : wf i ->
  (ivv_partial_cmp cmp i v = Some Lt <-> ivv_lt cmp i v = true) /\
  (ivv_partial_cmp cmp i v = Some Gt <-> ivv_gt cmp i v = true) /\
  (ivv_partial_cmp cmp i v = Some Eq <-> ivv_eq cmp i v = true).
Proof.
  intros W. unfold ivv_partial_cmp.
  destruct i as [[[[[l a]] [[u b]]]|]]; cbn; [|repeat split; intros; discriminate].
  apply wf_ok1 in W; unfold IVProofs.ok in W; cbn in W.
  unfold ivv_lt, ivv_gt, ivv_eq; cbn; unfold uv_lt, lv_gt, lv_eq, uv_eq, vlt, vgt, veq; cbn.
  destruct (cmp l v) eqn:K1, (cmp u v) eqn:K2;
   try (destruct W as [W|(W & -> & ->)]; ord HL); cbn; try (destruct a; cbn); try (destruct b; cbn);
   try (destruct W as [W|(W & W1 & W2)]; [ord HL|discriminate]);
   repeat split; auto; intros; discriminate.
Qed.

(** *** single *)
Lemma is_single_spec i : iv_is_single cmp i = true <->
  match iv_into_tuple i with Some (l, _, u, _) => eqv cmp l u | None => False end.
Proof.
  destruct i as [[[[[l a]] [[u b]]]|]]; cbn; [|split; [discriminate|intros []]].
  unfold veq, eqv; cbn. destruct (cmp l u); split; auto; discriminate.
Qed.
Lemma is_single_points i : wf i -> iv_is_single cmp i = true -> exists v, forall x, has cmp i x <-> eqv cmp x v.
Proof.
  rewrite is_single_spec. destruct i as [[[[[l a]] [[u b]]]|]]; cbn; [|intros _ []]. intros W E.
  destruct W as [W|(W & -> & ->)]; [ord HL|]. exists l. intros x; unfold has; cbn. split.
  - intros [? ?]; ord HL.
  - intros ?; split; ord HL.
Qed.
Lemma is_single_complete i (HD : dense cmp) : wf i -> (exists v, forall x, has cmp i x <-> eqv cmp x v) -> iv_is_single cmp i = true.
Proof.
  intros W (v & H). pose proof (@ivv_eq_complete i v HD W H) as K. apply ivv_eq_spec in K.
  apply is_single_spec. destruct i as [[[[[l a]] [[u b]]]|]]; cbn in *; [|destruct K]. destruct K as (A & _ & B & _). ord HL.
Qed.

(** *** separation *)
Lemma separated_spec l u : (exists x, ~ aboveb cmp l x /\ ~ belowb cmp u x) -> are_separated cmp l u = true.
Proof.
  intros (x & A & B). destruct (are_separated cmp l u) eqn:S; auto. exfalso.
  destruct (sep_points HL l u S x); auto.
Qed.
Lemma separated_gap l u (HD : dense cmp) : are_separated cmp l u = true -> exists x, ~ aboveb cmp l x /\ ~ belowb cmp u x.
Proof.
  destruct l as [[l a]], u as [[u b]]; unfold are_separated, vgt, veq, aboveb, belowb; cbn. intros S.
  destruct (cmp l u) eqn:K; cbn in S.
  - rewrite (ord_opp HL l u), K in S; cbn in S. destruct b, a; try discriminate. exists l; cbn.
    split; intros X; ord HL.
  - rewrite (ord_opp HL l u), K in S; discriminate.
  - apply (gt_lt HL) in K. destruct (HD _ _ K) as (z & Z1 & Z2). exists z.
    destruct a, b; cbn; split; intros X; ord HL.
Qed.

(** *** bounds: denser than points *)
Lemma lle_complete l m (HD : dense cmp) : (forall x, aboveb cmp m x -> aboveb cmp l x) -> lle l m.
Proof.
  intros H. apply (nlt_le LL). destruct l as [[l a]], m as [[m b]]; unfold lt, lower_cmp, aboveb in *; cbn in *. intros K.
  destruct (cmp m l) eqn:E; [| |discriminate].
  - destruct b, a; try discriminate; cbn in *. assert (lt cmp l m) by (apply H; ord HL). ord HL.
  - destruct b; cbn in *.
    + pose proof (H m (le_refl HL m)) as X. destruct a; cbn in X; ord HL.
    + destruct (HD _ _ E) as (z & Z1 & Z2). pose proof (H z Z1) as X. destruct a; cbn in X; ord HL.
Qed.
Lemma ule_complete l m (HD : dense cmp) : (forall x, belowb cmp l x -> belowb cmp m x) -> ule l m.
Proof.
  intros H. apply (nlt_le UL). destruct l as [[l a]], m as [[m b]]; unfold lt, upper_cmp, belowb in *; cbn in *. intros K.
  destruct (cmp m l) eqn:E; [| |discriminate].
  - destruct a, b; try discriminate; cbn in *. assert (lt cmp l m) by (apply H; ord HL). ord HL.
  - destruct a; cbn in *.
    + pose proof (H l (le_refl HL l)) as X. destruct b; cbn in X; ord HL.
    + destruct (HD _ _ E) as (z & Z1 & Z2). pose proof (H z Z2) as X. destruct b; cbn in X; ord HL.
Qed.

(** *** span: convex hull of the points *)
Lemma span_hull a b r x (HD : dense cmp) : wf a -> wf b -> iv_span cmp a b = Ret r ->
  has cmp r x <-> exists p q, (has cmp a p \/ has cmp b p) /\ (has cmp a q \/ has cmp b q) /\ le cmp p x /\ le cmp x q.
Proof.
  intros Wa Wb Hr. destruct (span_spec HL _ _ Wa Wb) as (r0 & r' & E & _ & _ & _ & _ & Ca & Cb & _).
  rewrite Hr in E; injection E as <-. split.
  - intros X.
    destruct b as [[[l2 u2]|]].
    2: { injection Hr as <-. exists x, x. repeat split; auto; apply (le_refl HL). }
    destruct a as [[[l1 u1]|]].
    2: { injection Hr as <-. exists x, x. repeat split; auto; apply (le_refl HL). }
    destruct (span_mk HL l1 u1 l2 u2) as (s & Hs & C). rewrite Hr in Hs; injection Hs as <-.
    destruct C as (l & u & [Il Hl] & [Iu Hu] & ->). apply mem_bounds in X. destruct X as [X1 X2].
    apply wf_ok1 in Wa; apply wf_ok1 in Wb.
    assert (P : forall l0 u0, ok l0 u0 -> aboveb cmp l0 x -> exists p, (aboveb cmp l0 p /\ belowb cmp u0 p) /\ le cmp p x).
    { intros l0 u0 O A. destruct (uv_ge cmp u0 x) eqn:G.
      - apply uv_ge_below in G. exists x; repeat split; auto. apply (le_refl HL).
      - destruct (ok_inhabited HL HD O) as (p & P1 & P2). exists p; repeat split; auto.
        apply (nlt_le HL). intros Q. assert (uv_ge cmp u0 x = true); [|congruence]. apply uv_ge_below.
        destruct u0 as [[u0 c]]; unfold belowb in *; destruct c; cbn in *; ord HL. }
    assert (Q : forall l0 u0, ok l0 u0 -> belowb cmp u0 x -> exists p, (aboveb cmp l0 p /\ belowb cmp u0 p) /\ le cmp x p).
    { intros l0 u0 O A. destruct (lv_le cmp l0 x) eqn:G.
      - apply lv_le_above in G. exists x; repeat split; auto. apply (le_refl HL).
      - destruct (ok_inhabited HL HD O) as (p & P1 & P2). exists p; repeat split; auto.
        apply (nlt_le HL). intros Q. assert (lv_le cmp l0 x = true); [|congruence]. apply lv_le_above.
        destruct l0 as [[l0 c]]; unfold aboveb in *; destruct c; cbn in *; ord HL. }
    assert (EP : exists p, (has cmp (mk l1 u1) p \/ has cmp (mk l2 u2) p) /\ le cmp p x).
    { cbn in Il. destruct Il as [<-|[<-|[]]];
      [destruct (P _ _ Wa X1) as (p & ? & ?)|destruct (P _ _ Wb X1) as (p & ? & ?)]; exists p; split; auto;
      unfold has; rewrite !mem_bounds; auto. }
    assert (EQ : exists q, (has cmp (mk l1 u1) q \/ has cmp (mk l2 u2) q) /\ le cmp x q).
    { cbn in Iu. destruct Iu as [<-|[<-|[]]];
      [destruct (Q _ _ Wa X2) as (p & ? & ?)|destruct (Q _ _ Wb X2) as (p & ? & ?)]; exists p; split; auto;
      unfold has; rewrite !mem_bounds; auto. }
    destruct EP as (p & ? & ?), EQ as (q & ? & ?). exists p, q; auto.
  - intros (p & q & Hp & Hq & L1 & L2).
    assert (Rp : has cmp r p) by (destruct Hp as [Hp|Hp]; [exact (@contains_points T cmp HL _ _ _ Ca Hp)|exact (@contains_points T cmp HL _ _ _ Cb Hp)]).
    assert (Rq : has cmp r q) by (destruct Hq as [Hq|Hq]; [exact (@contains_points T cmp HL _ _ _ Ca Hq)|exact (@contains_points T cmp HL _ _ _ Cb Hq)]).
    exact (@mem_convex T cmp HL _ _ _ _ Rp Rq L1 L2).
Qed.

(** *** algebraic laws *)
Notation same2 a b := (same cmp (iv_into_tuple a) (iv_into_tuple b)).

Lemma iv_eq_sym a b : iv_eq cmp a b = true -> iv_eq cmp b a = true.
Proof.
  rewrite !iv_eq_same. destruct (iv_into_tuple a) as [[[[? ?] ?] ?]|], (iv_into_tuple b) as [[[[? ?] ?] ?]|]; cbn; auto.
  intros (A & -> & B & ->). repeat split; ord HL.
Qed.
Lemma iv_eq_refl a : iv_eq cmp a a = true.
Proof. apply iv_eq_same, (same_refl HL). Qed.
Lemma iv_eq_trans a b c : iv_eq cmp a b = true -> iv_eq cmp b c = true -> iv_eq cmp a c = true.
Proof.
  rewrite !iv_eq_same. destruct (iv_into_tuple a) as [[[[? ?] ?] ?]|], (iv_into_tuple b) as [[[[? ?] ?] ?]|],
   (iv_into_tuple c) as [[[[? ?] ?] ?]|]; cbn; auto; try (intros []; fail); try (intros _ []; fail).
  intros (A & -> & B & ->) (A' & -> & B' & ->). repeat split; ord HL.
Qed.

Lemma inter_comm a b r r' : wf a -> wf b -> iv_intersection cmp a b = Ret r -> iv_intersection cmp b a = Ret r' -> iv_eq cmp r r' = true.
Proof.
  intros Wa Wb Hr Hr'.
  destruct a as [[[l1 u1]|]].
  2: { rewrite inter_none_l in Hr. rewrite inter_none_r in Hr'. injection Hr as <-; injection Hr' as <-. reflexivity. }
  destruct b as [[[l2 u2]|]].
  2: { rewrite inter_none_r in Hr. rewrite inter_none_l in Hr'. injection Hr as <-; injection Hr' as <-. reflexivity. }
  apply wf_ok1 in Wa; apply wf_ok1 in Wb.
  destruct (inter_mk HL Wa Wb) as (s & Hs & C). destruct (inter_mk HL Wb Wa) as (s' & Hs' & C').
  assert (s = r) by congruence. assert (s' = r') by congruence. subst.
  apply iv_eq_same. apply (inter_char_same HL C). eapply inter_char_perm; [| |exact C']; intros; cbn; tauto.
Qed.
Lemma inter_idem a r : wf a -> iv_intersection cmp a a = Ret r -> iv_eq cmp r a = true.
Proof.
  intros Wa Hr. destruct a as [[[l u]|]]; [|injection Hr as <-; reflexivity]. apply wf_ok1 in Wa.
  destruct (inter_mk HL Wa Wa) as (s & Hs & C). assert (s = r) by congruence; subst.
  apply iv_eq_same, (inter_char_same HL C). exists l, u. split; [|split; [|left; auto]].
  - split; [cbn; auto|]. intros m [<-|[<-|[]]]; apply (le_refl LL).
  - split; [cbn; auto|]. intros m [<-|[<-|[]]]; apply (le_refl UL).
Qed.

Lemma char_assoc_l l1 u1 l2 u2 l3 u3 s r : ok l3 u3 -> inter_char cmp [l1; l2] [u1; u2] s ->
  iv_intersection cmp s (mk l3 u3) = Ret r -> inter_char cmp [l1; l2; l3] [u1; u2; u3] r.
Proof.
  intros O3 (l & u & [Il Hl] & [Iu Hu] & H) Hr.
  destruct H as [[-> O]|[-> N]].
  - destruct (inter_mk HL O O3) as (s & Hs & (l' & u' & [Il' Hl'] & [Iu' Hu'] & H)). assert (s = r) by congruence; subst.
    exists l', u'. split; [|split; auto].
    + split.
      * cbn in Il', Il |- *. destruct Il' as [<-|[<-|[]]]; [|tauto]. tauto.
      * assert (lle l l') by (apply Hl'; cbn; auto). assert (lle l3 l') by (apply Hl'; cbn; auto).
        intros m [<-|[<-|[<-|[]]]]; auto; apply (@le_trans _ _ LL _ l _); auto; apply Hl; cbn; auto.
    + split.
      * cbn in Iu', Iu |- *. destruct Iu' as [<-|[<-|[]]]; [|tauto]. tauto.
      * assert (ule u' u) by (apply Hu'; cbn; auto). assert (ule u' u3) by (apply Hu'; cbn; auto).
        intros m [<-|[<-|[<-|[]]]]; auto; apply (@le_trans _ _ UL _ u _); auto; apply Hu; cbn; auto.
  - rewrite inter_none_l in Hr. injection Hr as <-.
    pose proof (lmax_is HL l l3) as [Il' Hl']. pose proof (umin_is HL u u3) as [Iu' Hu'].
    set (l' := lower_max cmp l l3) in *. set (u' := upper_min cmp u u3) in *.
    assert (lle l l') by (apply Hl'; cbn; auto). assert (lle l3 l') by (apply Hl'; cbn; auto).
    assert (ule u' u) by (apply Hu'; cbn; auto). assert (ule u' u3) by (apply Hu'; cbn; auto).
    exists l', u'. split; [|split; [|right; split; auto]].
    + split.
      * cbn in Il', Il |- *. destruct Il' as [<-|[<-|[]]]; [|tauto]. tauto.
      * intros m [<-|[<-|[<-|[]]]]; auto; apply (@le_trans _ _ LL _ l _); auto; apply Hl; cbn; auto.
    + split.
      * cbn in Iu', Iu |- *. destruct Iu' as [<-|[<-|[]]]; [|tauto]. tauto.
      * intros m [<-|[<-|[<-|[]]]]; auto; apply (@le_trans _ _ UL _ u _); auto; apply Hu; cbn; auto.
    + intros O. apply N. eapply (ok_mono HL); eauto.
Qed.

Lemma inter_assoc a b c ab bc r r' : wf a -> wf b -> wf c ->
  iv_intersection cmp a b = Ret ab -> iv_intersection cmp ab c = Ret r ->
  iv_intersection cmp b c = Ret bc -> iv_intersection cmp a bc = Ret r' -> iv_eq cmp r r' = true.
Proof.
  intros Wa Wb Wc H1 H2 H3 H4.
  destruct a as [[[l1 u1]|]].
  2: { rewrite inter_none_l in H1, H4. injection H1 as <-. rewrite inter_none_l in H2. injection H2 as <-; injection H4 as <-. reflexivity. }
  destruct b as [[[l2 u2]|]].
  2: { rewrite inter_none_r in H1. rewrite inter_none_l in H3. injection H1 as <-; injection H3 as <-.
       rewrite inter_none_l in H2. rewrite inter_none_r in H4. injection H2 as <-; injection H4 as <-. reflexivity. }
  destruct c as [[[l3 u3]|]].
  2: { rewrite inter_none_r in H2, H3. injection H2 as <-; injection H3 as <-. rewrite inter_none_r in H4. injection H4 as <-. reflexivity. }
  pose proof Wa as Oa; pose proof Wb as Ob; pose proof Wc as Oc. apply wf_ok1 in Oa; apply wf_ok1 in Ob; apply wf_ok1 in Oc.
  destruct (inter_mk HL Oa Ob) as (s & Hs & C). assert (s = ab) by congruence; subst s.
  destruct (inter_mk HL Ob Oc) as (s & Hs' & C'). assert (s = bc) by congruence; subst s.
  pose proof (@char_assoc_l _ _ _ _ _ _ _ _ Oc C H2) as D.
  assert (Wbc : wf bc) by (eapply inter_char_wf; eauto).
  destruct (intersection_spec HL bc (mk l1 u1) Wbc Wa) as (r2 & _ & H5 & _).
  pose proof (@char_assoc_l _ _ _ _ _ _ _ _ Oa C' H5) as D'.
  apply iv_eq_trans with r2.
  - apply iv_eq_same, (inter_char_same HL D). eapply inter_char_perm; [| |exact D']; intros; cbn; tauto.
  - eapply inter_comm; [exact Wbc|exact Wa|exact H5|exact H4].
Qed.

Lemma span_comm a b r r' : iv_span cmp a b = Ret r -> iv_span cmp b a = Ret r' -> iv_eq cmp r r' = true.
Proof.
  intros Hr Hr'.
  destruct a as [[[l1 u1]|]], b as [[[l2 u2]|]]; try (injection Hr as <-; injection Hr' as <-; apply iv_eq_refl).
  destruct (span_mk HL l1 u1 l2 u2) as (s & Hs & C). destruct (span_mk HL l2 u2 l1 u1) as (s' & Hs' & C').
  assert (s = r) by congruence; assert (s' = r') by congruence; subst.
  apply iv_eq_same, (span_char_same HL C). eapply span_char_perm; [| |exact C']; intros; cbn; tauto.
Qed.
Lemma span_idem a r : iv_span cmp a a = Ret r -> iv_eq cmp r a = true.
Proof.
  intros Hr. destruct a as [[[l u]|]]; [|injection Hr as <-; reflexivity].
  destruct (span_mk HL l u l u) as (s & Hs & C). assert (s = r) by congruence; subst.
  apply iv_eq_same, (span_char_same HL C). exists l, u. split; [|split; auto].
  - split; [cbn; auto|]. intros m [<-|[<-|[]]]; apply (le_refl LL).
  - split; [cbn; auto|]. intros m [<-|[<-|[]]]; apply (le_refl UL).
Qed.
(** by the universal property of span *)
Lemma span_assoc a b c ab bc r r' : wf a -> wf b -> wf c ->
  iv_span cmp a b = Ret ab -> iv_span cmp ab c = Ret r ->
  iv_span cmp b c = Ret bc -> iv_span cmp a bc = Ret r' -> iv_eq cmp r r' = true.
Proof.
  intros Wa Wb Wc H1 H2 H3 H4.
  destruct (span_spec HL _ _ Wa Wb) as (s & _ & E & _ & _ & W1 & _ & A1 & A2 & A3). assert (s = ab) by congruence; subst s; clear E.
  destruct (span_spec HL _ _ Wb Wc) as (s & _ & E & _ & _ & W2 & _ & B1 & B2 & B3). assert (s = bc) by congruence; subst s; clear E.
  destruct (span_spec HL _ _ W1 Wc) as (s & _ & E & _ & _ & W3 & _ & C1 & C2 & C3). assert (s = r) by congruence; subst s; clear E.
  destruct (span_spec HL _ _ Wa W2) as (s & _ & E & _ & _ & W4 & _ & D1 & D2 & D3). assert (s = r') by congruence; subst s; clear E.
  pose proof (contains_trans HL) as TR.
  apply (contains_antisym HL).
  - apply D3; [eapply TR; eauto|]. apply B3; eauto.
  - apply C3; eauto.
Qed.

Lemma inter_contained a b r : wf a -> wf b -> iv_intersection cmp a b = Ret r ->
  iv_contains_interval cmp a r = true /\ iv_contains_interval cmp b r = true /\
  forall c, iv_contains_interval cmp a c = true -> iv_contains_interval cmp b c = true -> wf c -> iv_contains_interval cmp r c = true.
Proof.
  intros Wa Wb Hr. destruct a as [[[l1 u1]|]].
  2: { injection Hr as <-. split; [reflexivity|]. split; [destruct b as [[[? ?]|]]; reflexivity|]. intros c A _ _; exact A. }
  destruct b as [[[l2 u2]|]].
  2: { rewrite inter_none_r in Hr; injection Hr as <-. split; [reflexivity|]. split; [reflexivity|]. intros c _ A _; exact A. }
  apply wf_ok1 in Wa; apply wf_ok1 in Wb.
  destruct (inter_mk HL Wa Wb) as (s & Hs & C). assert (s = r) by congruence; subst.
  destruct C as (l & u & [Il Hl] & [Iu Hu] & H).
  assert (lle l1 l) by (apply Hl; cbn; auto). assert (lle l2 l) by (apply Hl; cbn; auto).
  assert (ule u u1) by (apply Hu; cbn; auto). assert (ule u u2) by (apply Hu; cbn; auto).
  destruct H as [[-> O]|[-> N]].
  - rewrite !(contains_mk HL). split; auto. split; auto. intros [[[l' u']|]]; auto. rewrite !(contains_mk HL).
    intros [A B] [A' B'] _. cbn in Il, Iu. destruct Il as [<-|[<-|[]]], Iu as [<-|[<-|[]]]; auto.
  - split; auto. split; auto. intros [[[l' u']|]]; auto. rewrite !(contains_mk HL). intros [A B] [A' B'] W.
    apply wf_ok1 in W. exfalso; apply N.
    assert (lle l l') by (cbn in Il; destruct Il as [<-|[<-|[]]]; auto).
    assert (ule u' u) by (cbn in Iu; destruct Iu as [<-|[<-|[]]]; auto).
    eapply (ok_mono HL); eauto.
Qed.

Lemma absorb_inter_span a b s r : wf a -> wf b -> iv_span cmp a b = Ret s -> iv_intersection cmp a s = Ret r -> iv_eq cmp r a = true.
Proof.
  intros Wa Wb Hs Hr.
  destruct (span_spec HL _ _ Wa Wb) as (s' & _ & E & _ & _ & W1 & _ & A1 & A2 & A3). assert (s' = s) by congruence; subst s'; clear E.
  destruct (@inter_contained a s r Wa W1 Hr) as (B1 & B2 & B3).
  apply (contains_antisym HL); auto. apply B3; auto. apply (contains_refl HL).
Qed.
Lemma absorb_span_inter a b s r : wf a -> wf b -> iv_intersection cmp a b = Ret s -> iv_span cmp a s = Ret r -> iv_eq cmp r a = true.
Proof.
  intros Wa Wb Hs Hr.
  destruct (intersection_spec HL _ _ Wa Wb) as (s' & _ & E & _ & _ & W1 & _). assert (s' = s) by congruence; subst s'; clear E.
  destruct (@inter_contained a b s Wa Wb Hs) as (B1 & B2 & B3).
  destruct (span_spec HL _ _ Wa W1) as (s' & _ & E & _ & _ & _ & _ & A1 & A2 & A3). assert (s' = r) by congruence; subst s'; clear E.
  apply (contains_antisym HL); auto. apply A3; auto. apply (contains_refl HL).
Qed.
End Facts.
