(** Property theorems C34-C39 and C41: interval arithmetic and display. *)
From Coq Require Import ZArith QArith Lia Lqa String Ascii.
From Verif Require Import Base IVModel IVSpec IVRun IVProofs IVProofs2 IVProofs3 IVProofs4 IVProofs5 IVProps1.
Local Open Scope Z_scope.

(** the interval of [f] applied to both values, with their flags *)
Definition up_ends {T} (f : T -> T) (t : option (T * bool * T * bool)) :=
  match t with Some (l, lc, u, uc) => Some (f l, lc, f u, uc) | None => None end.
(** the same with the ends exchanged *)
Definition down_ends {T} (f : T -> T) (t : option (T * bool * T * bool)) :=
  match t with Some (l, lc, u, uc) => Some (f u, uc, f l, lc) | None => None end.
(** both values are mapped into the range of the integer type *)
Definition no_overflow (I : int_type) (f : Z -> Z) (t : option (Z * bool * Z * bool)) : Prop :=
  match t with Some (l, _, u, _) => in_range I (f l) /\ in_range I (f u) | None => True end.
Notation zob := (obtainable Z.compare).
Notation zhas := (has Z.compare).
Notation qob := (obtainable Qcompare).
Notation qhas := (has Qcompare).

(** ** C34 *)
Theorem c34_translation : forall I i k, zob i ->
  (no_overflow I (fun x => x + k) (iv_into_tuple i) ->
   exists j, iv_add Z.compare (int_add I) i k = Ret j /\ iv_into_tuple j = up_ends (fun x => x + k) (iv_into_tuple i) /\
     forall x, zhas i x <-> zhas j (x + k)) /\
  (no_overflow I (fun x => x - k) (iv_into_tuple i) ->
   exists j, iv_sub Z.compare (int_sub I) i k = Ret j /\ iv_into_tuple j = up_ends (fun x => x - k) (iv_into_tuple i) /\
     forall x, zhas i x <-> zhas j (x - k)).
Proof.
  intros I i k Ho. pose proof (obtainable_wf Z_ord Ho) as W. rewrite iv_add_map, iv_sub_map. split; intros F.
  - exact (@map_up I (fun x => x + k) i ltac:(cbv beta; intros; lia) W F).
  - exact (@map_up I (fun x => x - k) i ltac:(cbv beta; intros; lia) W F).
Qed.
Print Assumptions c34_translation.

(** (I + k) - k = I and (I - k) + k = I, exactly *)
Theorem c34_translation_inverse : forall I i k, zob i ->
  no_overflow I (fun x => x) (iv_into_tuple i) ->
  (forall j, no_overflow I (fun x => x + k) (iv_into_tuple i) ->
   iv_add Z.compare (int_add I) i k = Ret j -> iv_sub Z.compare (int_sub I) j k = Ret i) /\
  (forall j, no_overflow I (fun x => x - k) (iv_into_tuple i) ->
   iv_sub Z.compare (int_sub I) i k = Ret j -> iv_add Z.compare (int_add I) j k = Ret i).
Proof.
  intros I i k Ho F.
  destruct (@c34_translation I i k Ho) as [A B]. split; intros j G H.
  - destruct (A G) as (j' & Hj & Ht & _). rewrite Hj in H; injection H as <-.
    assert (Hj' : zob j') by (eapply ob_add; eauto).
    destruct (@c34_translation I j' k Hj') as [_ C].
    destruct C as (i' & Hi & Ht' & _).
    + rewrite Ht. destruct (ivt_eta i) as [->|(l & lc & u & uc & ->)]; [exact Logic.I|]. cbn in *.
      now rewrite !Z.add_simpl_r.
    + rewrite Hi. f_equal. rewrite Ht in Ht'.
      destruct (ivt_eta i) as [->|(l & lc & u & uc & ->)], (ivt_eta i') as [->|(l' & lc' & u' & uc' & ->)]; auto; try discriminate.
      cbn in Ht'. rewrite !Z.add_simpl_r in Ht'. injection Ht' as -> -> -> ->. reflexivity.
  - destruct (B G) as (j' & Hj & Ht & _). rewrite Hj in H; injection H as <-.
    assert (Hj' : zob j') by (eapply ob_sub; eauto).
    destruct (@c34_translation I j' k Hj') as [C _].
    destruct C as (i' & Hi & Ht' & _).
    + rewrite Ht. destruct (ivt_eta i) as [->|(l & lc & u & uc & ->)]; [exact Logic.I|]. cbn in *.
      now rewrite !Z.sub_add.
    + rewrite Hi. f_equal. rewrite Ht in Ht'.
      destruct (ivt_eta i) as [->|(l & lc & u & uc & ->)], (ivt_eta i') as [->|(l' & lc' & u' & uc' & ->)]; auto; try discriminate.
      cbn in Ht'. rewrite !Z.sub_add in Ht'. injection Ht' as -> -> -> ->. reflexivity.
Qed.
Print Assumptions c34_translation_inverse.

Theorem c34_translation_rational : forall i k, qob i ->
  (exists j, iv_add Qcompare q_add i k = Ret j /\ forall x, qhas i x <-> qhas j (x + k)%Q) /\
  (exists j, iv_sub Qcompare q_sub i k = Ret j /\ forall x, qhas i x <-> qhas j (x - k)%Q) /\
  (exists j i', iv_add Qcompare q_add i k = Ret j /\ iv_sub Qcompare q_sub j k = Ret i' /\ iv_eq Qcompare i' i = true).
Proof.
  intros i k Ho. pose proof (obtainable_wf Q_ord Ho) as W. rewrite iv_add_map, iv_sub_map.
  destruct (@qmap_up (fun x => x + k)%Q i ltac:(cbv beta; intros; split; lra) W) as (j & J1 & J2 & J3).
  destruct (@qmap_up (fun x => x - k)%Q i ltac:(cbv beta; intros; split; lra) W) as (j' & J1' & J2' & J3').
  split; [exists j; auto|]. split; [exists j'; auto|].
  assert (Hj : qob j) by (eapply ob_add with (f := q_add); [exact Ho|]; rewrite iv_add_map; exact J1).
  destruct (@qmap_up (fun x => x - k)%Q j ltac:(cbv beta; intros; split; lra) (obtainable_wf Q_ord Hj)) as (i' & I1 & I2 & I3).
  exists j, i'. split; auto. split; [rewrite iv_sub_map; exact I1|]. apply iv_eq_same. rewrite I2, J2.
  destruct (ivt_eta i) as [->|(l & lc & u & uc & ->)]; [exact Logic.I|]. cbn. repeat split; apply Q_eqv; lra.
Qed.
Print Assumptions c34_translation_rational.

(** [+=] and [-=] against [+] and [-], for any element type *)
Theorem c34_assign_agrees : forall T U (cmp : T -> T -> comparison) (op : T -> U -> outcome T) i k j,
  (iv_add cmp op i k = Ret j <-> iv_add_assign cmp (assign_of op) i k = (j, Ret tt)) /\
  (iv_sub cmp op i k = Ret j <-> iv_sub_assign cmp (assign_of op) i k = (j, Ret tt)).
Proof.
  intros. rewrite iv_add_map, iv_sub_map, iv_add_assign_map, iv_sub_assign_map. split; apply map_assign_same.
Qed.
Print Assumptions c34_assign_agrees.

Example c34_ex : iv_add Z.compare (int_add (i32 true)) (zt 1 true 3 false) (-5) = Ret (zt (-4) true (-2) false) /\
  iv_sub Z.compare (int_sub (i32 true)) (zt (-4) true (-2) false) (-5) = Ret (zt 1 true 3 false) /\
  no_overflow (i32 true) (fun x => x + -5) (iv_into_tuple (zt 1 true 3 false)) /\ zob (zt 1 true 3 false) /\
  iv_add Z.compare (int_add (u8 true)) (zt 100 true 200 true) 100 = Panic /\
  iv_add_assign Z.compare (assign_of (int_add (i32 true))) (zt 1 true 3 false) (-5) = (zt (-4) true (-2) false, Ret tt) /\
  iv_add Qcompare q_add (qt (1#2) true 3 false) (1#2) = Ret (qt (4#4) true (7#2) false) /\ qob (qt (1#2) true 3 false).
Proof.
  split; [reflexivity|]. split; [reflexivity|]. split; [cbn; unfold in_range; cbn; lia|]. split; [ob|].
  split; [reflexivity|]. split; [reflexivity|]. split; [reflexivity|ob].
Qed.

(** ** C35 *)
Theorem c35_scaling_partial : forall I i k, zob i -> k <> 0 ->
  no_overflow I (fun x => x * k) (iv_into_tuple i) ->
  exists j, iv_mul Z.compare (int_mul I) i k = Ret j /\
    iv_into_tuple j = (if 0 <? k then up_ends (fun x => x * k) (iv_into_tuple i) else down_ends (fun x => x * k) (iv_into_tuple i)) /\
    forall x, zhas i x <-> zhas j (x * k).
Proof.
  intros I i k Ho N F. pose proof (obtainable_wf Z_ord Ho) as W. rewrite iv_mul_map. destruct (Z.ltb_spec 0 k) as [K|K].
  - exact (@map_up I (fun x => x * k) i ltac:(cbv beta; intros; nia) W F).
  - exact (@map_down I (fun x => x * k) i ltac:(cbv beta; intros; nia) W F).
Qed.
Print Assumptions c35_scaling_partial.

(** scaling by 0: the point 0 when both ends are closed, otherwise nothing *)
Theorem c35_scaling_zero_partial : forall I i, in_range I 0 ->
  iv_mul Z.compare (int_mul I) i 0 =
  match iv_into_tuple i with
  | Some (_, true, _, true) => Ret (iv_single 0)
  | _ => Ret (iv_empty Z)
  end.
Proof.
  intros I i R. rewrite iv_mul_map. destruct (ivt_eta i) as [->|(l & lc & u & uc & ->)]; [reflexivity|].
  rewrite iv_map_ivt. unfold int_mul. rewrite !Z.mul_0_r, !int_result_in by auto. destruct lc, uc; reflexivity.
Qed.
Print Assumptions c35_scaling_zero_partial.

(** (1,3) * 0 is empty, although 2 * 0 = 0 *)
Theorem c35_scaling_zero_refuted : exists i j, zob i /\ zhas i 2 /\
  iv_mul Z.compare (int_mul (i32 true)) i 0 = Ret j /\ ~ zhas j (2 * 0).
Proof.
  exists (zt 1 false 3 false), zempty. split; [ob|]. split; [split; reflexivity|]. split; [reflexivity|intros []].
Qed.
Print Assumptions c35_scaling_zero_refuted.

Theorem c35_scaling_rational_partial : forall i k, qob i -> ~ (k == 0)%Q ->
  exists j, iv_mul Qcompare q_mul i k = Ret j /\ forall x, qhas i x <-> qhas j (x * k)%Q.
Proof.
  intros i k Ho N. pose proof (obtainable_wf Q_ord Ho) as W. rewrite iv_mul_map.
  destruct (Qlt_le_dec 0 k) as [K|K].
  - destruct (@qmap_up (fun x => x * k)%Q i) as (j & J1 & _ & J3); auto; [|exists j; auto].
    intros x y. symmetry. apply Qmult_lt_r; auto.
  - destruct (@qmap_down (fun x => x * k)%Q i) as (j & J1 & _ & J3); auto; [|exists j; auto].
    assert (K' : (0 < - k)%Q) by (destruct (Qle_lt_or_eq _ _ K); [lra|exfalso; apply N; lra]).
    intros x y. rewrite <- (Qmult_lt_r x y (- k)) by auto.
    assert (E : forall z, (z * - k == - (z * k))%Q) by (intros; ring). rewrite !E. split; lra.
Qed.
Print Assumptions c35_scaling_rational_partial.

Theorem c35_assign_agrees : forall T U (cmp : T -> T -> comparison) (op : T -> U -> outcome T) i k j,
  iv_mul cmp op i k = Ret j <-> iv_mul_assign cmp (assign_of op) i k = (j, Ret tt).
Proof. intros. rewrite iv_mul_map, iv_mul_assign_map. apply map_assign_same. Qed.
Print Assumptions c35_assign_agrees.

Example c35_ex : iv_mul Z.compare (int_mul (i32 true)) (zt 1 true 3 false) (-2) = Ret (zt (-6) false (-2) true) /\
  no_overflow (i32 true) (fun x => x * -2) (iv_into_tuple (zt 1 true 3 false)) /\ zob (zt 1 true 3 false) /\
  iv_mul Z.compare (int_mul (i32 true)) (zt 1 true 3 true) 0 = Ret (iv_single 0) /\
  iv_mul Qcompare q_mul (qt 1 true 3 false) (-1#2) = Ret (qt (-3#2) false (-1#2) true) /\ qob (qt 1 true 3 false).
Proof.
  split; [reflexivity|]. split; [cbn; unfold in_range; cbn; lia|]. split; [ob|].
  split; [reflexivity|]. split; [reflexivity|ob].
Qed.

(** ** C36 *)
Theorem c36_division_rational_partial : forall i k, qob i -> ~ (k == 0)%Q ->
  exists j, iv_div Qcompare q_div i k = Ret j /\ forall x, qhas i x <-> qhas j (x / k)%Q.
Proof.
  intros i k Ho N. pose proof (obtainable_wf Q_ord Ho) as W. rewrite iv_div_map.
  assert (E0 : forall x, q_div x k = Ret (x / k)%Q).
  { intros x. unfold q_div. destruct (Qeq_bool k 0) eqn:B; auto. apply Qeq_bool_eq in B. contradiction. }
  assert (E1 : iv_map Qcompare (fun x => q_div x k) i = iv_map Qcompare (fun x => Ret (x / k)%Q) i).
  { destruct (ivt_eta i) as [->|(l & lc & u & uc & ->)]; [reflexivity|]. rewrite !iv_map_ivt, !E0. reflexivity. }
  rewrite E1.
  destruct (Qlt_le_dec 0 k) as [K|K].
  - destruct (@qmap_up (fun x => x / k)%Q i) as (j & J1 & _ & J3); auto; [|exists j; auto].
    intros x y. symmetry. unfold Qdiv. apply Qmult_lt_r. apply Qinv_lt_0_compat; auto.
  - destruct (@qmap_down (fun x => x / k)%Q i) as (j & J1 & _ & J3); auto; [|exists j; auto].
    assert (K' : (0 < - k)%Q) by (destruct (Qle_lt_or_eq _ _ K); [lra|exfalso; apply N; lra]).
    intros x y. rewrite <- (Qmult_lt_r x y (/ - k)) by (apply Qinv_lt_0_compat; auto).
    assert (E : forall z, (z * / - k == - (z / k))%Q) by (intros; field; auto). rewrite !E. split; lra.
Qed.
Print Assumptions c36_division_rational_partial.

(** truncating integer division, closed ends, divisor not 0: no point is lost *)
Theorem c36_division_closed_partial : forall I i k l u j, zob i -> iv_into_tuple i = Some (l, true, u, true) ->
  iv_div Z.compare (int_div I) i k = Ret j -> forall x, zhas i x -> zhas j (Z.quot x k).
Proof.
  intros I i k l u j Ho Ht Hd x Hx. pose proof (obtainable_wf Z_ord Ho) as W.
  destruct (ivt_eta i) as [->|(l0 & lc & u0 & uc & ->)]; [discriminate|]. injection Ht as -> -> -> ->.
  rewrite iv_div_map, iv_map_ivt in Hd. unfold int_div in Hd.
  destruct (Z.eqb_spec k 0) as [->|K]; [discriminate|].
  destruct ((imin I <=? Z.quot u k) && (Z.quot u k <=? imax I)); [|discriminate]. cbn [obind] in Hd.
  destruct ((imin I <=? Z.quot l k) && (Z.quot l k <=? imax I)); [|discriminate]. cbn [obind] in Hd.
  injection Hd as <-. unfold has in *. cbn in Hx. destruct Hx as [Hx1 Hx2]. change (l <= x) in Hx1. change (x <= u) in Hx2.
  destruct (Z.lt_trichotomy k 0) as [K0|[K0|K0]]; [|contradiction|].
  - assert (A : Z.quot u k <= Z.quot x k <= Z.quot l k).
    { assert (P : 0 < - k) by lia.
      pose proof (Z.quot_le_mono x u (- k) P Hx2) as A1. pose proof (Z.quot_le_mono l x (- k) P Hx1) as A2.
      rewrite !Z.quot_opp_r in A1, A2 by auto. clear - A1 A2. lia. }
    destruct (Z.eq_dec (Z.quot l k) (Z.quot u k)) as [E|E].
    + rewrite fix_eq by (apply Z_eqv; auto). cbn. split; [change (Z.quot l k <= Z.quot x k)|change (Z.quot x k <= Z.quot u k)]; lia.
    + rewrite (fix_gt Z_ord) by (change (Z.quot u k < Z.quot l k); lia). exact A.
  - assert (A : Z.quot l k <= Z.quot x k <= Z.quot u k) by (split; apply Z.quot_le_mono; lia).
    destruct (Z.eq_dec (Z.quot l k) (Z.quot u k)) as [E|E].
    + rewrite fix_eq by (apply Z_eqv; auto). cbn. split; [change (Z.quot l k <= Z.quot x k)|change (Z.quot x k <= Z.quot u k)]; lia.
    + rewrite fix_lt by (change (Z.quot l k < Z.quot u k); lia). exact A.
Qed.
Print Assumptions c36_division_closed_partial.

(** division by zero panics, whatever the non-empty interval *)
Theorem c36_division_by_zero : forall I i, iv_is_empty i = false -> iv_div Z.compare (int_div I) i 0 = Panic.
Proof. intros I i H. destruct (ivt_eta i) as [->|(l & lc & u & uc & ->)]; [discriminate|reflexivity]. Qed.
Print Assumptions c36_division_by_zero.

(** 3 is in (2,4), but 3/2 = 1 is not in (2,4)/2 = (1,2) *)
Theorem c36_division_open_refuted : exists i j, zob i /\ zhas i 3 /\
  iv_div Z.compare (int_div (i32 true)) i 2 = Ret j /\ iv_into_tuple j = Some (1, false, 2, false) /\ ~ zhas j (Z.quot 3 2).
Proof.
  exists (zt 2 false 4 false), (zt 1 false 2 false). split; [ob|]. split; [split; reflexivity|]. split; [reflexivity|].
  split; [reflexivity|]. intros [A _]. discriminate A.
Qed.
Print Assumptions c36_division_open_refuted.

Theorem c36_assign_agrees : forall T U (cmp : T -> T -> comparison) (op : T -> U -> outcome T) i k j,
  iv_div cmp op i k = Ret j <-> iv_div_assign cmp (assign_of op) i k = (j, Ret tt).
Proof. intros. rewrite iv_div_map, iv_div_assign_map. apply map_assign_same. Qed.
Print Assumptions c36_assign_agrees.

Example c36_ex : iv_div Z.compare (int_div (i32 true)) (zt (-7) true 9 true) (-2) = Ret (zt (-4) true 3 true) /\
  zob (zt (-7) true 9 true) /\ zhas (zt (-7) true 9 true) 8 /\
  iv_div Qcompare q_div (qt 1 true 3 false) (-2)%Q = Ret (qt (-3#2) false (-1#2) true) /\
  iv_div Z.compare (int_div (i32 true)) (zt 2 true 4 true) 0 = Panic /\
  iv_div Z.compare (int_div (i32 true)) zempty 0 = Ret zempty.
Proof.
  split; [reflexivity|]. split; [ob|]. split; [split; discriminate|]. repeat split.
Qed.

(** ** C37 *)
Lemma iv_neg_ivt : forall T (cmp : T -> T -> comparison) neg l lc u uc, iv_neg cmp neg (ivt l lc u uc) =
  obind (neg u) (fun u' => obind (neg l) (fun l' => Ret (fix_after_modification cmp (ivt u' uc l' lc)))).
Proof. reflexivity. Qed.

Theorem c37_negation : forall I i, zob i -> no_overflow I Z.opp (iv_into_tuple i) ->
  exists j, iv_neg Z.compare (int_neg I) i = Ret j /\ iv_into_tuple j = down_ends Z.opp (iv_into_tuple i) /\
    (forall x, zhas i x <-> zhas j (- x)).
Proof.
  intros I i Ho F. pose proof (obtainable_wf Z_ord Ho) as W.
  destruct (ivt_eta i) as [->|(l & lc & u & uc & ->)].
  { exists zempty. repeat split; auto; intros []. }
  destruct F as [F1 F2]. cbn in F1, F2.
  rewrite iv_neg_ivt. unfold int_neg. rewrite !int_result_in by auto. cbn [obind]. eexists; split; [reflexivity|].
  assert (E : iv_into_tuple (fix_after_modification Z.compare (ivt (- u) uc (- l) lc)) = Some (- u, uc, - l, lc)).
  { destruct W as [W|(W & W1 & W2)]; cbn in W.
    - apply fix_lt. change (l < u) in W. change (- u < - l). lia.
    - cbn in W1, W2. apply Z_eqv in W. subst. rewrite fix_eq; auto. apply Z_eqv; auto. }
  split; [exact E|]. intros x. unfold has. rewrite E. cbn.
  destruct lc, uc; zpts; lia.
Qed.
Print Assumptions c37_negation.

Theorem c37_negation_involutive : forall I i j, zob i -> no_overflow I Z.opp (iv_into_tuple i) ->
  no_overflow I (fun x => x) (iv_into_tuple i) ->
  iv_neg Z.compare (int_neg I) i = Ret j -> iv_neg Z.compare (int_neg I) j = Ret i.
Proof.
  intros I i j Ho F G H. destruct (@c37_negation I i Ho F) as (j' & Hj & Ht & _). rewrite Hj in H; injection H as <-.
  assert (Hj' : zob j') by (eapply ob_neg; eauto).
  destruct (@c37_negation I j' Hj') as (i' & Hi & Ht' & _).
  - rewrite Ht. destruct (ivt_eta i) as [->|(l & lc & u & uc & ->)]; [exact Logic.I|]. cbn in *. rewrite !Z.opp_involutive. tauto.
  - rewrite Hi. f_equal. rewrite Ht in Ht'.
    destruct (ivt_eta i) as [->|(l & lc & u & uc & ->)], (ivt_eta i') as [->|(l' & lc' & u' & uc' & ->)]; auto; try discriminate.
    cbn in Ht'. rewrite !Z.opp_involutive in Ht'. injection Ht' as -> -> -> ->. reflexivity.
Qed.
Print Assumptions c37_negation_involutive.

Theorem c37_negation_rational : forall i, qob i ->
  exists j, iv_neg Qcompare q_neg i = Ret j /\ forall x, qhas i x <-> qhas j (- x)%Q.
Proof.
  intros i Ho. pose proof (obtainable_wf Q_ord Ho) as W.
  destruct (ivt_eta i) as [->|(l & lc & u & uc & ->)].
  { exists qempty. repeat split; auto; intros []. }
  rewrite iv_neg_ivt. unfold q_neg; cbn [obind]. eexists; split; [reflexivity|].
  assert (E : iv_into_tuple (fix_after_modification Qcompare (ivt (- u) uc (- l) lc))%Q = Some ((- u)%Q, uc, (- l)%Q, lc)).
  { destruct W as [W|(W & W1 & W2)]; cbn in W.
    - apply fix_lt. change (l < u)%Q in W. change (- u < - l)%Q. lra.
    - cbn in W1, W2. apply Q_eqv in W. subst. rewrite fix_eq; auto. apply Q_eqv; lra. }
  intros x. unfold has. rewrite E. cbn. destruct lc, uc; qpts; split; intros [? ?]; split; lra.
Qed.
Print Assumptions c37_negation_rational.

Example c37_ex : iv_neg Z.compare (int_neg (i32 true)) (zt (-3) true 7 false) = Ret (zt (-7) false 3 true) /\
  zob (zt (-3) true 7 false) /\ no_overflow (i32 true) Z.opp (iv_into_tuple (zt (-3) true 7 false)) /\
  iv_neg Z.compare (int_neg (i32 true)) (zt (-2147483648) true 7 false) = Panic.
Proof. split; [reflexivity|]. split; [ob|]. split; [cbn; unfold in_range; cbn; lia|reflexivity]. Qed.

(** ** C38 *)
(** with overflow checks: exact or panic.  Missing: division, which truncates
    (C36), and scaling by 0 (C35). *)
Theorem c38_checked_exact_or_panic_partial : forall I i k, ichecked I = true -> zob i ->
  (iv_add Z.compare (int_add I) i k = Panic \/
   exists j, iv_add Z.compare (int_add I) i k = Ret j /\ forall x, zhas i x <-> zhas j (x + k)) /\
  (iv_sub Z.compare (int_sub I) i k = Panic \/
   exists j, iv_sub Z.compare (int_sub I) i k = Ret j /\ forall x, zhas i x <-> zhas j (x - k)) /\
  (k <> 0 -> iv_mul Z.compare (int_mul I) i k = Panic \/
   exists j, iv_mul Z.compare (int_mul I) i k = Ret j /\ forall x, zhas i x <-> zhas j (x * k)) /\
  (iv_neg Z.compare (int_neg I) i = Panic \/
   exists j, iv_neg Z.compare (int_neg I) i = Ret j /\ forall x, zhas i x <-> zhas j (- x)).
Proof.
  intros I i k C Ho. split; [|split; [|split]].
  - destruct (fits_dec I i (fun x => x + k)) as [F|F].
    + right. destruct (@c34_translation I i k Ho) as [A _]. destruct (A F) as (j & ? & _ & ?). exists j; auto.
    + left. rewrite iv_add_map. exact (@map_panic I _ _ C F).
  - destruct (fits_dec I i (fun x => x - k)) as [F|F].
    + right. destruct (@c34_translation I i k Ho) as [_ A]. destruct (A F) as (j & ? & _ & ?). exists j; auto.
    + left. rewrite iv_sub_map. exact (@map_panic I _ _ C F).
  - intros K. destruct (fits_dec I i (fun x => x * k)) as [F|F].
    + right. destruct (@c35_scaling_partial I i k Ho K F) as (j & ? & _ & ?). exists j; auto.
    + left. rewrite iv_mul_map. exact (@map_panic I _ _ C F).
  - destruct (fits_dec I i Z.opp) as [F|F].
    + right. destruct (@c37_negation I i Ho F) as (j & ? & _ & ?). exists j; auto.
    + left. destruct (ivt_eta i) as [->|(l & lc & u & uc & ->)]; [exfalso; apply F; exact Logic.I|].
      unfold fits in F; cbn in F. rewrite iv_neg_ivt. unfold int_neg. destruct (in_range_dec I (- u)) as [R|R].
      * rewrite int_result_in by auto; cbn [obind]. rewrite int_result_out; auto; tauto.
      * rewrite int_result_out; auto.
Qed.
Print Assumptions c38_checked_exact_or_panic_partial.

(** panics exactly on overflow of one of the two values *)
Theorem c38_panics_iff_overflow : forall I i k, ichecked I = true -> zob i ->
  (iv_add Z.compare (int_add I) i k = Panic <-> ~ no_overflow I (fun x => x + k) (iv_into_tuple i)) /\
  (iv_sub Z.compare (int_sub I) i k = Panic <-> ~ no_overflow I (fun x => x - k) (iv_into_tuple i)) /\
  (k <> 0 -> (iv_mul Z.compare (int_mul I) i k = Panic <-> ~ no_overflow I (fun x => x * k) (iv_into_tuple i))).
Proof.
  intros I i k C Ho. split; [|split].
  - split.
    + intros H F. destruct (@c34_translation I i k Ho) as [A _]. destruct (A F) as (j & K & _). congruence.
    + rewrite iv_add_map. exact (fun F => @map_panic I _ _ C F).
  - split.
    + intros H F. destruct (@c34_translation I i k Ho) as [_ A]. destruct (A F) as (j & K & _). congruence.
    + rewrite iv_sub_map. exact (fun F => @map_panic I _ _ C F).
  - intros N. split.
    + intros H F. destruct (@c35_scaling_partial I i k Ho N F) as (j & K & _). congruence.
    + rewrite iv_mul_map. exact (fun F => @map_panic I _ _ C F).
Qed.
Print Assumptions c38_panics_iff_overflow.

(** without overflow checks [100,200] + 100 over u8 becomes [44,200], which
    does not hold 120 + 100 *)
Theorem c38_wrapping_refuted : exists i j, zob i /\ zhas i 120 /\
  iv_add Z.compare (int_add (u8 false)) i 100 = Ret j /\ iv_into_tuple j = Some (44, true, 200, true) /\ ~ zhas j (120 + 100).
Proof.
  exists (zt 100 true 200 true), (zt 44 true 200 true). split; [ob|]. split; [split; discriminate|]. split; [reflexivity|].
  split; [reflexivity|]. intros [_ A]. apply A. reflexivity.
Qed.
Print Assumptions c38_wrapping_refuted.

Example c38_ex : ichecked (u8 true) = true /\ iv_mul Z.compare (int_mul (u8 true)) (zt 100 true 200 true) 2 = Panic /\
  iv_mul Z.compare (int_mul (u8 true)) (zt 10 true 20 false) 2 = Ret (zt 20 true 40 false) /\ zob (zt 10 true 20 false).
Proof. do 3 (split; [reflexivity|]). ob. Qed.

(** ** C39 *)
(** u8: [100,200] += 100 leaves lower 200, upper 200; (100,200) += 100 leaves the
    malformed (200,200), and [120,200] += 100 leaves [220,200] *)
Theorem c39_op_assign_refuted : exists i j, zob i /\
  iv_add_assign Z.compare (assign_of (int_add (u8 true))) i 100 = (j, Panic) /\
  iv_into_tuple j = Some (220, true, 200, true) /\ ~ well_formed Z.compare (iv_into_tuple j).
Proof.
  exists (zt 120 true 200 true), (ivt 220 true 200 true). split; [ob|]. split; [reflexivity|]. split; [reflexivity|].
  intros [A|(A & _)]; discriminate A.
Qed.
Print Assumptions c39_op_assign_refuted.

(** What a failing operator leaves behind, for any element type: the interval
    itself, or the interval with only its lower value updated. *)
Theorem c39_op_assign_left_behind_partial : forall T U (cmp : T -> T -> comparison) (op : T -> U -> outcome T) i k j o,
  iv_add_assign cmp (assign_of op) i k = (j, o) \/ iv_sub_assign cmp (assign_of op) i k = (j, o) \/
  iv_mul_assign cmp (assign_of op) i k = (j, o) \/ iv_div_assign cmp (assign_of op) i k = (j, o) ->
  o <> Ret tt ->
  j = i \/ exists l lc u uc l', iv_into_tuple i = Some (l, lc, u, uc) /\ op l k = Ret l' /\ (forall u', op u k <> Ret u') /\
    iv_into_tuple j = Some (l', lc, u, uc).
Proof.
  intros T U cmp op i k j o H N. apply (@map_assign_fail T cmp (fun x => op x k) i j o); auto.
  destruct H as [H|[H|[H|H]]].
  - now rewrite iv_add_assign_map in H.
  - now rewrite iv_sub_assign_map in H.
  - now rewrite iv_mul_assign_map in H.
  - now rewrite iv_div_assign_map in H.
Qed.
Print Assumptions c39_op_assign_left_behind_partial.

(** subtraction of a non-negative number (always so for unsigned types),
    addition of a non-positive one, and every division: a panic leaves the
    interval as it was *)
Theorem c39_sub_add_unchanged_partial : forall I i k j o, ichecked I = true -> zob i ->
  no_overflow I (fun x => x) (iv_into_tuple i) -> o <> Ret tt ->
  (0 <= k -> iv_sub_assign Z.compare (assign_of (int_sub I)) i k = (j, o) -> j = i) /\
  (k <= 0 -> iv_add_assign Z.compare (assign_of (int_add I)) i k = (j, o) -> j = i).
Proof.
  intros I i k j o C Ho F N. pose proof (obtainable_wf Z_ord Ho) as W. split; intros K H.
  - destruct (@c39_op_assign_left_behind_partial _ _ Z.compare (int_sub I) i k j o) as [E|(l & lc & u & uc & l' & E1 & E2 & E3 & _)]; auto.
    exfalso. rewrite E1 in F. destruct F as [F1 F2]. unfold wf in W. rewrite E1 in W.
    apply (E3 (u - k)). apply int_result_in. unfold int_sub, int_result in E2. rewrite C in E2.
    destruct ((imin I <=? l - k) && (l - k <=? imax I)) eqn:B; [|discriminate].
    assert (l <= u) by (destruct W as [W|(W & _)]; [change (l < u) in W|apply Z_eqv in W]; lia).
    unfold in_range in *. lia.
  - destruct (@c39_op_assign_left_behind_partial _ _ Z.compare (int_add I) i k j o) as [E|(l & lc & u & uc & l' & E1 & E2 & E3 & _)]; auto.
    exfalso. rewrite E1 in F. destruct F as [F1 F2]. unfold wf in W. rewrite E1 in W.
    apply (E3 (u + k)). apply int_result_in. unfold int_add, int_result in E2. rewrite C in E2.
    destruct ((imin I <=? l + k) && (l + k <=? imax I)) eqn:B; [|discriminate].
    assert (l <= u) by (destruct W as [W|(W & _)]; [change (l < u) in W|apply Z_eqv in W]; lia).
    unfold in_range in *. lia.
Qed.
Print Assumptions c39_sub_add_unchanged_partial.

Theorem c39_div_unchanged_partial : forall I i k j o, imin I = 0 \/ imin I = - imax I - 1 -> zob i ->
  no_overflow I (fun x => x) (iv_into_tuple i) -> in_range I k -> o <> Ret tt ->
  iv_div_assign Z.compare (assign_of (int_div I)) i k = (j, o) -> j = i.
Proof.
  intros I i k j o HI Ho F Hk N H. pose proof (obtainable_wf Z_ord Ho) as W.
  destruct (@c39_op_assign_left_behind_partial _ _ Z.compare (int_div I) i k j o) as [E|(l & lc & u & uc & l' & E1 & E2 & E3 & _)]; auto.
  exfalso. rewrite E1 in F. destruct F as [F1 F2]. unfold wf in W. rewrite E1 in W.
  unfold int_div in E2, E3. destruct (Z.eqb_spec k 0) as [->|K]; [discriminate|].
  destruct ((imin I <=? Z.quot l k) && (Z.quot l k <=? imax I)) eqn:B; [|discriminate].
  destruct ((imin I <=? Z.quot u k) && (Z.quot u k <=? imax I)) eqn:B'; [exact (E3 _ eq_refl)|].
  assert (L : l <= u) by (destruct W as [W|(W & _)]; [change (l < u) in W|apply Z_eqv in W]; lia).
  unfold in_range in *.
  destruct (Z.eq_dec k (-1)) as [->|K1].
  { assert (Q : forall z, Z.quot z (-1) = - z) by (intros z; change (-1) with (- (1)); rewrite Z.quot_opp_r by lia; rewrite Z.quot_1_r; reflexivity).
    rewrite !Q in *. lia. }
  pose proof (Z.quot_abs u k K) as A.
  destruct (Z.eq_dec u 0) as [->|U]; [rewrite Z.quot_0_l in B' by auto; lia|].
  assert (P : 0 <= Z.quot (Z.abs u) (Z.abs k)) by (apply Z.quot_pos; lia).
  destruct (Z.lt_ge_cases k 0) as [K0|K0].
  - assert (Z.quot (Z.abs u) (Z.abs k) < Z.abs u) by (apply Z.quot_lt; lia). lia.
  - assert (Z.quot (Z.abs u) (Z.abs k) <= Z.abs u) by (apply Z.quot_le_upper_bound; nia).
    destruct (Z.lt_ge_cases u 0) as [U0|U0].
    + assert (Z.quot u k <= 0) by (rewrite <- (Z.quot_opp_opp u k) by auto; rewrite Z.quot_opp_r by auto;
        pose proof (Z.quot_pos (- u) k); lia). lia.
    + pose proof (Z.quot_pos u k). lia.
Qed.
Print Assumptions c39_div_unchanged_partial.

Example c39_ex : iv_sub_assign Z.compare (assign_of (int_sub (u8 true))) (zt 3 true 9 false) 5 = (zt 3 true 9 false, Panic) /\
  iv_div_assign Z.compare (assign_of (int_div (i32 true))) (zt 3 true 9 false) 0 = (zt 3 true 9 false, Panic) /\
  iv_div_assign Z.compare (assign_of (int_div (i32 true))) (zt (-2147483648) true 9 false) (-1) = (zt (-2147483648) true 9 false, Panic) /\
  zob (zt (-2147483648) true 9 false) /\ no_overflow (i32 true) (fun x => x) (iv_into_tuple (zt (-2147483648) true 9 false)) /\
  iv_mul_assign Z.compare (assign_of (int_mul (u8 true))) (zt 100 false 200 false) 2 = (ivt 200 false 200 false, Panic).
Proof.
  do 3 (split; [reflexivity|]). split; [ob|]. split; [cbn; unfold in_range; cbn; lia|reflexivity].
Qed.

(** ** C41 *)
Theorem c41_display_faithful : forall T (cmp : T -> T -> comparison) (show : T -> string) a b,
  (forall x y, show x = show y -> eqv cmp x y) -> (forall x, ~ occurs ","%char (show x)) ->
  iv_display show a = iv_display show b -> iv_eq cmp a b = true.
Proof. exact display_faithful. Qed.
Print Assumptions c41_display_faithful.

(** decimal integers satisfy the hypotheses *)
Theorem c41_display_integers : forall a b : interval Z, iv_display show_Z a = iv_display show_Z b -> iv_eq Z.compare a b = true.
Proof.
  intros a b. apply display_faithful; [|exact show_Z_no_comma]. intros x y H. apply Z_eqv. exact (show_Z_inj _ _ H).
Qed.
Print Assumptions c41_display_integers.

(** the form of the text: the brackets show closedness, and the empty interval
    has a text of its own *)
Theorem c41_display_form : forall T (show : T -> string) i,
  match iv_into_tuple i with
  | Some (l, lc, u, uc) =>
      iv_display show i =
        ((if lc then "[" else "(") ++ show l ++ "," ++ show u ++ (if uc then "]" else ")"))%string /\
      iv_display show i <> iv_display show (iv_empty T)
  | None => iv_display show i = iv_display show (iv_empty T)
  end.
Proof.
  intros T show i. destruct (ivt_eta i) as [->|(l & lc & u & uc & ->)]; [reflexivity|]. cbn.
  split; [destruct lc, uc; reflexivity|]. unfold iv_display; cbn. destruct lc; discriminate.
Qed.
Print Assumptions c41_display_form.

(** an element text with commas that confuses the reader: "a" "b,c" against "a,b" "c" *)
Definition c41_commas (z : Z) : string :=
  match z with 1 => "a"%string | 2 => "b,c"%string | 3 => "a,b"%string | _ => "c"%string end.
Example c41_ex : iv_display show_Z (zt (-12) true 7 false) = "[-12,7)"%string /\ iv_display show_Z (iv_single 5) = "[5,5]"%string /\
  iv_display c41_commas (zt 1 true 2 true) = iv_display c41_commas (zt 3 true 4 true).
Proof. repeat split. Qed.
