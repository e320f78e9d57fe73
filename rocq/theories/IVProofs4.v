(** Interval arithmetic, over integers and rationals. *)
From Coq Require Import ZArith QArith Lia Lqa.
From Verif Require Import Base IVModel IVSpec IVRun IVProofs IVProofs2 IVProofs3.
Set Implicit Arguments.

Section Arith.
Variable T : Type.
Variable cmp : T -> T -> comparison.
Hypothesis HL : ord_laws cmp.
Implicit Types a b i j : interval T.

Definition ivt (l : T) lc (u : T) uc : interval T := Interval (Some (NonEmpty (lower_new l lc) (upper_new u uc))).
Lemma ivt_eta i : i = Interval None \/ exists l lc u uc, i = ivt l lc u uc.
Proof. destruct i as [[[[[l lc]] [[u uc]]]|]]; [right|left]; auto. exists l, lc, u, uc; reflexivity. Qed.

(** the four operators are one function *)
Definition iv_map (f : T -> outcome T) i : outcome (interval T) :=
  match iv_into_tuple i with
  | Some (l, lc, u, uc) => obind (f u) (fun u' => obind (f l) (fun l' => Ret (fix_after_modification cmp (ivt l' lc u' uc))))
  | None => Ret i
  end.
Lemma iv_add_map U (op : T -> U -> outcome T) i k : iv_add cmp op i k = iv_map (fun x => op x k) i.
Proof. destruct i as [[[[[l lc]] [[u uc]]]|]]; auto. unfold iv_map, iv_add; cbn. unfold lower_add, upper_add, bound_add; cbn. destruct (op u k), (op l k); reflexivity. Qed.
Lemma iv_sub_map U (op : T -> U -> outcome T) i k : iv_sub cmp op i k = iv_map (fun x => op x k) i.
Proof. destruct i as [[[[[l lc]] [[u uc]]]|]]; auto. unfold iv_map, iv_sub; cbn. unfold lower_sub, upper_sub, bound_sub; cbn. destruct (op u k), (op l k); reflexivity. Qed.
Lemma iv_mul_map U (op : T -> U -> outcome T) i k : iv_mul cmp op i k = iv_map (fun x => op x k) i.
Proof. destruct i as [[[[[l lc]] [[u uc]]]|]]; auto. unfold iv_map, iv_mul; cbn. unfold lower_mul, upper_mul, bound_mul; cbn. destruct (op u k), (op l k); reflexivity. Qed.
Lemma iv_div_map U (op : T -> U -> outcome T) i k : iv_div cmp op i k = iv_map (fun x => op x k) i.
Proof. destruct i as [[[[[l lc]] [[u uc]]]|]]; auto. unfold iv_map, iv_div; cbn. unfold lower_div, upper_div, bound_div; cbn. destruct (op u k), (op l k); reflexivity. Qed.

Lemma iv_map_ivt f l lc u uc : iv_map f (ivt l lc u uc) =
  obind (f u) (fun u' => obind (f l) (fun l' => Ret (fix_after_modification cmp (ivt l' lc u' uc)))).
Proof. reflexivity. Qed.
(** so are the four compound assignments *)
Definition iv_map_assign (f : T -> outcome T) i : interval T * outcome unit :=
  match iv_into_tuple i with
  | Some (l, lc, u, uc) =>
      match f l with
      | Ret l' => match f u with
                  | Ret u' => (fix_after_modification cmp (ivt l' lc u' uc), Ret tt)
                  | e => (ivt l' lc u uc, obind e (fun _ => Ret tt))
                  end
      | e => (i, obind e (fun _ => Ret tt))
      end
  | None => (i, Ret tt)
  end.
Ltac mapassign :=
  match goal with i : interval T |- _ => destruct i as [[[[[?l ?lc]] [[?u ?uc]]]|]]; auto end;
  unfold iv_map_assign; cbn; unfold assign_of;
  repeat match goal with |- context [?op ?x ?k] => match type of (op x k) with outcome T => destruct (op x k); auto; cbn end end.
Lemma iv_add_assign_map U (op : T -> U -> outcome T) i k : iv_add_assign cmp (assign_of op) i k = iv_map_assign (fun x => op x k) i.
Proof. unfold iv_add_assign, lower_add_assign, upper_add_assign, bound_add_assign. mapassign. Qed.
Lemma iv_sub_assign_map U (op : T -> U -> outcome T) i k : iv_sub_assign cmp (assign_of op) i k = iv_map_assign (fun x => op x k) i.
Proof. unfold iv_sub_assign, lower_sub_assign, upper_sub_assign, bound_sub_assign. mapassign. Qed.
Lemma iv_mul_assign_map U (op : T -> U -> outcome T) i k : iv_mul_assign cmp (assign_of op) i k = iv_map_assign (fun x => op x k) i.
Proof. unfold iv_mul_assign, lower_mul_assign, upper_mul_assign, bound_mul_assign. mapassign. Qed.
Lemma iv_div_assign_map U (op : T -> U -> outcome T) i k : iv_div_assign cmp (assign_of op) i k = iv_map_assign (fun x => op x k) i.
Proof. unfold iv_div_assign, lower_div_assign, upper_div_assign, bound_div_assign. mapassign. Qed.

Lemma map_assign_same f i j : iv_map f i = Ret j <-> iv_map_assign f i = (j, Ret tt).
Proof.
  unfold iv_map, iv_map_assign. destruct (iv_into_tuple i) as [[[[l lc] u] uc]|]; cbn.
  - destruct (f l), (f u); cbn; split; intros H; try discriminate; injection H as <-; reflexivity.
  - split; intros H; injection H as <-; reflexivity.
Qed.
(** what a failing compound assignment leaves behind *)
Lemma map_assign_fail f i j o : iv_map_assign f i = (j, o) -> o <> Ret tt ->
  j = i \/ exists l lc u uc l', iv_into_tuple i = Some (l, lc, u, uc) /\ f l = Ret l' /\ (forall u', f u <> Ret u') /\
    iv_into_tuple j = Some (l', lc, u, uc).
Proof.
  unfold iv_map_assign. destruct (iv_into_tuple i) as [[[[l lc] u] uc]|]; cbn.
  - destruct (f l) as [l1| | | |] eqn:L.
    + destruct (f u) eqn:U; cbn; intros H N; injection H as <- <-;
      (exfalso; apply N; reflexivity) || (right; exists l, lc, u, uc, l1; repeat split; auto; congruence).
    + intros H _; injection H as <- _; auto.
    + intros H _; injection H as <- _; auto.
    + intros H _; injection H as <- _; auto.
    + intros H _; injection H as <- _; auto.
  - intros H N; injection H as <- <-. exfalso; auto.
Qed.

(** the last step, by the order of the new values *)
Lemma fix_lt l lc u uc : lt cmp l u -> iv_into_tuple (fix_after_modification cmp (ivt l lc u uc)) = Some (l, lc, u, uc).
Proof. intros H. unfold fix_after_modification; cbn; unfold vgt, veq; cbn. unfold lt in H; rewrite H; cbn. rewrite H; reflexivity. Qed.
Lemma fix_gt l lc u uc : lt cmp u l -> iv_into_tuple (fix_after_modification cmp (ivt l lc u uc)) = Some (u, uc, l, lc).
Proof.
  intros H. unfold fix_after_modification; cbn; unfold vgt, veq; cbn.
  rewrite (ord_opp HL u l). unfold lt in H; rewrite H; cbn. rewrite H; reflexivity.
Qed.
Lemma fix_eq l lc u uc : eqv cmp l u ->
  iv_into_tuple (fix_after_modification cmp (ivt l lc u uc)) = if lc && uc then Some (l, lc, u, uc) else None.
Proof.
  intros H. unfold fix_after_modification; cbn; unfold vgt, veq; cbn. unfold eqv in H; rewrite H; cbn. rewrite H.
  destruct lc, uc; reflexivity.
Qed.
End Arith.

Lemma Z_ord : ord_laws Z.compare.
Proof.
  split.
  - intros x y. apply Z.compare_antisym.
  - intros x y z H. apply Z.compare_eq_iff in H. subst; auto.
  - intros x y z A B. apply (Z.lt_trans x y z A B).
Qed.
Lemma Q_ord : ord_laws Qcompare.
Proof.
  split.
  - intros x y. symmetry; apply Qcompare_antisym.
  - intros x y z H. apply Qeq_alt in H. rewrite H; reflexivity.
  - intros x y z A B. exact (Qlt_trans x y z A B).
Qed.
Lemma Q_dense : dense Qcompare.
Proof.
  intros x y H. exists ((x + y) / 2)%Q. change (x < y)%Q in H.
  assert (E : ((x + y) / 2 == (1#2) * x + (1#2) * y)%Q) by field.
  split; [change (x < (x + y) / 2)%Q|change ((x + y) / 2 < y)%Q]; rewrite E; lra.
Qed.
Lemma Z_le x y : le Z.compare x y <-> (x <= y)%Z. Proof. reflexivity. Qed.
Lemma Z_lt x y : lt Z.compare x y <-> (x < y)%Z. Proof. reflexivity. Qed.
Lemma Z_eqv x y : eqv Z.compare x y <-> x = y. Proof. apply Z.compare_eq_iff. Qed.
Lemma Q_le x y : le Qcompare x y <-> (x <= y)%Q. Proof. reflexivity. Qed.
Lemma Q_lt x y : lt Qcompare x y <-> (x < y)%Q. Proof. reflexivity. Qed.
Lemma Q_eqv x y : eqv Qcompare x y <-> (x == y)%Q. Proof. symmetry; apply Qeq_alt. Qed.

Ltac zpts := unfold mem, admits_above, admits_below in *; rewrite ?Z_le, ?Z_lt in *.
Ltac qpts := unfold mem, admits_above, admits_below in *; rewrite ?Q_le, ?Q_lt in *.

(** *** integers *)
Section Ints.
Local Open Scope Z_scope.
Notation zhas := (has Z.compare).
Variable I : int_type.

Definition fits i (f : Z -> Z) : Prop :=
  match iv_into_tuple i with Some (l, _, u, _) => in_range I (f l) /\ in_range I (f u) | None => True end.
Lemma int_result_in z : in_range I z -> int_result I z = Ret z.
Proof. unfold in_range, int_result. intros H. replace ((imin I <=? z) && (z <=? imax I)) with true by lia. reflexivity. Qed.
Lemma int_result_out z : ichecked I = true -> ~ in_range I z -> int_result I z = Panic.
Proof. unfold in_range, int_result. intros -> H. replace ((imin I <=? z) && (z <=? imax I)) with false by lia. reflexivity. Qed.
Lemma in_range_dec z : in_range I z \/ ~ in_range I z.
Proof. unfold in_range; lia. Qed.

(** strictly increasing and strictly decreasing maps *)
Lemma map_up (f : Z -> Z) i : (forall x y, x < y <-> f x < f y) -> wf Z.compare i -> fits i f ->
  exists j, iv_map Z.compare (fun x => int_result I (f x)) i = Ret j /\
   iv_into_tuple j = (match iv_into_tuple i with Some (l, lc, u, uc) => Some (f l, lc, f u, uc) | None => None end) /\
   forall x, zhas i x <-> zhas j (f x).
Proof.
  intros Hf W F. destruct (ivt_eta i) as [->|(l & lc & u & uc & ->)].
  { exists (Interval None). repeat split; auto; intros []. }
  destruct F as [F1 F2]. cbn in F1, F2. rewrite iv_map_ivt, !int_result_in by auto. cbn [obind]. eexists; split; [reflexivity|].
  assert (E : iv_into_tuple (fix_after_modification Z.compare (ivt (f l) lc (f u) uc)) = Some (f l, lc, f u, uc)).
  { destruct W as [W|(W & W1 & W2)]; cbn in W.
    - apply fix_lt. exact (proj1 (Hf l u) W).
    - cbn in W1, W2. apply Z_eqv in W. subst. rewrite fix_eq; auto. apply Z_eqv; auto. }
  rewrite E. split; auto. intros x. unfold has; rewrite E. cbn.
  assert (M : forall x y, x <= y <-> f x <= f y) by (intros p q; pose proof (Hf q p); lia).
  destruct lc, uc; zpts; rewrite ?(M l), ?(M x), ?(Hf l), ?(Hf x); reflexivity.
Qed.
Lemma map_down (f : Z -> Z) i : (forall x y, x < y <-> f y < f x) -> wf Z.compare i -> fits i f ->
  exists j, iv_map Z.compare (fun x => int_result I (f x)) i = Ret j /\
   iv_into_tuple j = (match iv_into_tuple i with Some (l, lc, u, uc) => Some (f u, uc, f l, lc) | None => None end) /\
   forall x, zhas i x <-> zhas j (f x).
Proof.
  intros Hf W F. destruct (ivt_eta i) as [->|(l & lc & u & uc & ->)].
  { exists (Interval None). repeat split; auto; intros []. }
  destruct F as [F1 F2]. cbn in F1, F2. rewrite iv_map_ivt, !int_result_in by auto. cbn [obind]. eexists; split; [reflexivity|].
  assert (E : iv_into_tuple (fix_after_modification Z.compare (ivt (f l) lc (f u) uc)) = Some (f u, uc, f l, lc)).
  { destruct W as [W|(W & W1 & W2)]; cbn in W.
    - apply (fix_gt Z_ord). exact (proj1 (Hf l u) W).
    - cbn in W1, W2. apply Z_eqv in W. subst. rewrite fix_eq; auto. apply Z_eqv; auto. }
  rewrite E. split; auto. intros x. unfold has; rewrite E. cbn.
  assert (M : forall x y, x <= y <-> f y <= f x) by (intros p q; pose proof (Hf q p); lia).
  destruct lc, uc; zpts; rewrite ?(M l), ?(M x), ?(Hf l), ?(Hf x); tauto.
Qed.
(** with overflow checks, out of range bounds panic *)
Lemma map_panic (f : Z -> Z) i : ichecked I = true -> ~ fits i f -> iv_map Z.compare (fun x => int_result I (f x)) i = Panic.
Proof.
  intros C F. destruct (ivt_eta i) as [->|(l & lc & u & uc & ->)]; [exfalso; apply F; exact Logic.I|].
  unfold fits in F; cbn in F. unfold iv_map; cbn. destruct (in_range_dec (f u)) as [R|R].
  - rewrite int_result_in by auto; cbn. rewrite int_result_out; auto; tauto.
  - rewrite int_result_out; auto.
Qed.
Lemma fits_dec i f : fits i f \/ ~ fits i f.
Proof.
  unfold fits. destruct (iv_into_tuple i) as [[[[l lc] u] uc]|]; auto.
  destruct (in_range_dec (f l)), (in_range_dec (f u)); tauto.
Qed.
End Ints.

(** *** rationals *)
Section Rats.
Local Open Scope Q_scope.
Notation qhas := (has Qcompare).

Lemma qmap_up (f : Q -> Q) i : (forall x y, x < y <-> f x < f y) -> wf Qcompare i ->
  exists j, iv_map Qcompare (fun x => Ret (f x)) i = Ret j /\
   iv_into_tuple j = (match iv_into_tuple i with Some (l, lc, u, uc) => Some (f l, lc, f u, uc) | None => None end) /\
   forall x, qhas i x <-> qhas j (f x).
Proof.
  intros Hf W. destruct (ivt_eta i) as [->|(l & lc & u & uc & ->)].
  { exists (Interval None). repeat split; auto; intros []. }
  rewrite iv_map_ivt. cbn [obind]. eexists; split; [reflexivity|].
  assert (M : forall x y, x <= y <-> f x <= f y) by (intros p q; pose proof (Hf q p); split; intros; apply Qnot_lt_le; intros ?; intuition lra).
  assert (E : iv_into_tuple (fix_after_modification Qcompare (ivt (f l) lc (f u) uc)) = Some (f l, lc, f u, uc)).
  { destruct W as [W|(W & W1 & W2)]; cbn in W.
    - apply fix_lt. exact (proj1 (Hf l u) W).
    - cbn in W1, W2. apply Q_eqv in W. subst. rewrite fix_eq; auto. apply Q_eqv.
      apply Qle_antisym; apply (proj1 (M _ _)); lra. }
  rewrite E. split; auto. intros x. unfold has; rewrite E. cbn.
  destruct lc, uc; qpts; rewrite ?(M l), ?(M x), ?(Hf l), ?(Hf x); reflexivity.
Qed.
Lemma qmap_down (f : Q -> Q) i : (forall x y, x < y <-> f y < f x) -> wf Qcompare i ->
  exists j, iv_map Qcompare (fun x => Ret (f x)) i = Ret j /\
   match iv_into_tuple i with
   | Some (l, lc, u, uc) => same Qcompare (iv_into_tuple j) (Some (f u, uc, f l, lc))
   | None => iv_into_tuple j = None end /\
   forall x, qhas i x <-> qhas j (f x).
Proof.
  intros Hf W. destruct (ivt_eta i) as [->|(l & lc & u & uc & ->)].
  { exists (Interval None). repeat split; auto; intros []. }
  rewrite iv_map_ivt. cbn [obind]. eexists; split; [reflexivity|].
  assert (M : forall x y, x <= y <-> f y <= f x) by (intros p q; pose proof (Hf q p); split; intros; apply Qnot_lt_le; intros ?; intuition lra).
  destruct W as [W|(W & W1 & W2)]; cbn in W.
  - assert (E : iv_into_tuple (fix_after_modification Qcompare (ivt (f l) lc (f u) uc)) = Some (f u, uc, f l, lc)).
    { apply (fix_gt Q_ord). exact (proj1 (Hf l u) W). }
    split.
    + change (same Qcompare (iv_into_tuple (fix_after_modification Qcompare (ivt (f l) lc (f u) uc))) (Some (f u, uc, f l, lc))).
      rewrite E. cbn. repeat split; apply (cmp_refl Q_ord).
    + intros x. unfold has; rewrite E. cbn.
      destruct lc, uc; qpts; rewrite ?(M l), ?(M x), ?(Hf l), ?(Hf x); tauto.
  - cbn in W1, W2. subst lc uc. apply Q_eqv in W.
    assert (EQ : f l == f u) by (apply Qle_antisym; apply (proj1 (M _ _)); lra).
    assert (E : iv_into_tuple (fix_after_modification Qcompare (ivt (f l) true (f u) true)) = Some (f l, true, f u, true)).
    { rewrite fix_eq; auto. apply Q_eqv; auto. }
    split.
    + change (same Qcompare (iv_into_tuple (fix_after_modification Qcompare (ivt (f l) true (f u) true))) (Some (f u, true, f l, true))).
      rewrite E. cbn. repeat split; apply Q_eqv; lra.
    + intros x. unfold has; rewrite E. cbn. qpts. split; intros [A B].
      * assert (x == l) by lra. assert (f x <= f u /\ f u <= f x) by (split; apply (proj1 (M _ _)); lra). split; lra.
      * assert (f x <= f u /\ f u <= f x) as [K1 K2] by lra. apply (proj2 (M _ _)) in K1; apply (proj2 (M _ _)) in K2. split; lra.
Qed.
End Rats.
