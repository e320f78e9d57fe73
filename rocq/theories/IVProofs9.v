(** Intervals whose ends are carried over by a function that keeps or turns the
    order. *)
From Coq Require Import ZArith Lia.
From Verif Require Import Base IVModel IVSpec IVSpec2 IVRun IVProofs IVProofs2 IVProofs3 IVProofs4.
Set Implicit Arguments.

(** results in relation, or the same failure *)
Definition orel {A B} (R : A -> B -> Prop) (x : outcome A) (y : outcome B) : Prop :=
  match x, y with
  | Ret a, Ret b => R a b
  | Panic, Panic | Abort, Abort | UB, UB | NoFuel, NoFuel => True
  | _, _ => False
  end.
(** the same for the two ways a merge may end *)
Definition srel {A B C D} (R : A -> B -> Prop) (S : C -> D -> Prop) (x : A + C) (y : B + D) : Prop :=
  match x, y with inl a, inl b => R a b | inr a, inr b => S a b | _, _ => False end.

Section Up.
Variable T : Type.
Variable cmp : T -> T -> comparison.
Variable R : T -> T -> Prop.
Hypothesis K : forall x y p q, R x p -> R y q -> cmp p q = cmp x y.
Implicit Types a b i j : interval T.

Definition limg (l m : lower T) := R (lval l) (lval m) /\ lclosed m = lclosed l.
Definition uimg (l m : upper T) := R (uval l) (uval m) /\ uclosed m = uclosed l.
Definition img a a' : Prop :=
  match imp a, imp a' with
  | None, None => True
  | Some n, Some n' => limg (lo n) (lo n') /\ uimg (up n) (up n')
  | _, _ => False
  end.

Ltac split_iv A := match type of A with img ?a ?a' =>
  destruct a as [[[?l ?u]|]], a' as [[[?l' ?u']|]]; unfold img in A; cbn [imp lo up] in A; try contradiction;
  try (match type of A with _ /\ _ => destruct A as [[? ?] [? ?]] end) end.
Ltac kk := repeat match goal with
  | A : R ?x ?p, B : R ?y ?q |- context [cmp ?p ?q] => rewrite (@K x y p q A B)
  | H : lclosed ?m = _ |- context [lclosed ?m] => rewrite H
  | H : uclosed ?m = _ |- context [uclosed ?m] => rewrite H
  end.

Lemma up_lower_lt l m l' m' : limg l l' -> limg m m' -> lower_lt cmp l' m' = lower_lt cmp l m.
Proof. intros [A1 A2] [B1 B2]. unfold lower_lt, lower_partial_cmp, lower_cmp. kk. reflexivity. Qed.
Lemma up_lower_cmp l m l' m' : limg l l' -> limg m m' -> lower_cmp cmp l' m' = lower_cmp cmp l m.
Proof. intros [A1 A2] [B1 B2]. unfold lower_cmp. kk. reflexivity. Qed.
Lemma up_upper_gt l m l' m' : uimg l l' -> uimg m m' -> upper_gt cmp l' m' = upper_gt cmp l m.
Proof. intros [A1 A2] [B1 B2]. unfold upper_gt, upper_partial_cmp, upper_cmp. kk. reflexivity. Qed.
Lemma up_upper_cmp l m l' m' : uimg l l' -> uimg m m' -> upper_cmp cmp l' m' = upper_cmp cmp l m.
Proof. intros [A1 A2] [B1 B2]. unfold upper_cmp. kk. reflexivity. Qed.

Section Pair.
Variables a b a' b' : interval T.
Hypotheses (A : img a a') (B : img b b').
Ltac go := split_iv A; split_iv B; try reflexivity;
  unfold iv_lt, iv_le, iv_gt, iv_ge, iv_eq, iv_contains_interval, iv_can_be_merged,
    iv_upper, iv_lower, iv_bounds, iv_is_empty, upper_is_separated_from, are_separated, ul_lt, ul_le, ul_gt, ul_ge, lu_lt, lu_le, lu_gt, lu_ge,
    lower_le, upper_ge, lower_partial_cmp, upper_partial_cmp, lower_cmp, upper_cmp, lower_eq, upper_eq, vlt, vle, vgt, vge, veq;
  cbn [imp lo up]; kk; reflexivity.
Lemma up_empty : iv_is_empty a' = iv_is_empty a. Proof. go. Qed.
Lemma up_empty2 : iv_is_empty b' = iv_is_empty b. Proof. go. Qed.
Lemma up_lt : iv_lt cmp a' b' = iv_lt cmp a b. Proof. go. Qed.
Lemma up_le : iv_le cmp a' b' = iv_le cmp a b. Proof. go. Qed.
Lemma up_gt : iv_gt cmp a' b' = iv_gt cmp a b. Proof. go. Qed.
Lemma up_ge : iv_ge cmp a' b' = iv_ge cmp a b. Proof. go. Qed.
Lemma up_eq : iv_eq cmp a' b' = iv_eq cmp a b. Proof. go. Qed.
Lemma up_ci : iv_contains_interval cmp a' b' = iv_contains_interval cmp a b. Proof. go. Qed.
Lemma up_cm : iv_can_be_merged cmp a' b' = iv_can_be_merged cmp a b. Proof. go. Qed.
Lemma up_pc : iv_partial_cmp cmp a' b' = iv_partial_cmp cmp a b.
Proof. unfold iv_partial_cmp. now rewrite up_gt, up_lt, up_eq. Qed.
Lemma up_is : iv_intersects cmp a' b' = iv_intersects cmp a b.
Proof. unfold iv_intersects. now rewrite up_gt, up_lt. Qed.

Lemma up_from l u l' u' : limg l l' -> uimg u u' -> orel img (iv_from_bounds cmp l u) (iv_from_bounds cmp l' u').
Proof.
  destruct l as [[l lc]], u as [[u uc]], l' as [[l' lc']], u' as [[u' uc']]. intros [P1 P2] [Q1 Q2]. cbn in P1, P2, Q1, Q2. subst.
  unfold iv_from_bounds, lower_into_tuple, upper_into_tuple, create_checked, vgt, veq. cbn. kk.
  destruct (cmp l u); cbn; auto; [destruct (negb lc || negb uc)%bool|]; cbn; auto; repeat split; auto.
Qed.
Lemma up_intersection : orel img (iv_intersection cmp a b) (iv_intersection cmp a' b').
Proof.
  unfold iv_intersection. rewrite up_empty, up_empty2, up_gt, up_lt.
  destruct (_ || _ || _ || _)%bool; [exact I|].
  split_iv A; split_iv B; cbn; auto.
  rewrite (@up_lower_lt l l0 l' l'0), (@up_upper_gt u u0 u' u'0) by (split; auto).
  destruct (lower_lt cmp l l0), (upper_gt cmp u u0); repeat split; auto.
Qed.
Lemma up_span : orel img (iv_span cmp a b) (iv_span cmp a' b').
Proof.
  unfold iv_span. rewrite up_empty, up_empty2.
  destruct (iv_is_empty b); [exact A|]. destruct (iv_is_empty a); [exact B|].
  split_iv A; split_iv B; cbn; auto.
  rewrite (@up_lower_lt l0 l l'0 l'), (@up_upper_gt u0 u u'0 u') by (split; auto).
  destruct (lower_lt cmp l0 l), (upper_gt cmp u0 u); repeat split; auto.
Qed.
Lemma up_merge : img (fst (iv_merge cmp a b)) (fst (iv_merge cmp a' b')) /\
  srel eq img (snd (iv_merge cmp a b)) (snd (iv_merge cmp a' b')).
Proof.
  unfold iv_merge. rewrite up_cm. destruct (negb (iv_can_be_merged cmp a b)); [cbn; auto|].
  split_iv A; split_iv B; cbn; auto.
  rewrite (@up_lower_lt l0 l l'0 l'), (@up_upper_gt u0 u u'0 u') by (split; auto).
  destruct (lower_lt cmp l0 l), (upper_gt cmp u0 u); repeat split; auto.
Qed.
Lemma up_into_intersection : orel img (iv_into_intersection cmp a b) (iv_into_intersection cmp a' b').
Proof.
  unfold iv_into_intersection. rewrite up_empty, up_empty2, up_is.
  destruct (iv_is_empty a); [exact A|]. destruct (iv_is_empty b); [exact B|].
  destruct (negb (iv_intersects cmp a b)); [exact I|].
  split_iv A; split_iv B; cbn [obind unwrap iv_into_bounds imp lo up]; try exact I.
  apply up_from; unfold lower_max, upper_min.
  - rewrite (@up_lower_cmp l l0 l' l'0) by (split; auto). destruct (lower_cmp cmp l l0); split; auto.
  - rewrite (@up_upper_cmp u u0 u' u'0) by (split; auto). destruct (upper_cmp cmp u u0); split; auto.
Qed.
Lemma up_into_span : orel img (iv_into_span cmp a b) (iv_into_span cmp a' b').
Proof.
  unfold iv_into_span. rewrite up_empty, up_empty2.
  destruct (iv_is_empty b); [exact A|]. destruct (iv_is_empty a); [exact B|].
  split_iv A; split_iv B; cbn [obind unwrap iv_into_bounds imp lo up]; try exact I.
  apply up_from; unfold lower_min, upper_max.
  - rewrite (@up_lower_cmp l l0 l' l'0) by (split; auto). destruct (lower_cmp cmp l l0); split; auto.
  - rewrite (@up_upper_cmp u u0 u' u'0) by (split; auto). destruct (upper_cmp cmp u u0); split; auto.
Qed.
Lemma up_into_merged : orel (srel img (fun p q => img (fst p) (fst q) /\ img (snd p) (snd q)))
  (iv_into_merged cmp a b) (iv_into_merged cmp a' b').
Proof.
  unfold iv_into_merged. rewrite up_empty, up_empty2, up_cm. destruct (negb (iv_can_be_merged cmp a b)); [cbn; auto|].
  destruct (iv_is_empty b); [exact A|]. destruct (iv_is_empty a); [exact B|].
  split_iv A; split_iv B; cbn [obind unwrap iv_into_bounds imp lo up]; try exact I.
  assert (HF : orel img (iv_from_bounds cmp (lower_min cmp l l0) (upper_max cmp u u0)) (iv_from_bounds cmp (lower_min cmp l' l'0) (upper_max cmp u' u'0))).
  { apply up_from; unfold lower_min, upper_max.
    - rewrite (@up_lower_cmp l l0 l' l'0) by (split; auto). destruct (lower_cmp cmp l l0); split; auto.
    - rewrite (@up_upper_cmp u u0 u' u'0) by (split; auto). destruct (upper_cmp cmp u u0); split; auto. }
  destruct (iv_from_bounds cmp _ _), (iv_from_bounds cmp _ _); cbn in *; auto.
Qed.
Lemma up_val x x' : R x x' ->
  iv_contains_val cmp a' x' = iv_contains_val cmp a x /\ ivv_lt cmp a' x' = ivv_lt cmp a x /\ ivv_le cmp a' x' = ivv_le cmp a x /\
  ivv_gt cmp a' x' = ivv_gt cmp a x /\ ivv_ge cmp a' x' = ivv_ge cmp a x /\ ivv_eq cmp a' x' = ivv_eq cmp a x /\
  ivv_partial_cmp cmp a' x' = ivv_partial_cmp cmp a x.
Proof.
  intros X. unfold ivv_partial_cmp, iv_contains_val.
  assert (E1 : ivv_lt cmp a' x' = ivv_lt cmp a x) by (split_iv A; unfold ivv_lt, iv_upper, uv_lt, vlt, veq; cbn [imp up lo]; kk; reflexivity).
  assert (E2 : ivv_gt cmp a' x' = ivv_gt cmp a x) by (split_iv A; unfold ivv_gt, iv_lower, lv_gt, vgt, veq; cbn [imp up lo]; kk; reflexivity).
  assert (E3 : ivv_eq cmp a' x' = ivv_eq cmp a x) by (split_iv A; unfold ivv_eq, iv_bounds, lv_eq, uv_eq, veq; cbn [imp up lo]; kk; reflexivity).
  rewrite E1, E2, E3. repeat split.
  - split_iv A; unfold ivv_le, iv_upper, uv_le, vle; cbn [imp up lo]; kk; reflexivity.
  - split_iv A; unfold ivv_ge, iv_lower, lv_ge, vge; cbn [imp up lo]; kk; reflexivity.
Qed.
End Pair.
End Up.

Section Down.
Variable T : Type.
Variable cmp : T -> T -> comparison.
Hypothesis HL : ord_laws cmp.
Variable R : T -> T -> Prop.
Hypothesis K : forall x y p q, R x p -> R y q -> cmp p q = cmp y x.
Implicit Types a b i j : interval T.

Definition ulimg (u : upper T) (m : lower T) := R (uval u) (lval m) /\ lclosed m = uclosed u.
Definition luimg (l : lower T) (m : upper T) := R (lval l) (uval m) /\ uclosed m = lclosed l.
Definition dimg a a' : Prop :=
  match imp a, imp a' with
  | None, None => True
  | Some n, Some n' => ulimg (up n) (lo n') /\ luimg (lo n) (up n')
  | _, _ => False
  end.

Ltac split_iv A := match type of A with dimg ?a ?a' =>
  destruct a as [[[?l ?u]|]], a' as [[[?l' ?u']|]]; unfold dimg in A; cbn [imp lo up] in A; try contradiction;
  try (match type of A with _ /\ _ => destruct A as [[? ?] [? ?]] end) end.
Ltac kk := repeat match goal with
  | A : R ?x ?p, B : R ?y ?q |- context [cmp ?p ?q] => rewrite (@K x y p q A B)
  | H : lclosed ?m = _ |- context [lclosed ?m] => rewrite H
  | H : uclosed ?m = _ |- context [uclosed ?m] => rewrite H
  end.
(** decides a question about two values by the three ways they may compare *)
Ltac dd := repeat match goal with
  | |- context [cmp ?x ?y] => let E := fresh "E" in
      destruct (cmp x y) eqn:E; rewrite ?(ord_opp HL x y), ?E; cbn [CompOpp]
  | |- context [lclosed ?x] => destruct (lclosed x)
  | |- context [uclosed ?x] => destruct (uclosed x)
  end; reflexivity.

Lemma dn_lower_cmp u m u' m' : ulimg u u' -> ulimg m m' -> lower_cmp cmp u' m' = CompOpp (upper_cmp cmp u m).
Proof. intros [A1 A2] [B1 B2]. unfold lower_cmp, upper_cmp. kk. rewrite (ord_opp HL (uval u) (uval m)). dd. Qed.
Lemma dn_upper_cmp u m u' m' : luimg u u' -> luimg m m' -> upper_cmp cmp u' m' = CompOpp (lower_cmp cmp u m).
Proof. intros [A1 A2] [B1 B2]. unfold lower_cmp, upper_cmp. kk. rewrite (ord_opp HL (lval u) (lval m)). dd. Qed.
Lemma dn_lower_lt u m u' m' : ulimg u u' -> ulimg m m' -> lower_lt cmp u' m' = upper_gt cmp u m.
Proof. intros [A1 A2] [B1 B2]. unfold lower_lt, upper_gt, lower_partial_cmp, upper_partial_cmp. kk. rewrite (ord_opp HL (uval u) (uval m)). dd. Qed.
Lemma dn_upper_gt u m u' m' : luimg u u' -> luimg m m' -> upper_gt cmp u' m' = lower_lt cmp u m.
Proof. intros [A1 A2] [B1 B2]. unfold lower_lt, upper_gt, lower_partial_cmp, upper_partial_cmp. kk. rewrite (ord_opp HL (lval u) (lval m)). dd. Qed.

Section Pair.
Variables a b a' b' : interval T.
Hypotheses (A : dimg a a') (B : dimg b b').
Ltac go := split_iv A; split_iv B; try reflexivity;
  unfold iv_lt, iv_le, iv_gt, iv_ge, iv_eq, iv_contains_interval, iv_can_be_merged,
    iv_upper, iv_lower, iv_bounds, iv_is_empty, upper_is_separated_from, are_separated, ul_lt, ul_le, ul_gt, ul_ge, lu_lt, lu_le, lu_gt, lu_ge,
    lower_le, upper_ge, lower_partial_cmp, upper_partial_cmp, lower_cmp, upper_cmp, lower_eq, upper_eq, vlt, vle, vgt, vge, veq;
  cbn [imp lo up]; kk; try dd.
Lemma dn_empty : iv_is_empty a' = iv_is_empty a. Proof. go. Qed.
Lemma dn_empty2 : iv_is_empty b' = iv_is_empty b. Proof. go. Qed.
Lemma dn_lt : iv_lt cmp a' b' = iv_gt cmp a b. Proof. go. Qed.
Lemma dn_le : iv_le cmp a' b' = iv_ge cmp a b. Proof. go. Qed.
Lemma dn_gt : iv_gt cmp a' b' = iv_lt cmp a b. Proof. go. Qed.
Lemma dn_ge : iv_ge cmp a' b' = iv_le cmp a b. Proof. go. Qed.
Lemma dn_eq : iv_eq cmp a' b' = iv_eq cmp a b. Proof. go. Qed.
Lemma dn_ci : iv_contains_interval cmp a' b' = iv_contains_interval cmp a b. Proof. go. Qed.
Lemma dn_cm : iv_can_be_merged cmp a' b' = iv_can_be_merged cmp a b. Proof. go. Qed.
Lemma dn_is : iv_intersects cmp a' b' = iv_intersects cmp a b.
Proof. unfold iv_intersects. rewrite dn_gt, dn_lt. now rewrite Bool.orb_comm. Qed.
Lemma dn_pc : wf cmp a -> wf cmp b -> iv_partial_cmp cmp a' b' = option_map CompOpp (iv_partial_cmp cmp a b).
Proof.
  intros WA WB. unfold iv_partial_cmp. rewrite dn_gt, dn_lt, dn_eq.
  destruct (iv_lt cmp a b) eqn:L, (iv_gt cmp a b) eqn:G; try reflexivity; [|destruct (iv_eq cmp a b); reflexivity].
  exfalso. clear A B. destruct a as [[[[[l lc]] [[u uc]]]|]], b as [[[[[l2 lc2]] [[u2 uc2]]]|]]; try discriminate.
  unfold iv_lt, iv_gt, ul_lt, lu_gt, iv_upper, iv_lower in L, G. cbn in L, G.
  unfold wf, well_formed in WA, WB. cbn in WA, WB. unfold lt, eqv in WA, WB.
  assert (X1 : cmp l u <> Gt) by (destruct WA as [W|(W & _)]; rewrite W; discriminate).
  assert (X2 : cmp l2 u2 <> Gt) by (destruct WB as [W|[W _]]; rewrite W; discriminate).
  assert (X3 : cmp u l2 <> Gt) by (intros E; rewrite E in L; discriminate).
  assert (X4 : cmp u2 l <> Gt) by (rewrite (ord_opp HL l u2); intros E; destruct (cmp l u2); discriminate).
  pose proof (@le_trans _ _ HL) as LT. unfold le in LT.
  assert (Y1 : cmp u l <> Gt) by (eapply LT; [exact X3|]; eapply LT; [exact X2|exact X4]).
  assert (Y2 : cmp u2 l2 <> Gt) by (eapply LT; [exact X4|]; eapply LT; [exact X1|exact X3]).
  destruct WA as [W|(W & -> & ->)]; [rewrite (ord_opp HL l u), W in Y1; now apply Y1|].
  destruct WB as [W'|(W' & -> & ->)]; [rewrite (ord_opp HL l2 u2), W' in Y2; now apply Y2|].
  destruct (cmp u l2) eqn:E1; try discriminate.
  assert (Y3 : cmp l2 u <> Gt) by (eapply LT; [exact X2|]; eapply LT; [exact X4|exact X1]).
  rewrite (ord_opp HL u l2), E1 in Y3. now apply Y3.
Qed.

(** the image of a value may be replaced by an equal one, and so may the value *)
Hypothesis RE : forall x y p, cmp x y = Eq -> R x p -> R y p.
Lemma dn_from l u l' u' : ulimg u l' -> luimg l u' -> orel dimg (iv_from_bounds cmp l u) (iv_from_bounds cmp l' u').
Proof.
  destruct l as [[l lc]], u as [[u uc]], l' as [[l' lc']], u' as [[u' uc']]. intros [P1 P2] [Q1 Q2]. cbn in P1, P2, Q1, Q2. subst.
  unfold iv_from_bounds, lower_into_tuple, upper_into_tuple, create_checked, vgt, veq. cbn. kk.
  destruct (cmp l u); cbn; auto; [destruct lc, uc|]; cbn; auto; repeat split; auto.
Qed.
Lemma dn_lmax l m l' m' : ulimg l l' -> ulimg m m' -> ulimg (upper_min cmp l m) (lower_max cmp l' m').
Proof.
  intros X Y. unfold upper_min, lower_max. rewrite (dn_lower_cmp X Y). unfold upper_cmp.
  destruct (cmp (uval l) (uval m)) eqn:E; cbn; auto.
  destruct (Bool.eqb (uclosed l) (uclosed m)) eqn:F; cbn.
  - apply Bool.eqb_prop in F. destruct Y as [Y1 Y2]. split; [|congruence].
    eapply RE; [|exact Y1]. rewrite (ord_opp HL (uval l)), E; reflexivity.
  - destruct (uclosed l); cbn; auto.
Qed.
Lemma dn_lmin l m l' m' : ulimg l l' -> ulimg m m' -> ulimg (upper_max cmp l m) (lower_min cmp l' m').
Proof.
  intros X Y. unfold upper_max, lower_min. rewrite (dn_lower_cmp X Y). unfold upper_cmp.
  destruct (cmp (uval l) (uval m)) eqn:E; cbn; auto.
  destruct (Bool.eqb (uclosed l) (uclosed m)) eqn:F; cbn.
  - apply Bool.eqb_prop in F. destruct X as [Y1 Y2]. split; [|congruence].
    eapply RE; [|exact Y1]. exact E.
  - destruct (uclosed l); cbn; auto.
Qed.
Lemma dn_umin l m l' m' : luimg l l' -> luimg m m' -> luimg (lower_max cmp l m) (upper_min cmp l' m').
Proof.
  intros X Y. unfold lower_max, upper_min. rewrite (dn_upper_cmp X Y). unfold lower_cmp.
  destruct (cmp (lval l) (lval m)) eqn:E; cbn; auto.
  destruct (Bool.eqb (lclosed l) (lclosed m)) eqn:F; cbn.
  - apply Bool.eqb_prop in F. destruct X as [Y1 Y2]. split; [|congruence].
    eapply RE; [|exact Y1]. exact E.
  - destruct (lclosed l); cbn; auto.
Qed.
Lemma dn_umax l m l' m' : luimg l l' -> luimg m m' -> luimg (lower_min cmp l m) (upper_max cmp l' m').
Proof.
  intros X Y. unfold lower_min, upper_max. rewrite (dn_upper_cmp X Y). unfold lower_cmp.
  destruct (cmp (lval l) (lval m)) eqn:E; cbn; auto.
  destruct (Bool.eqb (lclosed l) (lclosed m)) eqn:F; cbn.
  - apply Bool.eqb_prop in F. destruct Y as [Y1 Y2]. split; [|congruence].
    eapply RE; [|exact Y1]. rewrite (ord_opp HL (lval l)), E; reflexivity.
  - destruct (lclosed l); cbn; auto.
Qed.
Lemma dn_intersection : orel dimg (iv_intersection cmp a b) (iv_intersection cmp a' b').
Proof.
  unfold iv_intersection. rewrite dn_empty, dn_empty2, dn_gt, dn_lt.
  replace (iv_is_empty a || iv_is_empty b || iv_lt cmp a b || iv_gt cmp a b)%bool with (iv_is_empty a || iv_is_empty b || iv_gt cmp a b || iv_lt cmp a b)%bool
    by (destruct (iv_is_empty a), (iv_is_empty b), (iv_lt cmp a b), (iv_gt cmp a b); reflexivity).
  destruct (_ || _ || _ || _)%bool; [exact I|].
  split_iv A; split_iv B; cbn; auto.
  rewrite (@dn_lower_lt u u0 l' l'0), (@dn_upper_gt l l0 u' u'0) by (split; auto).
  destruct (lower_lt cmp l l0), (upper_gt cmp u u0); repeat split; auto.
Qed.
Lemma dn_span : orel dimg (iv_span cmp a b) (iv_span cmp a' b').
Proof.
  unfold iv_span. rewrite dn_empty, dn_empty2.
  destruct (iv_is_empty b); [exact A|]. destruct (iv_is_empty a); [exact B|].
  split_iv A; split_iv B; cbn; auto.
  rewrite (@dn_lower_lt u0 u l'0 l'), (@dn_upper_gt l0 l u'0 u') by (split; auto).
  destruct (lower_lt cmp l0 l), (upper_gt cmp u0 u); repeat split; auto.
Qed.
Lemma dn_merge : dimg (fst (iv_merge cmp a b)) (fst (iv_merge cmp a' b')) /\
  srel eq dimg (snd (iv_merge cmp a b)) (snd (iv_merge cmp a' b')).
Proof.
  unfold iv_merge. rewrite dn_cm. destruct (negb (iv_can_be_merged cmp a b)); [cbn; auto|].
  split_iv A; split_iv B; cbn; auto.
  rewrite (@dn_lower_lt u0 u l'0 l'), (@dn_upper_gt l0 l u'0 u') by (split; auto).
  destruct (lower_lt cmp l0 l), (upper_gt cmp u0 u); repeat split; auto.
Qed.
Lemma dn_into_intersection : orel dimg (iv_into_intersection cmp a b) (iv_into_intersection cmp a' b').
Proof.
  unfold iv_into_intersection. rewrite dn_empty, dn_empty2, dn_is.
  destruct (iv_is_empty a); [exact A|]. destruct (iv_is_empty b); [exact B|].
  destruct (negb (iv_intersects cmp a b)); [exact I|].
  split_iv A; split_iv B; cbn [obind unwrap iv_into_bounds imp lo up]; try exact I.
  apply dn_from; [apply dn_lmax|apply dn_umin]; split; auto.
Qed.
Lemma dn_into_span : orel dimg (iv_into_span cmp a b) (iv_into_span cmp a' b').
Proof.
  unfold iv_into_span. rewrite dn_empty, dn_empty2.
  destruct (iv_is_empty b); [exact A|]. destruct (iv_is_empty a); [exact B|].
  split_iv A; split_iv B; cbn [obind unwrap iv_into_bounds imp lo up]; try exact I.
  apply dn_from; [apply dn_lmin|apply dn_umax]; split; auto.
Qed.
Lemma dn_into_merged : orel (srel dimg (fun p q => dimg (fst p) (fst q) /\ dimg (snd p) (snd q)))
  (iv_into_merged cmp a b) (iv_into_merged cmp a' b').
Proof.
  unfold iv_into_merged. rewrite dn_empty, dn_empty2, dn_cm. destruct (negb (iv_can_be_merged cmp a b)); [cbn; auto|].
  destruct (iv_is_empty b); [exact A|]. destruct (iv_is_empty a); [exact B|].
  split_iv A; split_iv B; cbn [obind unwrap iv_into_bounds imp lo up]; try exact I.
  assert (HF : orel dimg (iv_from_bounds cmp (lower_min cmp l l0) (upper_max cmp u u0)) (iv_from_bounds cmp (lower_min cmp l' l'0) (upper_max cmp u' u'0))).
  { apply dn_from; [apply dn_lmin|apply dn_umax]; split; auto. }
  destruct (iv_from_bounds cmp _ _), (iv_from_bounds cmp _ _); cbn in *; auto.
Qed.
Lemma dn_val x x' : R x x' ->
  iv_contains_val cmp a' x' = iv_contains_val cmp a x /\ ivv_lt cmp a' x' = ivv_gt cmp a x /\ ivv_le cmp a' x' = ivv_ge cmp a x /\
  ivv_gt cmp a' x' = ivv_lt cmp a x /\ ivv_ge cmp a' x' = ivv_le cmp a x /\ ivv_eq cmp a' x' = ivv_eq cmp a x.
Proof.
  intros X. unfold iv_contains_val.
  assert (E1 : ivv_lt cmp a' x' = ivv_gt cmp a x).
  { split_iv A; auto; unfold ivv_lt, ivv_gt, iv_upper, iv_lower, uv_lt, lv_gt, vlt, vgt, veq; cbn [imp up lo]; kk; dd. }
  assert (E2 : ivv_gt cmp a' x' = ivv_lt cmp a x).
  { split_iv A; auto; unfold ivv_lt, ivv_gt, iv_upper, iv_lower, uv_lt, lv_gt, vlt, vgt, veq; cbn [imp up lo]; kk; dd. }
  rewrite E1, E2, Bool.orb_comm. repeat split.
  - split_iv A; auto; unfold ivv_le, ivv_ge, iv_upper, iv_lower, uv_le, lv_ge, vle, vge; cbn [imp up lo]; kk; dd.
  - split_iv A; auto; unfold ivv_le, ivv_ge, iv_upper, iv_lower, uv_le, lv_ge, vle, vge; cbn [imp up lo]; kk; dd.
  - split_iv A; auto; unfold ivv_eq, iv_bounds, lv_eq, uv_eq, veq; cbn [imp up lo]; kk; dd.
Qed.
End Pair.
End Down.
