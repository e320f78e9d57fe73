(** Property theorems C95: elements whose [cmp], [<], [>], [==] do not agree. *)
From Coq Require Import Lia Bool Arith.
From Verif Require Import Base IVModel IVModel4 IVSpec IVProofs IVProofs2 IVProofs3 IVProofs4 IVProps1 IVProps2.

(** ** Specification *)
(** every operator says what [cmp] says *)
Definition agree {T} (O : operators T) : Prop :=
  (forall x y, o_lt O x y = true <-> o_cmp O x y = Lt) /\
  (forall x y, o_le O x y = true <-> o_cmp O x y <> Gt) /\
  (forall x y, o_gt O x y = true <-> o_cmp O x y = Gt) /\
  (forall x y, o_ge O x y = true <-> o_cmp O x y <> Lt) /\
  (forall x y, o_eq O x y = true <-> o_cmp O x y = Eq).
(** the order is lawful and [==] may tell apart what the order does not, as
    when [==] is derived and the order looks at one field *)
Record finer {T} (O : operators T) : Prop := {
  fi_ord : ord_laws (o_cmp O);
  fi_lt : forall x y, o_lt O x y = true <-> o_cmp O x y = Lt;
  fi_gt : forall x y, o_gt O x y = true <-> o_cmp O x y = Gt;
  fi_eq : forall x y, o_eq O x y = true -> o_cmp O x y = Eq
}.
Arguments fi_ord {T O}. Arguments fi_lt {T O}. Arguments fi_gt {T O}. Arguments fi_eq {T O}.
(** what the constructors check *)
Definition accepted {T} (O : operators T) (t : ends T) : Prop :=
  match t with
  | None => True
  | Some (l, lc, u, uc) => o_gt O l u = false /\ (o_eq O l u = true -> lc = true /\ uc = true)
  end.
(** a lower end lets more through: smaller, or the same and closed *)
Definition lower_wider {T} (cmp : T -> T -> comparison) (v : T) (c : bool) (v' : T) (c' : bool) : Prop :=
  cmp v v' = Lt \/ cmp v v' = Eq /\ c = true /\ c' = false.
(** ... less *)
Definition lower_tighter {T} (cmp : T -> T -> comparison) (v : T) (c : bool) (v' : T) (c' : bool) : Prop :=
  cmp v v' = Gt \/ cmp v v' = Eq /\ c = false /\ c' = true.
(** an upper end lets more through *)
Definition upper_wider {T} (cmp : T -> T -> comparison) (v : T) (c : bool) (v' : T) (c' : bool) : Prop :=
  cmp v v' = Gt \/ cmp v v' = Eq /\ c = true /\ c' = false.
(** the second if [P], else the first *)
Definition picks {A} (P : Prop) (x y z : A) : Prop := (P -> z = y) /\ (~ P -> z = x).
(** a call that gives the interval with these two ends if the constructors
    accept it, and panics otherwise *)
Definition checked {T} (O : operators T) (l u : T * bool) (o : outcome (interval T)) : Prop :=
  let t := Some (fst l, snd l, fst u, snd u) in
  (accepted O t -> exists i, o = Ret i /\ iv_into_tuple i = t) /\ (~ accepted O t -> o = Panic).

(** two open ends that the order puts at the same place and [==] does not *)
Definition missed {T} (O : operators T) (u : T) (uc : bool) (l : T) (lc : bool) : Prop :=
  o_cmp O u l = Eq /\ o_eq O u l = false /\ uc = false /\ lc = false.

(** ** Lemmas *)
Section Lemmas.
Variable T : Type.
Variable O : operators T.
Notation cmp := (o_cmp O).

Lemma iff_bool (b c : bool) : (b = true <-> c = true) -> b = c.
Proof. destruct b, c; intros [H K]; auto; symmetry; auto. Qed.
Lemma agree_bool : agree O -> (forall x y, o_lt O x y = vlt cmp x y) /\ (forall x y, o_le O x y = vle cmp x y) /\
  (forall x y, o_gt O x y = vgt cmp x y) /\ (forall x y, o_ge O x y = vge cmp x y) /\ (forall x y, o_eq O x y = veq cmp x y).
Proof.
  intros (A & B & C & D & E). unfold vlt, vle, vgt, vge, veq.
  split; [|split; [|split; [|split]]]; intros x y; apply iff_bool; rewrite ?A, ?B, ?C, ?D, ?E; destruct (cmp x y); split; congruence.
Qed.
Lemma fix_ext i : (forall x y, o_gt O x y = vgt cmp x y) -> (forall x y, o_eq O x y = veq cmp x y) ->
  fix_after_modification_o O i = fix_after_modification cmp i.
Proof.
  intros G E. unfold fix_after_modification_o, fix_after_modification. destruct (imp i) as [[l u]|]; auto. cbn.
  rewrite G. destruct (vgt cmp _ _); cbn; now rewrite E.
Qed.
Lemma checked_accepted l lc u uc : (accepted O (Some (l, lc, u, uc)) /\ create_checked_o O l lc u uc = Ret (Interval (Some (NonEmpty (lower_new l lc) (upper_new u uc))))) \/
  (~ accepted O (Some (l, lc, u, uc)) /\ create_checked_o O l lc u uc = Panic).
Proof.
  unfold accepted, create_checked_o. destruct (o_gt O l u); [right; split; [intros [H _]; discriminate|auto]|].
  destruct (o_eq O l u), lc, uc; cbn; try (left; split; [split; auto; discriminate|reflexivity]);
  right; split; auto; intros [_ H]; destruct (H eq_refl); discriminate.
Qed.
Lemma fix_accepted i : (forall x y, o_gt O x y = true -> o_gt O y x = false) -> accepted O (iv_into_tuple (fix_after_modification_o O i)).
Proof.
  intros AS. destruct i as [[[[[l lc]] [[u uc]]]|]]; [|exact I].
  unfold fix_after_modification_o, lval, uval, lclosed, uclosed; cbn.
  destruct (o_gt O l u) eqn:G; cbn.
  - destruct (o_eq O u l && _) eqn:E; cbn; [exact I|]. split; [auto|]. intros K. rewrite K in E. destruct uc, lc; auto; discriminate.
  - destruct (o_eq O l u && _) eqn:E; cbn; [exact I|]. split; [auto|]. intros K. rewrite K in E. destruct uc, lc; auto; discriminate.
Qed.
Lemma from_bounds_checked (l : lower T) (u : upper T) : checked O (lval l, lclosed l) (uval u, uclosed u) (iv_from_bounds_o O l u).
Proof.
  destruct l as [[l lc]], u as [[u uc]]. unfold checked, lval, lclosed, uval, uclosed; cbn.
  destruct (checked_accepted l lc u uc) as [[A ->]|[A ->]]; split; intros H; try contradiction; eauto.
Qed.
Lemma lower_lt_wider (l m : lower T) : lower_lt cmp l m = true <-> lower_wider cmp (lval l) (lclosed l) (lval m) (lclosed m).
Proof.
  unfold lower_lt, lower_partial_cmp, lower_wider. destruct (cmp _ _), (lclosed l), (lclosed m); cbn; intuition discriminate.
Qed.
Lemma upper_gt_wider (l m : upper T) : upper_gt cmp l m = true <-> upper_wider cmp (uval l) (uclosed l) (uval m) (uclosed m).
Proof.
  unfold upper_gt, upper_partial_cmp, upper_wider. destruct (cmp _ _), (uclosed l), (uclosed m); cbn; intuition discriminate.
Qed.
Lemma lower_cmp_tighter (l m : lower T) : lower_cmp cmp l m = Gt <-> lower_tighter cmp (lval l) (lclosed l) (lval m) (lclosed m).
Proof.
  unfold lower_cmp, lower_tighter. destruct (cmp _ _), (lclosed l), (lclosed m); cbn; intuition discriminate.
Qed.
Lemma upper_cmp_wider (l m : upper T) : upper_cmp cmp l m = Gt <-> upper_wider cmp (uval l) (uclosed l) (uval m) (uclosed m).
Proof.
  unfold upper_cmp, upper_wider. destruct (cmp _ _), (uclosed l), (uclosed m); cbn; intuition discriminate.
Qed.
Definition lp (l : lower T) := (lval l, lclosed l).
Definition upp (u : upper T) := (uval u, uclosed u).
Lemma picks_if A (f : A -> T * bool) (b : bool) P x y : (b = true <-> P) -> picks P (f x) (f y) (f (if b then y else x)).
Proof. intros H. split; intros K; destruct b; auto; [apply H in K; discriminate|elim K; now apply H]. Qed.
Lemma picks_gt A (f : A -> T * bool) c P x y : (c = Gt <-> P) -> picks P (f x) (f y) (f (match c with Gt => y | _ => x end)).
Proof. intros H. split; intros K; destruct c; auto; try (apply H in K; discriminate). elim K. now apply H. Qed.
Lemma from_bounds_finer (F : finer O) (l : lower T) (u : upper T) : ok cmp l u -> iv_from_bounds_o O l u = Ret (Interval (Some (NonEmpty l u))).
Proof.
  destruct l as [[l lc]], u as [[u uc]]. unfold ok, iv_from_bounds_o, create_checked_o, lt, eqv; cbn. intros K.
  destruct (o_gt O l u) eqn:G; [apply (fi_gt F) in G; exfalso; unfold lt, eqv in K; intuition congruence|].
  destruct (o_eq O l u) eqn:E; [|reflexivity]. apply (fi_eq F) in E. destruct K as [K|(_ & -> & ->)]; [|reflexivity].
  unfold lt in K. congruence.
Qed.
Lemma separated_finer (F : finer O) (l : lower T) (u : upper T) :
  are_separated_o O l u = false <-> are_separated cmp l u = false \/ missed O (uval u) (uclosed u) (lval l) (lclosed l).
Proof.
  unfold are_separated_o, are_separated, missed, vgt, veq. rewrite (ord_opp (fi_ord F) (uval u) (lval l)).
  pose proof (fi_gt F (lval l) (uval u)) as G. rewrite (ord_opp (fi_ord F) (uval u) (lval l)) in G.
  pose proof (fi_eq F (uval u) (lval l)) as E.
  destruct (cmp (uval u) (lval l)), (o_gt O _ _), (o_eq O _ _), (uclosed u), (lclosed l); cbn in *; intuition congruence.
Qed.
Lemma missed_apart (HL : ord_laws cmp) l1 c1 u1 l2 u2 d2 : ok cmp (Lower (Bound l1 c1)) (Upper (Bound u1 false)) ->
  ok cmp (Lower (Bound l2 false)) (Upper (Bound u2 d2)) -> cmp u1 l2 = Eq ->
  lt cmp l1 u1 /\ lt cmp l2 u2 /\ lt cmp l1 l2 /\ lt cmp u1 u2 /\ lt cmp l1 u2.
Proof.
  intros [A|(_ & _ & A)] [B|(_ & B & _)] E; cbn in *; try discriminate.
  assert (X : lt cmp l1 l2) by ord HL. assert (Y : lt cmp u1 u2) by ord HL. repeat split; auto. ord HL.
Qed.
Lemma missed_merge (F : finer O) l1 c1 u1 d1 l2 c2 u2 d2 : ok cmp (Lower (Bound l1 c1)) (Upper (Bound u1 d1)) ->
  ok cmp (Lower (Bound l2 c2)) (Upper (Bound u2 d2)) -> missed O u1 d1 l2 c2 ->
  are_separated cmp (Lower (Bound l1 c1)) (Upper (Bound u2 d2)) = false /\
  (forall l u, lmin_of cmp l [Lower (Bound l1 c1); Lower (Bound l2 c2)] -> umax_of cmp u [Upper (Bound u1 d1); Upper (Bound u2 d2)] ->
   l = Lower (Bound l1 c1) /\ u = Upper (Bound u2 d2)) /\
  (forall x, mem cmp (Some (l1, c1, u2, d2)) x <-> mem cmp (Some (l1, c1, u1, d1)) x \/ mem cmp (Some (l2, c2, u2, d2)) x \/ eqv cmp x u1).
Proof.
  intros O1 O2 (E & _ & -> & ->). pose proof (fi_ord F) as HL. destruct (missed_apart HL _ _ _ _ _ _ O1 O2 E) as (A & B & C & D & G).
  split; [|split].
  - unfold are_separated, vgt, veq; cbn. rewrite (ord_opp HL l1 u2). unfold lt in G. now rewrite G.
  - intros l u [Hl Kl] [Hu Ku]. cbn in Hl, Hu. split.
    + destruct Hl as [<-|[<-|[]]]; auto. exfalso. specialize (Kl (Lower (Bound l1 c1)) (or_introl eq_refl)).
      unfold le, lower_cmp in Kl; cbn in Kl. rewrite (ord_opp HL l1 l2) in Kl. unfold lt in C. rewrite C in Kl. now elim Kl.
    + destruct Hu as [<-|[<-|[]]]; auto. exfalso. specialize (Ku (Upper (Bound u2 d2)) (or_intror (or_introl eq_refl))).
      unfold le, upper_cmp in Ku; cbn in Ku. rewrite (ord_opp HL u1 u2) in Ku. unfold lt in D. rewrite D in Ku. now elim Ku.
  - intros x. unfold mem, admits_above, admits_below. destruct (lt_or_ge HL x u1) as [X|X].
    + split.
      * intros [P _]. left. auto.
      * intros [[P _]|[[P _]|P]]; [split; auto; destruct d2; ord HL|exfalso; ord HL|exfalso; ord HL].
    + destruct (lt_or_ge HL u1 x) as [Y|Y].
      * split.
        -- intros [_ P]. right; left. split; auto. ord HL.
        -- intros [[_ P]|[[_ P]|P]]; [exfalso; ord HL|split; auto; destruct c1; ord HL|exfalso; ord HL].
      * assert (Z : eqv cmp x u1) by ord HL. split; auto. intros _. split; [destruct c1|destruct d2]; ord HL.
Qed.
End Lemmas.

(** ** C95 *)
(** Operators that agree: all calls do what the other theorems say. *)
Theorem c95_agreeing_operators : forall T (O : operators T) i a b v l lc u uc, agree O ->
  create_checked_o O l lc u uc = create_checked (o_cmp O) l lc u uc /\
  iv_is_single_o O i = iv_is_single (o_cmp O) i /\ iv_contains_val_o O i v = iv_contains_val (o_cmp O) i v /\
  ivv_lt_o O i v = ivv_lt (o_cmp O) i v /\ ivv_le_o O i v = ivv_le (o_cmp O) i v /\
  ivv_gt_o O i v = ivv_gt (o_cmp O) i v /\ ivv_ge_o O i v = ivv_ge (o_cmp O) i v /\
  ivv_eq_o O i v = ivv_eq (o_cmp O) i v /\ ivv_partial_cmp_o O i v = ivv_partial_cmp (o_cmp O) i v /\
  iv_eq_o O a b = iv_eq (o_cmp O) a b /\ iv_le_o O a b = iv_le (o_cmp O) a b /\ iv_ge_o O a b = iv_ge (o_cmp O) a b /\
  iv_partial_cmp_o O a b = iv_partial_cmp (o_cmp O) a b /\
  iv_can_be_merged_o O a b = iv_can_be_merged (o_cmp O) a b /\ iv_merge_o O a b = iv_merge (o_cmp O) a b /\
  iv_into_merged_o O a b = iv_into_merged (o_cmp O) a b /\
  iv_into_intersection_o O a b = iv_into_intersection (o_cmp O) a b /\ iv_into_span_o O a b = iv_into_span (o_cmp O) a b /\
  (forall U (f : T -> U -> outcome T) k,
    iv_add_o O f i k = iv_add (o_cmp O) f i k /\ iv_sub_o O f i k = iv_sub (o_cmp O) f i k /\
    iv_mul_o O f i k = iv_mul (o_cmp O) f i k /\ iv_div_o O f i k = iv_div (o_cmp O) f i k) /\
  (forall U (f : T -> U -> T * outcome unit) k,
    iv_add_assign_o O f i k = iv_add_assign (o_cmp O) f i k /\ iv_sub_assign_o O f i k = iv_sub_assign (o_cmp O) f i k /\
    iv_mul_assign_o O f i k = iv_mul_assign (o_cmp O) f i k /\ iv_div_assign_o O f i k = iv_div_assign (o_cmp O) f i k) /\
  (forall f, iv_neg_o O f i = iv_neg (o_cmp O) f i).
Proof.
  intros T O i a b v l lc u uc AG. destruct (agree_bool _ _ AG) as (L & LE & G & GE & E).
  assert (FX := fun j => fix_ext _ O j G E).
  assert (CC : forall l lc u uc, create_checked_o O l lc u uc = create_checked (o_cmp O) l lc u uc) by (intros; unfold create_checked_o, create_checked; now rewrite G, E).
  assert (FB : forall l u, iv_from_bounds_o O l u = iv_from_bounds (o_cmp O) l u) by (intros; apply CC).
  assert (SP : forall l u, are_separated_o O l u = are_separated (o_cmp O) l u) by (intros; unfold are_separated_o, are_separated; now rewrite G, E).
  assert (CM : iv_can_be_merged_o O a b = iv_can_be_merged (o_cmp O) a b).
  { unfold iv_can_be_merged_o, iv_can_be_merged. destruct (iv_bounds a) as [[]|]; auto. destruct (iv_bounds b) as [[]|]; auto. now rewrite !SP. }
  assert (VL : ivv_lt_o O i v = ivv_lt (o_cmp O) i v) by (unfold ivv_lt_o, ivv_lt, uv_lt_o, uv_lt; destruct (iv_upper i); auto; now rewrite L, E).
  assert (VG : ivv_gt_o O i v = ivv_gt (o_cmp O) i v) by (unfold ivv_gt_o, ivv_gt, lv_gt_o, lv_gt; destruct (iv_lower i); auto; now rewrite G, E).
  assert (VE : ivv_eq_o O i v = ivv_eq (o_cmp O) i v) by (unfold ivv_eq_o, ivv_eq, lv_eq_o, uv_eq_o, lv_eq, uv_eq; destruct (iv_bounds i) as [[]|]; auto; now rewrite !E).
  assert (IE : iv_eq_o O a b = iv_eq (o_cmp O) a b).
  { unfold iv_eq_o, iv_eq, lower_eq_o, upper_eq_o, lower_eq, upper_eq. destruct (imp a), (imp b); auto. now rewrite !E. }
  repeat match goal with |- _ /\ _ => split end; auto.
  - unfold iv_is_single_o, iv_is_single. destruct (imp i); auto.
  - unfold iv_contains_val_o, iv_contains_val. now rewrite VL, VG.
  - unfold ivv_le_o, ivv_le, uv_le_o, uv_le. destruct (iv_upper i); auto.
  - unfold ivv_ge_o, ivv_ge, lv_ge_o, lv_ge. destruct (iv_lower i); auto.
  - unfold ivv_partial_cmp_o, ivv_partial_cmp. now rewrite VL, VG, VE.
  - unfold iv_le_o, iv_le, ul_le_o, ul_le. destruct (iv_upper a); auto. destruct (iv_lower b); auto.
  - unfold iv_ge_o, iv_ge, lu_ge_o, lu_ge. destruct (iv_lower a); auto. destruct (iv_upper b); auto.
  - unfold iv_partial_cmp_o, iv_partial_cmp. now rewrite IE.
  - unfold iv_merge_o, iv_merge. now rewrite CM.
  - unfold iv_into_merged_o, iv_into_merged. rewrite CM. destruct (iv_can_be_merged _ _ _); auto. destruct a as [[[L1 U1]|]], b as [[[L2 U2]|]]; auto. cbn [negb iv_is_empty imp unwrap obind iv_into_bounds lo up]. now rewrite FB.
  - unfold iv_into_intersection_o, iv_into_intersection. destruct a as [[[L1 U1]|]], b as [[[L2 U2]|]]; auto. cbn [iv_is_empty imp unwrap obind iv_into_bounds lo up]. now rewrite FB.
  - unfold iv_into_span_o, iv_into_span. destruct a as [[[L1 U1]|]], b as [[[L2 U2]|]]; auto. cbn [iv_is_empty imp unwrap obind iv_into_bounds lo up]. now rewrite FB.
  - intros U f k. unfold iv_add_o, iv_sub_o, iv_mul_o, iv_div_o, iv_arith_o, iv_add, iv_sub, iv_mul, iv_div. destruct (imp i) as [[x y]|]; auto.
    repeat match goal with |- _ /\ _ => split end; cbn [lo up];
    [destruct (upper_add f y k), (lower_add f x k)|destruct (upper_sub f y k), (lower_sub f x k)|destruct (upper_mul f y k), (lower_mul f x k)|destruct (upper_div f y k), (lower_div f x k)];
    cbn [obind]; auto; now rewrite FX.
  - intros U f k. unfold iv_add_assign_o, iv_sub_assign_o, iv_mul_assign_o, iv_div_assign_o, iv_assign_o, iv_add_assign, iv_sub_assign, iv_mul_assign, iv_div_assign.
    destruct (imp i) as [[x y]|]; [|rewrite FX; auto]. cbn [lo up].
    repeat match goal with |- _ /\ _ => split end;
    [destruct (lower_add_assign f x k) as [? []], (upper_add_assign f y k) as [? []]|destruct (lower_sub_assign f x k) as [? []], (upper_sub_assign f y k) as [? []]
    |destruct (lower_mul_assign f x k) as [? []], (upper_mul_assign f y k) as [? []]|destruct (lower_div_assign f x k) as [? []], (upper_div_assign f y k) as [? []]];
    auto; now rewrite FX.
  - intros f. unfold iv_neg_o, iv_neg. destruct (iv_into_tuple i) as [[[[? ?] ?] ?]|]; auto.
    destruct (f t0); auto; cbn [obind]. destruct (f t); auto; cbn [obind]. unfold create_friendly_o. now rewrite FX.
Qed.
Print Assumptions c95_agreeing_operators.

(** However the operators behave, the calls that work in place return, those
    that build a new interval from two others panic only in the constructor's
    check, and every end of the result is an end of an operand.  This says
    which. *)
Theorem c95_which_ends_are_taken : forall T (O : operators T) a b l1 c1 u1 d1 l2 c2 u2 d2,
  iv_into_tuple a = Some (l1, c1, u1, d1) -> iv_into_tuple b = Some (l2, c2, u2, d2) ->
  (exists j l u, iv_span (o_cmp O) a b = Ret j /\ iv_into_tuple j = Some (fst l, snd l, fst u, snd u) /\
     picks (lower_wider (o_cmp O) l2 c2 l1 c1) (l1, c1) (l2, c2) l /\
     picks (upper_wider (o_cmp O) u2 d2 u1 d1) (u1, d1) (u2, d2) u /\
     iv_merge_o O a b = (if iv_can_be_merged_o O a b then (j, inl tt) else (a, inr b))) /\
  (exists l u, picks (lower_tighter (o_cmp O) l1 c1 l2 c2) (l1, c1) (l2, c2) l /\
     picks (upper_wider (o_cmp O) u1 d1 u2 d2) (u2, d2) (u1, d1) u /\
     checked O l u (iv_into_span_o O a b) /\
     iv_into_merged_o O a b = (if iv_can_be_merged_o O a b then omap inl (iv_into_span_o O a b) else Ret (inr (a, b)))) /\
  (exists j l u, iv_intersection (o_cmp O) a b = Ret j /\
     iv_into_tuple j = (if iv_intersects (o_cmp O) a b then Some (fst l, snd l, fst u, snd u) else None) /\
     picks (lower_wider (o_cmp O) l1 c1 l2 c2) (l1, c1) (l2, c2) l /\
     picks (upper_wider (o_cmp O) u1 d1 u2 d2) (u1, d1) (u2, d2) u) /\
  (exists l u, picks (lower_tighter (o_cmp O) l1 c1 l2 c2) (l2, c2) (l1, c1) l /\
     picks (upper_wider (o_cmp O) u1 d1 u2 d2) (u1, d1) (u2, d2) u /\
     (iv_intersects (o_cmp O) a b = true -> checked O l u (iv_into_intersection_o O a b)) /\
     (iv_intersects (o_cmp O) a b = false -> iv_into_intersection_o O a b = Ret (iv_empty T))).
Proof.
  intros T O a b l1 c1 u1 d1 l2 c2 u2 d2 Ea Eb.
  destruct a as [[[L1 U1]|]]; [|discriminate]. destruct b as [[[L2 U2]|]]; [|discriminate].
  cbn in Ea, Eb. injection Ea as <- <- <- <-. injection Eb as <- <- <- <-.
  split; [|split; [|split]].
  - unfold iv_span, iv_merge_o. cbn [iv_is_empty imp unwrap obind lo up]. eexists _, (lp _ _), (upp _ _).
    split; [reflexivity|]. split; [reflexivity|]. split; [apply (picks_if _ _ (lp T)), lower_lt_wider|].
    split; [apply (picks_if _ _ (upp T)), upper_gt_wider|]. destruct (iv_can_be_merged_o O _ _); reflexivity.
  - unfold iv_into_span_o, iv_into_merged_o. cbn [iv_is_empty imp unwrap obind lo up iv_into_bounds].
    eexists (lp _ _), (upp _ _). split; [apply (picks_gt _ _ (lp T)), lower_cmp_tighter|].
    split; [apply (picks_gt _ _ (upp T)), upper_cmp_wider|]. split; [apply from_bounds_checked|].
    destruct (iv_can_be_merged_o O _ _); [cbn [negb]|reflexivity].
    unfold omap, lower_min, upper_max. reflexivity.
  - unfold iv_intersection, iv_intersects. cbn [iv_is_empty imp orb].
    destruct (iv_gt _ _ _ || _) eqn:A; cbn [negb]; cycle 1.
    + cbn [unwrap obind lo up]. eexists _, (lp _ _), (upp _ _).
      split; [reflexivity|]. split; [reflexivity|]. split; [apply (picks_if _ _ (lp T)), lower_lt_wider|].
      apply (picks_if _ _ (upp T)), upper_gt_wider.
    + exists (Interval None), (lp _ (if lower_lt (o_cmp O) L1 L2 then L2 else L1)), (upp _ (if upper_gt (o_cmp O) U1 U2 then U2 else U1)).
      split; [reflexivity|]. split; [reflexivity|].
      split; [apply (picks_if _ _ (lp T)), lower_lt_wider|apply (picks_if _ _ (upp T)), upper_gt_wider].
  - unfold iv_into_intersection_o. cbn [iv_is_empty imp unwrap obind lo up iv_into_bounds].
    eexists (lp _ _), (upp _ _). split; [apply (picks_gt _ _ (lp T)), lower_cmp_tighter|].
    split; [apply (picks_gt _ _ (upp T)), upper_cmp_wider|].
    destruct (iv_intersects _ _ _); split; intros H; try discriminate; [apply from_bounds_checked|reflexivity].
Qed.
Print Assumptions c95_which_ends_are_taken.

(** The constructors accept exactly what they check; whatever they or a call
    that consumes two intervals return has passed the check, and so has the
    result of arithmetic if [>] never holds both ways. *)
Theorem c95_new_intervals_are_accepted : forall T (O : operators T),
  (forall l lc u uc, checked O (l, lc) (u, uc) (create_checked_o O l lc u uc)) /\
  (forall a b j, iv_is_empty a = false -> iv_is_empty b = false ->
     iv_into_span_o O a b = Ret j \/ iv_into_intersection_o O a b = Ret j \/ iv_into_merged_o O a b = Ret (inl j) ->
     accepted O (iv_into_tuple j)) /\
  ((forall x y, o_gt O x y = true -> o_gt O y x = false) ->
   forall U (f : T -> U -> outcome T) (fa : T -> U -> T * outcome unit) g i k j, iv_is_empty i = false ->
     iv_add_o O f i k = Ret j \/ iv_sub_o O f i k = Ret j \/ iv_mul_o O f i k = Ret j \/ iv_div_o O f i k = Ret j \/
     iv_neg_o O g i = Ret j \/
     iv_add_assign_o O fa i k = (j, Ret tt) \/ iv_sub_assign_o O fa i k = (j, Ret tt) \/
     iv_mul_assign_o O fa i k = (j, Ret tt) \/ iv_div_assign_o O fa i k = (j, Ret tt) ->
     accepted O (iv_into_tuple j)).
Proof.
  intros T O. split; [|split].
  - intros l lc u uc. exact (from_bounds_checked T O (lower_new l lc) (upper_new u uc)).
  - intros a b j Na Nb. destruct a as [[[L1 U1]|]]; [|discriminate]. destruct b as [[[L2 U2]|]]; [|discriminate].
    assert (F : forall l u, iv_from_bounds_o O l u = Ret j -> accepted O (iv_into_tuple j)).
    { intros [[l lc]] [[u uc]] H. unfold iv_from_bounds_o in H; cbn in H. destruct (checked_accepted T O l lc u uc) as [[A E]|[A E]]; rewrite E in H; [|discriminate].
      injection H as <-. exact A. }
    unfold iv_into_span_o, iv_into_intersection_o, iv_into_merged_o. cbn [iv_is_empty imp unwrap obind lo up iv_into_bounds].
    intros [H|[H|H]].
    + eauto.
    + destruct (iv_intersects _ _ _); cbn [negb] in H; [eauto|]. injection H as <-. exact I.
    + destruct (iv_can_be_merged_o _ _ _); cbn [negb] in H; [|discriminate].
      destruct (iv_from_bounds_o _ _ _) eqn:E in H; cbn [obind] in H; try discriminate. injection H as ->. eauto.
  - intros AS U f fa g i k j N.
    assert (R : forall lop uop, iv_arith_o O lop uop i k = Ret j -> accepted O (iv_into_tuple j)).
    { intros lop uop. unfold iv_arith_o. destruct i as [[[l u]|]]; [|discriminate]. cbn [imp lo up].
      destruct (uop u k); cbn [obind]; try discriminate. destruct (lop l k); cbn [obind]; try discriminate.
      intros H; injection H as <-. now apply fix_accepted. }
    assert (Q : forall lop uop, iv_assign_o O lop uop i k = (j, Ret tt) -> accepted O (iv_into_tuple j)).
    { intros lop uop. unfold iv_assign_o. destruct i as [[[l u]|]]; [|discriminate]. cbn [imp lo up].
      destruct (lop l k) as [? []]; try discriminate. destruct (uop u k) as [? []]; try discriminate.
      intros H; injection H as <-. now apply fix_accepted. }
    intros [H|[H|[H|[H|[H|[H|[H|[H|H]]]]]]]]; try exact (R _ _ H); try exact (Q _ _ H).
    unfold iv_neg_o in H. destruct i as [[[l u]|]]; [|discriminate]. cbn [iv_into_tuple imp lower_into_tuple upper_into_tuple lo up] in H.
    destruct (g _); cbn [obind] in H; try discriminate. destruct (g _); cbn [obind] in H; try discriminate.
    injection H as <-. now apply fix_accepted.
Qed.
Print Assumptions c95_new_intervals_are_accepted.

(** A finer [==]: an open end keeps out only the values that are [==] to it. *)
Theorem c95_open_ends_with_finer_equality : forall T (O : operators T) i l lc u uc x, finer O ->
  iv_into_tuple i = Some (l, lc, u, uc) ->
  (iv_contains_val_o O i x = true <->
   le (o_cmp O) l x /\ le (o_cmp O) x u /\ (o_eq O l x = true -> lc = true) /\ (o_eq O u x = true -> uc = true)) /\
  (mem (o_cmp O) (iv_into_tuple i) x -> iv_contains_val_o O i x = true).
Proof.
  intros T O i l lc u uc x F E. destruct i as [[[[[l' lc']] [[u' uc']]]|]]; [|discriminate]. cbn in E. injection E as -> -> -> ->.
  assert (P : iv_contains_val_o O (Interval (Some (NonEmpty (Lower (Bound l lc)) (Upper (Bound u uc))))) x = true <->
   le (o_cmp O) l x /\ le (o_cmp O) x u /\ (o_eq O l x = true -> lc = true) /\ (o_eq O u x = true -> uc = true)).
  { unfold iv_contains_val_o. rewrite negb_true_iff, orb_false_iff.
    cbn. unfold lv_gt_o, uv_lt_o, lval, uval, lclosed, uclosed; cbn. rewrite !orb_false_iff, !andb_false_iff, !negb_false_iff.
    assert (G : o_gt O l x = false <-> le (o_cmp O) l x).
    { unfold le. rewrite <- (fi_gt F). destruct (o_gt O l x); split; auto; try discriminate; tauto. }
    assert (L : o_lt O u x = false <-> le (o_cmp O) x u).
    { unfold le. rewrite (ord_opp (fi_ord F) u x). pose proof (fi_lt F u x). destruct (o_cmp O u x), (o_lt O u x); cbn; intuition congruence. }
    rewrite G, L. destruct (o_eq O l x), (o_eq O u x); intuition congruence. }
  split; [exact P|]. intros [A B]. apply P.
  assert (Q : forall y z, lt (o_cmp O) y z -> o_eq O y z = true -> False) by (intros y z H K; apply (fi_eq F) in K; unfold lt in H; congruence).
  destruct lc, uc; cbn in A, B; repeat split; auto.
  - exact (lt_le B).
  - intros K. exfalso. apply (fi_eq F) in K. unfold lt in B. rewrite (ord_opp (fi_ord F)), K in B. discriminate.
  - exact (lt_le A).
  - intros K. exfalso. eauto.
  - exact (lt_le A).
  - exact (lt_le B).
  - intros K. exfalso. eauto.
  - intros K. exfalso. apply (fi_eq F) in K. unfold lt in B. rewrite (ord_opp (fi_ord F)), K in B. discriminate.
Qed.
Print Assumptions c95_open_ends_with_finer_equality.

(** A finer [==] changes nothing in the span and the intersection of well-formed
    intervals. *)
Theorem c95_set_operations_with_finer_equality : forall T (O : operators T) a b, finer O ->
  well_formed (o_cmp O) (iv_into_tuple a) -> well_formed (o_cmp O) (iv_into_tuple b) ->
  iv_into_span_o O a b = iv_into_span (o_cmp O) a b /\
  iv_into_intersection_o O a b = iv_into_intersection (o_cmp O) a b.
Proof.
  intros T O a b F Wa Wb. pose proof (fi_ord F) as HL.
  destruct a as [[[L1 U1]|]]; [|now destruct b as [[[L2 U2]|]]]. destruct b as [[[L2 U2]|]]; [|now split].
  unfold iv_into_span_o, iv_into_span, iv_into_intersection_o, iv_into_intersection.
  cbn [iv_is_empty imp unwrap obind lo up iv_into_bounds].
  apply (wf_ok (o_cmp O)) in Wa. apply (wf_ok (o_cmp O)) in Wb. split.
  - pose proof (span_ok HL Wa Wb (lmin_is HL L1 L2) (umax_is HL U1 U2)) as K.
    now rewrite (from_bounds_ok HL K), (from_bounds_finer _ _ F _ _ K).
  - destruct (iv_intersects _ _ _) eqn:E; cbn [negb]; auto. unfold iv_intersects in E.
    rewrite (iv_lt_mk HL), iv_gt_mk, negb_true_iff, orb_false_iff in E.
    pose proof (proj1 (cross_ok HL Wa Wb (lmax_is HL L1 L2) (umin_is HL U1 U2)) E) as K.
    now rewrite (from_bounds_ok HL K), (from_bounds_finer _ _ F _ _ K).
Qed.
Print Assumptions c95_set_operations_with_finer_equality.

(** ... but two open ends that are equal for the order and not for [==] count as
    touching, and merging there takes in the values between, which were in
    neither interval. *)
Theorem c95_merging_with_finer_equality : forall T (O : operators T) a b l1 c1 u1 d1 l2 c2 u2 d2, finer O ->
  iv_into_tuple a = Some (l1, c1, u1, d1) -> iv_into_tuple b = Some (l2, c2, u2, d2) ->
  well_formed (o_cmp O) (iv_into_tuple a) -> well_formed (o_cmp O) (iv_into_tuple b) ->
  (iv_can_be_merged_o O a b = true <->
   iv_can_be_merged (o_cmp O) a b = true \/ missed O u1 d1 l2 c2 \/ missed O u2 d2 l1 c1) /\
  (iv_can_be_merged_o O a b = true -> exists j j', iv_merge_o O a b = (j, inl tt) /\
     iv_into_merged_o O a b = Ret (inl j') /\ iv_eq (o_cmp O) j j' = true /\ well_formed (o_cmp O) (iv_into_tuple j) /\
     forall x, mem (o_cmp O) (iv_into_tuple j) x <->
       mem (o_cmp O) (iv_into_tuple a) x \/ mem (o_cmp O) (iv_into_tuple b) x \/
       missed O u1 d1 l2 c2 /\ eqv (o_cmp O) x u1 \/ missed O u2 d2 l1 c1 /\ eqv (o_cmp O) x u2).
Proof.
  intros T O a b l1 c1 u1 d1 l2 c2 u2 d2 F Ea Eb Wa Wb. pose proof (fi_ord F) as HL.
  destruct a as [[[L1 U1]|]]; [|discriminate]. destruct b as [[[L2 U2]|]]; [|discriminate].
  destruct L1 as [[l1' c1']], U1 as [[u1' d1']], L2 as [[l2' c2']], U2 as [[u2' d2']].
  cbn in Ea, Eb. injection Ea as -> -> -> ->. injection Eb as -> -> -> ->.
  set (L1 := Lower (Bound l1 c1)) in *. set (U1 := Upper (Bound u1 d1)) in *.
  set (L2 := Lower (Bound l2 c2)) in *. set (U2 := Upper (Bound u2 d2)) in *.
  apply (wf_ok (o_cmp O)) in Wa. apply (wf_ok (o_cmp O)) in Wb.
  pose proof (missed_merge _ _ F _ _ _ _ _ _ _ _ Wa Wb) as M1. pose proof (missed_merge _ _ F _ _ _ _ _ _ _ _ Wb Wa) as M2.
  pose proof (separated_finer _ _ F L2 U1) as S1. pose proof (separated_finer _ _ F L1 U2) as S2. cbn [L1 U1 L2 U2 uval lval uclosed lclosed ubound lbound bval bclosed] in S1, S2.
  assert (SY : forall u d l c, missed O u d l c -> are_separated (o_cmp O) (Lower (Bound l c)) (Upper (Bound u d)) = true).
  { intros u d l c (E & _ & -> & ->). unfold are_separated, vgt, veq; cbn. rewrite E. apply orb_true_r. }
  assert (CM : iv_can_be_merged_o O (Interval (Some (NonEmpty L1 U1))) (Interval (Some (NonEmpty L2 U2))) = true <->
    iv_can_be_merged (o_cmp O) (Interval (Some (NonEmpty L1 U1))) (Interval (Some (NonEmpty L2 U2))) = true \/ missed O u1 d1 l2 c2 \/ missed O u2 d2 l1 c1).
  { rewrite merge_sep. unfold iv_can_be_merged_o. cbn [iv_bounds imp lo up]. rewrite !negb_true_iff, !orb_false_iff, S1, S2.
    fold L1 U1 L2 U2 in M1, M2. tauto. }
  split; [exact CM|]. intros K. unfold iv_merge_o, iv_into_merged_o. rewrite K. cbn [negb iv_is_empty imp unwrap obind lo up iv_into_bounds].
  rewrite (from_bounds_finer _ _ F _ _ (span_ok HL Wa Wb (lmin_is HL L1 L2) (umax_is HL U1 U2))). cbn [obind].
  do 2 eexists. split; [reflexivity|]. split; [reflexivity|]. split; [|split].
  - apply iv_eq_same, same_bounds; split; [eapply lmin_uniq|eapply umax_uniq]; eauto using lmin_if, lmin_is, umax_if, umax_is.
  - apply wf_ok. exact (span_ok HL Wa Wb (lmin_if HL L1 L2) (umax_if HL U1 U2)).
  - intros x. apply CM in K. destruct K as [K|[K|K]].
    + rewrite (merge_points HL x Wa Wb K) by (do 2 eexists; split; [apply (lmin_if HL)|split; [apply (umax_if HL)|reflexivity]]).
      rewrite merge_sep, negb_true_iff, orb_false_iff in K. destruct K as [K1 K2].
      split; [tauto|]. intros [H|[H|[[H _]|[H _]]]]; auto; apply SY in H; unfold L1, L2, U1, U2 in *; congruence.
    + destruct (M1 K) as (N & P & Q). destruct (P _ _ (lmin_if HL L1 L2) (umax_if HL U1 U2)) as [-> ->].
      rewrite (Q x). split; [intros [H|[H|H]]; auto|]. intros [H|[H|[[_ H]|[H _]]]]; auto. apply SY in H. unfold L1, U2 in N. congruence.
    + destruct (M2 K) as (N & P & Q). 
      assert (PL : lmin_of (o_cmp O) (if lower_lt (o_cmp O) L2 L1 then L2 else L1) [L2; L1]).
      { destruct (lmin_if HL L1 L2) as [A B]. split; [cbn in *; tauto|]. intros m Hm. apply B. cbn in *; tauto. }
      assert (PU : umax_of (o_cmp O) (if upper_gt (o_cmp O) U2 U1 then U2 else U1) [U2; U1]).
      { destruct (umax_if HL U1 U2) as [A B]. split; [cbn in *; tauto|]. intros m Hm. apply B. cbn in *; tauto. }
      destruct (P _ _ PL PU) as [-> ->].
      rewrite (Q x). split; [intros [H|[H|H]]; auto|]. intros [H|[H|[[H _]|[_ H]]]]; auto. apply SY in H. unfold L2, U1 in N. congruence.
Qed.
Print Assumptions c95_merging_with_finer_equality.

(** A finer [==] in the comparisons: [<] and [>] stay sound for the points, an
    interval is [==] to another or to a value only if the ends are, and
    [partial_cmp] agrees with [==]. *)
Theorem c95_comparisons_with_finer_equality : forall T (O : operators T) a b l1 c1 u1 d1 l2 c2 u2 d2 x, finer O ->
  iv_into_tuple a = Some (l1, c1, u1, d1) -> iv_into_tuple b = Some (l2, c2, u2, d2) ->
  (ivv_lt_o O a x = true <-> lt (o_cmp O) u1 x \/ o_eq O u1 x = true /\ d1 = false) /\
  (ivv_gt_o O a x = true <-> lt (o_cmp O) x l1 \/ o_eq O l1 x = true /\ c1 = false) /\
  (forall y, mem (o_cmp O) (iv_into_tuple a) y ->
     (ivv_lt_o O a x = true -> lt (o_cmp O) y x) /\ (ivv_gt_o O a x = true -> lt (o_cmp O) x y)) /\
  (ivv_eq_o O a x = true <-> o_eq O l1 x = true /\ o_eq O u1 x = true /\ c1 = true /\ d1 = true) /\
  (iv_eq_o O a b = true <-> o_eq O l1 l2 = true /\ o_eq O u1 u2 = true /\ c1 = c2 /\ d1 = d2) /\
  (iv_is_single_o O a = true <-> o_eq O l1 u1 = true) /\
  ivv_le_o O a x = o_le O u1 x /\ ivv_ge_o O a x = o_ge O l1 x /\
  iv_le_o O a b = o_le O u1 l2 /\ iv_ge_o O a b = o_ge O l1 u2 /\
  (well_formed (o_cmp O) (iv_into_tuple a) -> well_formed (o_cmp O) (iv_into_tuple b) ->
   (iv_partial_cmp_o O a b = Some Eq <-> iv_eq_o O a b = true) /\
   (ivv_partial_cmp_o O a x = Some Eq <-> ivv_eq_o O a x = true)).
Proof.
  intros T O a b l1 c1 u1 d1 l2 c2 u2 d2 x F Ea Eb. pose proof (fi_ord F) as HL.
  destruct a as [[[L1 U1]|]]; [|discriminate]. destruct b as [[[L2 U2]|]]; [|discriminate].
  destruct L1 as [[l1' c1']], U1 as [[u1' d1']], L2 as [[l2' c2']], U2 as [[u2' d2']].
  cbn in Ea, Eb. injection Ea as -> -> -> ->. injection Eb as -> -> -> ->.
  set (a := Interval (Some (NonEmpty (Lower (Bound l1 c1)) (Upper (Bound u1 d1))))).
  set (b := Interval (Some (NonEmpty (Lower (Bound l2 c2)) (Upper (Bound u2 d2))))).
  assert (L : ivv_lt_o O a x = true <-> lt (o_cmp O) u1 x \/ o_eq O u1 x = true /\ d1 = false).
  { cbn. unfold uv_lt_o, uval, uclosed; cbn. rewrite orb_true_iff, andb_true_iff, negb_true_iff. now rewrite (fi_lt F). }
  assert (G : ivv_gt_o O a x = true <-> lt (o_cmp O) x l1 \/ o_eq O l1 x = true /\ c1 = false).
  { cbn. unfold lv_gt_o, lval, lclosed; cbn. rewrite orb_true_iff, andb_true_iff, negb_true_iff, (fi_gt F). unfold lt.
    rewrite (ord_opp HL l1 x). destruct (o_cmp O l1 x); cbn; intuition congruence. }
  assert (E : ivv_eq_o O a x = true <-> o_eq O l1 x = true /\ o_eq O u1 x = true /\ c1 = true /\ d1 = true).
  { cbn. unfold lv_eq_o, uv_eq_o, lval, lclosed, uval, uclosed; cbn. rewrite !andb_true_iff. tauto. }
  assert (Q : iv_eq_o O a b = true <-> o_eq O l1 l2 = true /\ o_eq O u1 u2 = true /\ c1 = c2 /\ d1 = d2).
  { cbn. unfold lower_eq_o, upper_eq_o, lval, lclosed, uval, uclosed; cbn. rewrite !andb_true_iff, !eqb_true_iff. tauto. }
  split; [exact L|]. split; [exact G|]. split; [|split; [exact E|split; [exact Q|]]].
  { intros y [A B]. rewrite L, G. split.
    - intros [X|[X ->]]; [destruct d1; cbn in B; ord HL|]. apply (fi_eq F) in X. cbn in B. ord HL.
    - intros [X|[X ->]]; [destruct c1; cbn in A; ord HL|]. apply (fi_eq F) in X. cbn in A. ord HL. }
  split; [reflexivity|]. split; [reflexivity|]. split; [reflexivity|]. split; [reflexivity|]. split; [reflexivity|].
  intros Wa Wb. split.
  - unfold iv_partial_cmp_o. split.
    + destruct (iv_gt (o_cmp O) a b), (iv_lt (o_cmp O) a b); try discriminate. destruct (iv_eq_o O a b); auto; discriminate.
    + intros H. rewrite H. apply Q in H. destruct H as (H1 & H2 & <- & <-). apply (fi_eq F) in H1, H2.
      assert (S : iv_eq (o_cmp O) a b = true) by (apply iv_eq_same; cbn; auto).
      destruct (iv_eq_not_lt HL a b Wa S) as [-> ->]. reflexivity.
  - unfold ivv_partial_cmp_o. split.
    + destruct (ivv_lt_o O a x), (ivv_gt_o O a x); try discriminate. destruct (ivv_eq_o O a x); auto; discriminate.
    + intros H. rewrite H. apply E in H. destruct H as (H1 & H2 & -> & ->). apply (fi_eq F) in H1, H2.
      destruct (ivv_lt_o O a x); [destruct (proj1 L eq_refl) as [X|[_ X]]; [exfalso; ord HL|discriminate]|].
      destruct (ivv_gt_o O a x); [destruct (proj1 G eq_refl) as [X|[_ X]]; [exfalso; ord HL|discriminate]|]. reflexivity.
Qed.
Print Assumptions c95_comparisons_with_finer_equality.

(** ordered by the first component, [==] on both *)
Definition c95_first : operators (nat * nat) :=
  let cmp x y := Nat.compare (fst x) (fst y) in
  Operators cmp (vlt cmp) (vle cmp) (vgt cmp) (vge cmp) (fun x y => Nat.eqb (fst x) (fst y) && Nat.eqb (snd x) (snd y)).
Lemma c95_first_finer : finer c95_first.
Proof.
  split; cbn.
  - split; intros [x p] [y q]; cbn; [now rewrite Nat.compare_antisym| |].
    + intros [z r]; cbn. intros H. apply Nat.compare_eq_iff in H. now subst.
    + intros [z r]; cbn. rewrite !Nat.compare_lt_iff. lia.
  - intros x y. unfold vlt. destruct (Nat.compare _ _); split; congruence.
  - intros x y. unfold vgt. destruct (Nat.compare _ _); split; congruence.
  - intros x y. rewrite andb_true_iff, !Nat.eqb_eq, Nat.compare_eq_iff. tauto.
Qed.

(** The span of two intervals that the constructors accept need not be one: a
    lawful order and a lawful finer [==] suffice.  The call in place leaves a
    rejected interval, the consuming one panics. *)
Theorem c95_span_of_accepted_is_accepted_refuted :
  exists (T : Type) (O : operators T) a b j l1 c1 u1 d1 l2 c2 u2 d2,
  finer O /\ (forall x y, o_eq O x y = true <-> x = y) /\
  create_checked_o O l1 c1 u1 d1 = Ret a /\ create_checked_o O l2 c2 u2 d2 = Ret b /\
  iv_span (o_cmp O) a b = Ret j /\ ~ accepted O (iv_into_tuple j) /\ iv_into_span_o O a b = Panic /\
  iv_merge_o O a b = (j, inl tt) /\ iv_into_merged_o O a b = Panic.
Proof.
  exists (nat * nat)%type, c95_first. do 3 eexists. exists (5, 0), false, (5, 1), false, (5, 2), false, (5, 0), true.
  split; [exact c95_first_finer|]. split.
  - intros [x p] [y q]. cbn. rewrite andb_true_iff, !Nat.eqb_eq. split; [intros [-> ->]; auto|intros H; now injection H].
  - repeat (split; [reflexivity|]). split; [|repeat split; reflexivity].
    intros [_ H]. destruct (H eq_refl); discriminate.
Qed.
Print Assumptions c95_span_of_accepted_is_accepted_refuted.

(** operators without any sense: everything is after everything, nothing is
    greater or equal *)
Definition c95_odd : operators nat :=
  Operators (fun _ _ => Gt) (fun _ _ => false) (fun _ _ => false) (fun _ _ => false) (fun _ _ => false) (fun _ _ => false).
Notation nt l lc u uc := (Interval (Some (NonEmpty (Lower (Bound l lc)) (Upper (Bound u uc))))).
Example c95_ex :
  (* open ends and values that are equal for the order only *)
  iv_contains_val_o c95_first (nt (5, 0) false (7, 0) false) (5, 1) = true /\
  iv_contains_val_o c95_first (nt (5, 0) false (7, 0) false) (5, 0) = false /\
  ~ mem (o_cmp c95_first) (iv_into_tuple (nt (5, 0) false (7, 0) false)) (5, 1) /\
  (* comparisons: (5,0]-like ends against a value equal for the order only *)
  ivv_lt_o c95_first (nt (3, 0) true (5, 0) false) (5, 0) = true /\ ivv_lt_o c95_first (nt (3, 0) true (5, 0) false) (5, 1) = false /\
  ivv_eq_o c95_first (nt (5, 0) true (5, 0) true) (5, 0) = true /\ ivv_eq_o c95_first (nt (5, 0) true (5, 0) true) (5, 1) = false /\
  iv_partial_cmp_o c95_first (nt (3, 0) true (5, 0) true) (nt (3, 1) true (5, 0) true) = None /\
  iv_is_single_o c95_first (nt (5, 0) true (5, 1) true) = false /\
  (* well-formed operands *)
  iv_into_span_o c95_first (nt (5, 0) false (7, 0) false) (nt (5, 1) true (5, 2) true) = Ret (nt (5, 1) true (7, 0) false) /\
  iv_into_intersection_o c95_first (nt (3, 0) false (7, 0) false) (nt (5, 1) true (9, 2) true) = Ret (nt (5, 1) true (7, 0) false) /\
  (* merging where two open ends miss each other *)
  missed c95_first (5, 0) false (5, 1) false /\
  iv_can_be_merged (o_cmp c95_first) (nt (3, 0) true (5, 0) false) (nt (5, 1) false (7, 0) true) = false /\
  iv_merge_o c95_first (nt (3, 0) true (5, 0) false) (nt (5, 1) false (7, 0) true) = (nt (3, 0) true (7, 0) true, inl tt) /\
  iv_into_merged_o c95_first (nt (3, 0) true (5, 0) false) (nt (5, 1) false (7, 0) true) = Ret (inl (nt (3, 0) true (7, 0) true)) /\
  iv_contains_val_o c95_first (nt (3, 0) true (7, 0) true) (5, 2) = true /\
  iv_merge_o c95_first (nt (3, 0) true (5, 0) false) (nt (5, 0) false (7, 0) true) = (nt (3, 0) true (5, 0) false, inr (nt (5, 0) false (7, 0) true)) /\
  (* senseless operators: the calls in place and the consuming ones take different ends *)
  create_checked_o c95_odd 9 true 1 false = Ret (nt 9 true 1 false) /\
  iv_span (o_cmp c95_odd) (nt 9 true 1 false) (nt 4 true 4 true) = Ret (nt 9 true 4 true) /\
  iv_into_span_o c95_odd (nt 9 true 1 false) (nt 4 true 4 true) = Ret (nt 4 true 1 false) /\
  iv_intersection (o_cmp c95_odd) (nt 9 true 1 false) (nt 4 true 4 true) = Ret (Interval None) /\
  iv_add_o c95_odd (fun x k => Ret (x * k)) (nt 9 true 1 false) 2 = Ret (nt 18 true 2 false) /\
  (* [>] both ways: arithmetic returns what the constructors reject *)
  (let O := Operators Nat.compare Nat.ltb Nat.leb (fun _ _ => true) (fun x y => Nat.leb y x) Nat.eqb in
   iv_add_o O (fun x k => Ret (x + k)) (nt 1 true 3 true) 2 = Ret (nt 5 true 3 true) /\ create_checked_o O 5 true 3 true = Panic).
Proof. repeat split; try reflexivity. intros [H _]. discriminate H. Qed.
