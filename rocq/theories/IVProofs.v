(** Order reasoning and the basic lemmas about bounds and intervals. *)
From Verif Require Import Base IVModel IVSpec IVRun.
Set Implicit Arguments.

Section Order.
Variable T : Type.
Variable cmp : T -> T -> comparison.
Hypothesis HL : ord_laws cmp.
Implicit Types x y z : T.
Notation lt := (lt cmp).
Notation le := (le cmp).
Notation eqv := (eqv cmp).

Lemma cmp_refl x : cmp x x = Eq.
Proof. pose proof (ord_opp HL x x) as H. destruct (cmp x x); auto; discriminate. Qed.
Lemma le_refl x : le x x.
Proof. unfold IVSpec.le; rewrite cmp_refl; discriminate. Qed.
Lemma lt_le x y : lt x y -> le x y.
Proof. unfold IVSpec.lt, IVSpec.le; intros ->; discriminate. Qed.
Lemma nle_lt x y : ~ le x y -> lt y x.
Proof.
  unfold IVSpec.lt, IVSpec.le; rewrite (ord_opp HL x y). destruct (cmp x y); cbn; auto; intros H; exfalso; apply H; discriminate.
Qed.
Lemma lt_nle x y : lt x y -> ~ le y x.
Proof. unfold IVSpec.lt, IVSpec.le; rewrite (ord_opp HL x y). intros ->; cbn; auto. Qed.
Lemma nlt_le x y : ~ lt x y -> le y x.
Proof. unfold IVSpec.lt, IVSpec.le; rewrite (ord_opp HL x y). destruct (cmp x y); cbn; try discriminate; intros H; exfalso; auto. Qed.
Lemma eqv_les x y : eqv x y -> le x y /\ le y x.
Proof. unfold IVSpec.eqv, IVSpec.le; rewrite (ord_opp HL x y). intros ->; cbn; split; discriminate. Qed.
Lemma les_eqv x y : le x y -> le y x -> eqv x y.
Proof. unfold IVSpec.eqv, IVSpec.le; rewrite (ord_opp HL x y). destruct (cmp x y); cbn; auto; intros A B; exfalso; auto. Qed.
Lemma gt_lt x y : cmp x y = Gt -> lt y x.
Proof. unfold IVSpec.lt; rewrite (ord_opp HL x y). intros ->; auto. Qed.

Lemma le_trans x y z : le x y -> le y z -> le x z.
Proof.
  intros A B. destruct (cmp x y) eqn:H1; [| |exfalso; auto].
  - unfold IVSpec.le in *. rewrite (ord_eq HL _ _ z H1); auto.
  - destruct (cmp y z) eqn:H2; [| |exfalso; auto].
    + apply lt_le. unfold IVSpec.lt.
      assert (H3 : cmp z x = Gt).
      { rewrite <- (ord_eq HL y z x H2). rewrite (ord_opp HL x y), H1; auto. }
      rewrite (ord_opp HL z x), H3; auto.
    + apply lt_le. exact (ord_lt HL _ _ _ H1 H2).
Qed.
Lemma lt_or_ge x y : lt x y \/ le y x.
Proof. destruct (cmp x y) eqn:H; [right|left|right]; auto; apply nlt_le; unfold IVSpec.lt; congruence. Qed.
End Order.

(** normalise comparison facts to [lt] / [le] *)
Ltac ord_hyps HL :=
  repeat match goal with
  | H : ?c ?x ?y = Lt |- _ => change (IVSpec.lt c x y) in H
  | H : ?c ?x ?y = Gt |- _ => apply (gt_lt HL) in H
  | H : ?c ?x ?y = Eq |- _ => apply (eqv_les HL) in H; destruct H
  | H : eqv ?c ?x ?y |- _ => apply (eqv_les HL) in H; destruct H
  | H : ?c ?x ?y <> Gt |- _ => change (IVSpec.le c x y) in H
  | H : ~ IVSpec.lt ?c ?x ?y |- _ => apply (nlt_le HL) in H
  | H : ~ IVSpec.le ?c ?x ?y |- _ => apply (nle_lt HL) in H
  end.
Ltac le_path HL :=
  solve [ apply (le_refl HL)
  | assumption
  | match goal with
    | H : IVSpec.le ?c ?x ?y |- IVSpec.le ?c ?x ?z => apply (le_trans HL H); clear H; le_path HL
    | H : IVSpec.lt ?c ?x ?y |- IVSpec.le ?c ?x ?z => apply (le_trans HL (lt_le H)); clear H; le_path HL
    end ].
Ltac ord_contra HL :=
  match goal with
  | H : IVSpec.lt _ _ _ |- _ => exfalso; apply (lt_nle HL H); le_path HL
  end.
Ltac ord_goal HL :=
  lazymatch goal with
  | |- IVSpec.le _ _ _ => apply (nlt_le HL); intro
  | |- IVSpec.lt _ _ _ => apply (nle_lt HL); intro
  | |- eqv _ _ _ => apply (les_eqv HL); apply (nlt_le HL); intro
  | |- _ => idtac
  end.
Ltac ord HL := ord_hyps HL; first [ord_contra HL | ord_goal HL; ord_hyps HL; ord_contra HL].

(** unfold the boolean operators and split on every comparison *)
Ltac iv_unfold :=
  cbv [mem admits_above admits_below well_formed same
       lower_eq lower_cmp lower_partial_cmp lower_lt lower_le lower_gt lower_ge lower_min lower_max
       upper_eq upper_cmp upper_partial_cmp upper_lt upper_le upper_gt upper_ge upper_min upper_max
       lu_lt lu_le lu_gt lu_ge lu_partial_cmp lu_eq lu_ne ul_lt ul_le ul_gt ul_ge ul_partial_cmp ul_eq ul_ne
       lv_partial_cmp lv_lt lv_le lv_gt lv_ge lv_eq uv_partial_cmp uv_lt uv_le uv_gt uv_ge uv_eq
       are_separated lower_is_separated_from upper_is_separated_from
       create_checked create_friendly fix_after_modification swap_bounds lower_new upper_new
       iv_new iv_from_bounds iv_single iv_open iv_closed iv_lower_closed iv_upper_closed iv_empty
       iv_into_tuple iv_into_bounds iv_upper iv_lower iv_bounds iv_is_empty iv_is_single
       iv_is_lower_closed iv_is_upper_closed ivv_lt ivv_le ivv_gt ivv_ge ivv_eq ivv_partial_cmp
       iv_eq iv_lt iv_le iv_gt iv_ge iv_partial_cmp iv_contains_val iv_contains_interval
       iv_can_be_merged unwrap iv_into_merged iv_merge iv_intersects iv_into_intersection
       iv_intersection iv_into_span iv_span
       lower_into_tuple upper_into_tuple lval lclosed uval uclosed imp lo up lbound ubound bval bclosed
       vlt vgt vle vge veq obind omap fst snd] in *.
(** split the goal's and hypotheses' comparisons one by one, pruning impossible cases *)
Ltac cmp_split HL :=
  match goal with
  | |- context [match ?c ?x ?y with Eq => _ | Lt => _ | Gt => _ end] => destruct (c x y) eqn:?
  | H : context [match ?c ?x ?y with Eq => _ | Lt => _ | Gt => _ end] |- _ => destruct (c x y) eqn:?
  end.
Ltac bool_split :=
  match goal with
  | |- context [if ?b then _ else _] => is_var b; destruct b
  | H : context [if ?b then _ else _] |- _ => is_var b; destruct b
  | b : bool |- context [?b] => destruct b
  end.
Ltac iv_destruct i := destruct i as [[[[[?l ?lc]] [[?u ?uc]]]|]].

Section Basics.
Variable T : Type.
Variable cmp : T -> T -> comparison.
Hypothesis HL : ord_laws cmp.
Implicit Types x y z : T.
Implicit Types a b i j : interval T.

Definition wf i := well_formed cmp (iv_into_tuple i).

(** validity of a pair of bounds *)
Definition ok (l : lower T) (u : upper T) : Prop :=
  lt cmp (lval l) (uval u) \/ eqv cmp (lval l) (uval u) /\ lclosed l = true /\ uclosed u = true.

Lemma wf_ok l u : wf (Interval (Some (NonEmpty l u))) <-> ok l u.
Proof. destruct l as [[l lc]], u as [[u uc]]. reflexivity. Qed.

Lemma ok_alt l u : lu_gt cmp l u = false <-> ok l u.
Proof.
  destruct l as [[l lc]], u as [[u uc]]; unfold ok, lu_gt; cbn.
  destruct (cmp l u) eqn:H.
  - destruct lc, uc; cbn; (split; [intros K; try discriminate; right; auto|]); intros [K|(_ & K1 & K2)]; try discriminate; try ord HL; auto.
  - split; auto.
  - split; [discriminate|]. intros [K|(K & _)]; ord HL.
Qed.

Lemma fix_wf i : wf (fix_after_modification cmp i).
Proof.
  iv_destruct i; [|exact I]. unfold wf, fix_after_modification; cbn.
  unfold vgt, veq. destruct (cmp l u) eqn:H; cbn.
  - rewrite H; destruct lc, uc; cbn; auto.
  - rewrite H; cbn; left; auto.
  - rewrite (ord_opp HL l u), H; cbn. left. unfold lt. now rewrite (ord_opp HL l u), H.
Qed.

Lemma create_checked_ok l lc u uc : ok (lower_new l lc) (upper_new u uc) ->
  create_checked cmp l lc u uc = Ret (Interval (Some (NonEmpty (lower_new l lc) (upper_new u uc)))).
Proof.
  unfold create_checked, ok, vgt, veq; cbn. destruct (cmp l u) eqn:H; auto.
  - intros [K|(_ & -> & ->)]; [ord HL|reflexivity].
  - intros [K|(K & _)]; ord HL.
Qed.

Lemma create_checked_wf l lc u uc i : create_checked cmp l lc u uc = Ret i -> wf i /\ iv_into_tuple i = Some (l, lc, u, uc).
Proof.
  unfold create_checked, vgt, veq. destruct (cmp l u) eqn:H; cbn; [destruct lc, uc; cbn| |]; try discriminate;
  intros K; inversion K; subst; (split; [|reflexivity]); cbn; auto.
Qed.

Lemma from_bounds_ok l u : ok l u -> iv_from_bounds cmp l u = Ret (Interval (Some (NonEmpty l u))).
Proof. destruct l as [[l lc]], u as [[u uc]]. intros H; apply (create_checked_ok H). Qed.

(** *** the bounds' own orders *)
Lemma lower_cmp_laws : ord_laws (lower_cmp cmp).
Proof.
  split.
  - intros [[x a]] [[y b]]; unfold lower_cmp; cbn. rewrite (ord_opp HL x y).
    destruct (cmp x y); cbn; auto; destruct a, b; auto.
  - intros [[x a]] [[y b]] [[z c]]; unfold lower_cmp; cbn. destruct (cmp x y) eqn:H; [|discriminate|discriminate].
    rewrite (ord_eq HL x y z H). destruct a, b; cbn; auto; discriminate.
  - intros [[x a]] [[y b]] [[z c]]; unfold lower_cmp; cbn.
    destruct (cmp x y) eqn:H1, (cmp y z) eqn:H2; try discriminate; intros K1 K2;
    destruct (cmp x z) eqn:H3; auto; try ord HL; destruct a, b, c; auto; discriminate.
Qed.
Lemma upper_cmp_laws : ord_laws (upper_cmp cmp).
Proof.
  split.
  - intros [[x a]] [[y b]]; unfold upper_cmp; cbn. rewrite (ord_opp HL x y).
    destruct (cmp x y); cbn; auto; destruct a, b; auto.
  - intros [[x a]] [[y b]] [[z c]]; unfold upper_cmp; cbn. destruct (cmp x y) eqn:H; [|discriminate|discriminate].
    rewrite (ord_eq HL x y z H). destruct a, b; cbn; auto; discriminate.
  - intros [[x a]] [[y b]] [[z c]]; unfold upper_cmp; cbn.
    destruct (cmp x y) eqn:H1, (cmp y z) eqn:H2; try discriminate; intros K1 K2;
    destruct (cmp x z) eqn:H3; auto; try ord HL; destruct a, b, c; auto; discriminate.
Qed.

Lemma lower_pcmp l m : lower_partial_cmp cmp l m = Some (lower_cmp cmp l m).
Proof. destruct l as [[x a]], m as [[y b]]; unfold lower_partial_cmp, lower_cmp; cbn. destruct (cmp x y), a, b; auto. Qed.
Lemma upper_pcmp l m : upper_partial_cmp cmp l m = Some (upper_cmp cmp l m).
Proof. destruct l as [[x a]], m as [[y b]]; unfold upper_partial_cmp, upper_cmp; cbn. destruct (cmp x y), a, b; auto. Qed.
Lemma lower_eq_cmp l m : lower_eq cmp l m = true <-> lower_cmp cmp l m = Eq.
Proof.
  destruct l as [[x a]], m as [[y b]]; unfold lower_eq, lower_cmp, veq; cbn.
  destruct (cmp x y), a, b; cbn; split; auto; discriminate.
Qed.
Lemma upper_eq_cmp l m : upper_eq cmp l m = true <-> upper_cmp cmp l m = Eq.
Proof.
  destruct l as [[x a]], m as [[y b]]; unfold upper_eq, upper_cmp, veq; cbn.
  destruct (cmp x y), a, b; cbn; split; auto; discriminate.
Qed.

Notation lle := (le (lower_cmp cmp)).
Notation ule := (le (upper_cmp cmp)).

Lemma lower_lt_spec l m : lower_lt cmp l m = true <-> lt (lower_cmp cmp) l m.
Proof. unfold lower_lt; rewrite lower_pcmp; unfold lt. destruct (lower_cmp cmp l m); split; auto; discriminate. Qed.
Lemma lower_le_spec l m : lower_le cmp l m = true <-> lle l m.
Proof. unfold lower_le; rewrite lower_pcmp; unfold le. destruct (lower_cmp cmp l m); split; auto; try discriminate; intros H; exfalso; auto. Qed.
Lemma upper_gt_spec l m : upper_gt cmp l m = true <-> lt (upper_cmp cmp) m l.
Proof. unfold upper_gt; rewrite upper_pcmp; unfold lt. rewrite (ord_opp upper_cmp_laws l m). destruct (upper_cmp cmp l m); cbn; split; auto; discriminate. Qed.
Lemma upper_ge_spec l m : upper_ge cmp l m = true <-> ule m l.
Proof.
  unfold upper_ge; rewrite upper_pcmp; unfold le. rewrite (ord_opp upper_cmp_laws l m).
  destruct (upper_cmp cmp l m); cbn; split; auto; try discriminate; intros H; exfalso; auto.
Qed.

(** a bound seen as a set of points *)
Definition aboveb (l : lower T) x := admits_above cmp (lval l) (lclosed l) x.
Definition belowb (u : upper T) x := admits_below cmp (uval u) (uclosed u) x.

Lemma lle_points l m x : lle l m -> aboveb m x -> aboveb l x.
Proof.
  destruct l as [[l a]], m as [[m b]]; unfold aboveb, le at 1, lower_cmp; cbn.
  destruct (cmp l m) eqn:H, a, b; cbn; intros K1 K2; try congruence; try ord HL.
Qed.
Lemma ule_points l m x : ule l m -> belowb l x -> belowb m x.
Proof.
  destruct l as [[l a]], m as [[m b]]; unfold belowb, le at 1, upper_cmp; cbn.
  destruct (cmp l m) eqn:H, a, b; cbn; intros K1 K2; try congruence; try ord HL.
Qed.

Lemma ok_mono l u l' u' : lle l' l -> ule u u' -> ok l u -> ok l' u'.
Proof.
  destruct l as [[l a]], u as [[u b]], l' as [[l' a']], u' as [[u' b']].
  unfold le at 1 2, lower_cmp, upper_cmp, ok; cbn.
  destruct (cmp l' l) eqn:H1, (cmp u u') eqn:H2; intros K1 K2 K; try congruence;
  destruct K as [K|(K & -> & ->)]; try (left; ord HL; fail);
  destruct a', b'; cbn in *; try congruence;
  right; repeat split; ord HL.
Qed.

Lemma mem_bounds l u x : mem cmp (iv_into_tuple (Interval (Some (NonEmpty l u)))) x <-> aboveb l x /\ belowb u x.
Proof. destruct l as [[l a]], u as [[u b]]. reflexivity. Qed.

(** min and max of bounds *)
Lemma lmin_cases l m : (lower_min cmp l m = l /\ lle l m) \/ (lower_min cmp l m = m /\ lle m l).
Proof.
  unfold lower_min, le. rewrite (ord_opp lower_cmp_laws l m).
  destruct (lower_cmp cmp l m); cbn; auto; [left|left|right]; split; auto; discriminate.
Qed.
Lemma lmax_cases l m : (lower_max cmp l m = m /\ lle l m) \/ (lower_max cmp l m = l /\ lle m l).
Proof.
  unfold lower_max, le. rewrite (ord_opp lower_cmp_laws l m).
  destruct (lower_cmp cmp l m); cbn; auto; [left|left|right]; split; auto; discriminate.
Qed.
Lemma umin_cases l m : (upper_min cmp l m = l /\ ule l m) \/ (upper_min cmp l m = m /\ ule m l).
Proof.
  unfold upper_min, le. rewrite (ord_opp upper_cmp_laws l m).
  destruct (upper_cmp cmp l m); cbn; auto; [left|left|right]; split; auto; discriminate.
Qed.
Lemma umax_cases l m : (upper_max cmp l m = m /\ ule l m) \/ (upper_max cmp l m = l /\ ule m l).
Proof.
  unfold upper_max, le. rewrite (ord_opp upper_cmp_laws l m).
  destruct (upper_cmp cmp l m); cbn; auto; [left|left|right]; split; auto; discriminate.
Qed.
End Basics.
