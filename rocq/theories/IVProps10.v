(** Property theorems C98, continued: what the calls leave behind and return. *)
From Coq Require Import Lia Bool Arith.
From Verif Require Import Base IVModel IVModel3 IVModel4 IVModel5 IVRun5 IVSpec IVProps9.

(** ** Lemmas *)
Ltac judge := first
  [ solve [left; split; reflexivity]
  | solve [right; left; split; [reflexivity|split; [auto|reflexivity]]]
  | solve [right; right; left; eexists; split; [reflexivity|split; [intros H; first [discriminate H|split; reflexivity]|reflexivity]]]
  | solve [right; right; right; left; split; reflexivity]
  | solve [right; right; right; right; split; reflexivity] ].

Lemma holds_mono {T S A} (d : dialog T S A) : forall (P Q : list (event T) -> S -> option (outcome A) -> Prop),
  (forall es s e, P es s e -> Q es s e) -> holds P d -> holds Q d.
Proof.
  induction d as [s r|s k x y next IH]; cbn; intros P Q H K; auto. destruct K as [K1 K2]. split; auto.
  intros a. exact (IH a _ _ (fun es => H _) (K2 a)).
Qed.
Lemma holds_then {T S A B} (s : S) (d : query T A) (f : A -> dialog T S B) : forall P,
  holds (fun es _ e => match e with
    | Some (Ret a) => holds (fun es' => P (es ++ es')) (f a)
    | Some Panic => P es s (Some Panic) | Some Abort => P es s (Some Abort) | Some UB => P es s (Some UB) | Some NoFuel => P es s (Some NoFuel)
    | None => P es s None
    end) d -> holds P (then_ s d f).
Proof.
  induction d as [s' r|s' k x y next IH]; cbn; intros P K; [destruct r; auto|]. destruct K as [K1 K2]. split; auto.
Qed.
Lemma always_holds {T S A} (d : dialog T S A) : forall P, always d P -> holds P d.
Proof.
  induction d as [s r|s k x y next IH]; cbn; intros P H; [apply H; constructor|]. split; [apply H; constructor|].
  intros a. apply IH. intros es s' e R. apply H. now constructor.
Qed.
Lemma judged_then {T A} (l : lower T) (u : upper T) (ok : interval T -> A) :
  holds (fun es _ e => judged (lval l, lclosed l) (uval u, uclosed u) ok es e) (qbind (iv_from_bounds_d l u) (fun i => ret T (ok i))).
Proof. destruct l as [[l lc]], u as [[u uc]]. flags; each; judge. Qed.
Lemma judged_plain {T} (l : lower T) (u : upper T) :
  holds (fun es _ e => judged (lval l, lclosed l) (uval u, uclosed u) (fun i => i) es e) (iv_from_bounds_d l u).
Proof. destruct l as [[l lc]], u as [[u uc]]. flags; each; judge. Qed.
Lemma can_short {T} (a b : interval T) : holds (fun es _ e => length es <= 4 /\ (e = None \/ exists x, e = Some (Ret x))) (iv_can_be_merged_d a b).
Proof. destruct a as [[[[[l lc]] [[u uc]]]|]], b as [[[[[l' lc']] [[u' uc']]]|]]; flags; each; eauto; lia. Qed.

(** ** C98 *)

(** Nothing is asked when an operand is empty, and the call comes to its end. *)
Theorem c98_nothing_asked_about_the_empty : forall T U (a : interval T) (v : T) (k : U) f g h,
  Forall (fun d => exists r, d = Done tt (Ret r))
    [iv_is_single_d nil_iv; ivv_lt_d nil_iv v; ivv_le_d nil_iv v; ivv_gt_d nil_iv v; ivv_ge_d nil_iv v; ivv_eq_d nil_iv v;
     iv_contains_val_d nil_iv v;
     iv_eq_d nil_iv a; iv_eq_d a nil_iv; iv_lt_d nil_iv a; iv_lt_d a nil_iv; iv_le_d nil_iv a; iv_le_d a nil_iv;
     iv_gt_d nil_iv a; iv_gt_d a nil_iv; iv_ge_d nil_iv a; iv_ge_d a nil_iv;
     iv_contains_interval_d nil_iv a; iv_contains_interval_d a nil_iv; iv_can_be_merged_d nil_iv a; iv_can_be_merged_d a nil_iv;
     iv_intersects_d nil_iv a; iv_intersects_d a nil_iv] /\
  Forall (fun d => exists r, d = Done tt (Ret r)) [ivv_partial_cmp_d nil_iv v; iv_partial_cmp_d nil_iv a; iv_partial_cmp_d a nil_iv] /\
  iv_merge_d nil_iv a = Done a (Ret (inl tt)) /\ iv_merge_d a nil_iv = Done a (Ret (inl tt)) /\
  iv_into_merged_d nil_iv a = Done tt (Ret (inl a)) /\ iv_into_merged_d a nil_iv = Done tt (Ret (inl a)) /\
  Forall (fun d => d = Done nil_iv (Ret tt))
    [iv_intersection_d nil_iv a; iv_intersection_d a nil_iv; fix_after_modification_d nil_iv;
     iv_add_assign_d g nil_iv k; iv_sub_assign_d g nil_iv k; iv_mul_assign_d g nil_iv k; iv_div_assign_d g nil_iv k] /\
  iv_span_d nil_iv a = Done a (Ret tt) /\ iv_span_d a nil_iv = Done a (Ret tt) /\
  iv_into_span_d nil_iv a = Done tt (Ret a) /\ iv_into_span_d a nil_iv = Done tt (Ret a) /\
  Forall (fun d => d = Done tt (Ret nil_iv))
    [iv_into_intersection_d nil_iv a; iv_into_intersection_d a nil_iv;
     iv_add_d f nil_iv k; iv_sub_d f nil_iv k; iv_mul_d f nil_iv k; iv_div_d f nil_iv k; iv_neg_d h nil_iv].
Proof. intros T U [[[l1 u1]|]] v k f g h; repeat split; repeat constructor; try reflexivity; eexists; reflexivity. Qed.
Print Assumptions c98_nothing_asked_about_the_empty.

(** [merge] in place, whatever the comparisons answer: it always comes to its end
    unless a comparison panics.  If it refuses, both intervals are as before.  If
    not, each end is the one that the last two answers single out.  If it is
    interrupted, the receiver is as before, or has its new lower end and its old
    upper one. *)
Theorem c98_merge_follows_the_answers : forall T (l : T) lc u uc l' lc' u' uc',
  let a := nt l lc u uc in let b := nt l' lc' u' uc' in
  let low_end c := if low_1st c lc' lc then (l', lc') else (l, lc) in
  let up_end c := if up_1st c uc' uc then (u', uc') else (u, uc) in
  always (iv_merge_d a b) (fun es i e =>
    (e = Some (Ret (inr b)) /\ i = a) \/
    (exists c d, ends_with es [Answered KCmp l' l c; Answered KCmp u' u d] /\
       e = Some (Ret (inl tt)) /\ i = of_ends (low_end c) (up_end d)) \/
    (e = None /\ length es <= 5 /\ i = a) \/
    (exists c, ends_with es [Answered KCmp l' l c; Panicked KCmp u' u] /\
       e = None /\ i = of_ends (low_end c) (u, uc))).
Proof.
  intros T l lc u uc l' lc' u' uc' a b low_end up_end. apply holds_always. unfold iv_merge_d. apply holds_then.
  refine (holds_mono _ _ _ _ (can_short a b)). intros es [] e (N & [->|[[] ->]]); [right; right; left; repeat split; lia| |left; auto].
  cbn [negb]. subst a b. cbn [imp]. unfold iv_widen_d, lower_lt_d, upper_gt_d, lower_partial_cmp_d, upper_partial_cmp_d.
  cbn [qbind then_ ask ret holds app lo up lval uval lclosed uclosed lbound ubound bval bclosed].
  split; [right; right; left; rewrite app_length; cbn; repeat split; lia|]. intros c.
  split; [right; right; right; exists c; split; [now exists es|]; split; [reflexivity|]; subst low_end up_end; now destruct lc, lc', c|].
  intros d. right. left. exists c, d. split; [now exists es|]. split; [reflexivity|]. subst low_end up_end; now destruct lc, lc', uc, uc', c, d.
Qed.
Print Assumptions c98_merge_follows_the_answers.

(** The same for [span]: it does not ask whether the two meet. *)
Theorem c98_span_follows_the_answers : forall T (l : T) lc u uc l' lc' u' uc',
  let a := nt l lc u uc in let b := nt l' lc' u' uc' in
  let low_end c := if low_1st c lc' lc then (l', lc') else (l, lc) in
  let up_end c := if up_1st c uc' uc then (u', uc') else (u, uc) in
  always (iv_span_d a b) (fun es i e =>
    (exists c d, es = [Answered KCmp l' l c; Answered KCmp u' u d] /\ e = Some (Ret tt) /\ i = of_ends (low_end c) (up_end d)) \/
    (es = [Panicked KCmp l' l] /\ e = None /\ i = a) \/
    (exists c, es = [Answered KCmp l' l c; Panicked KCmp u' u] /\ e = None /\ i = of_ends (low_end c) (u, uc))).
Proof.
  intros T l lc u uc l' lc' u' uc' a b low_end up_end. apply holds_always. subst a b low_end up_end. flags; each;
  first [right; left; now repeat split | left; do 2 eexists; split; [reflexivity|split; reflexivity]
   | right; right; eexists; split; [reflexivity|split; reflexivity]].
Qed.
Print Assumptions c98_span_follows_the_answers.

(** [intersection] in place: emptied exactly if one of the first two answers says
    that one interval lies beyond the other. *)
Theorem c98_intersection_follows_the_answers : forall T (l : T) lc u uc l' lc' u' uc',
  let a := nt l lc u uc in let b := nt l' lc' u' uc' in
  let low_end c := if low_1st c lc lc' then (l', lc') else (l, lc) in
  let up_end c := if up_1st c uc uc' then (u', uc') else (u, uc) in
  let gt c := match c with Gt => true | Eq => negb (lc && uc') | Lt => false end in
  let lt c := match c with Lt => true | Eq => negb (uc && lc') | Gt => false end in
  always (iv_intersection_d a b) (fun es i e =>
    (exists c, es = [Answered KCmp l u' c] /\ gt c = true /\ e = Some (Ret tt) /\ i = nil_iv) \/
    (exists c d, es = [Answered KCmp l u' c; Answered KCmp u l' d] /\ gt c = false /\ lt d = true /\ e = Some (Ret tt) /\ i = nil_iv) \/
    (exists c d,
       ((exists p q, es = [Answered KCmp l u' c; Answered KCmp u l' d; Answered KCmp l l' p; Answered KCmp u u' q] /\
           e = Some (Ret tt) /\ i = of_ends (low_end p) (up_end q)) \/
        (exists p, es = [Answered KCmp l u' c; Answered KCmp u l' d; Answered KCmp l l' p; Panicked KCmp u u'] /\
           e = None /\ i = of_ends (low_end p) (u, uc))) /\ gt c = false /\ lt d = false) \/
    (e = None /\ length es <= 3 /\ i = a)).
Proof.
  intros T l lc u uc l' lc' u' uc' a b low_end up_end gt lt. apply holds_always. subst a b low_end up_end gt lt. flags; each;
  first [solve [right; right; right; repeat split; auto; cbn; lia]
   | solve [left; eexists; split; [reflexivity|repeat split]]
   | solve [right; left; do 2 eexists; split; [reflexivity|repeat split]]
   | solve [right; right; left; do 2 eexists; split;
       [first [solve [left; do 2 eexists; split; [reflexivity|split; reflexivity]] | solve [right; eexists; split; [reflexivity|split; reflexivity]]]|split; reflexivity]]].
Qed.
Print Assumptions c98_intersection_follows_the_answers.

(** *** The calls that end with the constructors' check *)

(** A constructor panics or returns by what the comparisons answer to the two
    questions of its check. *)
Theorem c98_constructors_follow_the_answers : forall T (l : T) lc u uc,
  always (create_checked_d l lc u uc) (fun es _ e => judged (l, lc) (u, uc) (fun i => i) es e) /\
  always (iv_from_bounds_d (low l lc) (upp u uc)) (fun es _ e => judged (l, lc) (u, uc) (fun i => i) es e).
Proof. intros T l lc u uc. split; apply holds_always; flags; each; judge. Qed.
Print Assumptions c98_constructors_follow_the_answers.

(** The consuming calls choose the ends by the last two answers before the check
    and then panic or return by what the check is answered: also two intervals
    that touch may be refused or panic. *)
Theorem c98_into_merged_follows_the_answers : forall T (l : T) lc u uc l' lc' u' uc',
  let a := nt l lc u uc in let b := nt l' lc' u' uc' in
  let low_end c := if low_2nd c lc lc' then (l', lc') else (l, lc) in
  let up_end c := if up_1st c uc uc' then (u, uc) else (u', uc') in
  always (iv_into_merged_d a b) (fun es _ e =>
    (e = Some (Ret (inr (a, b))) /\ length es <= 4) \/
    (e = None /\ length es <= 6) \/
    (exists c d es', ends_with es (Answered KCmp l l' c :: Answered KCmp u u' d :: es') /\ judged (low_end c) (up_end d) inl es' e)).
Proof.
  intros T l lc u uc l' lc' u' uc' a b low_end up_end. apply holds_always. unfold iv_into_merged_d. apply holds_then.
  refine (holds_mono _ _ _ _ (can_short a b)). intros es [] e (N & [->|[[] ->]]); [right; left; split; [auto|lia]| |left; cbn; rewrite app_nil_r; auto].
  cbn [negb]. subst a b. cbn [iv_is_empty imp iv_into_bounds unwrap_d lo up].
  apply holds_then; cbn [holds ret]. apply holds_then; cbn [holds ret fst snd]. unfold lower_min_d, upper_max_d, lower_cmp_d, upper_cmp_d.
  cbn [qbind then_ ask ret holds app lval uval lclosed uclosed lbound ubound bval bclosed].
  split; [right; left; rewrite app_length; cbn; split; auto; lia|]. intros c.
  split; [right; left; rewrite app_length; cbn; split; auto; lia|]. intros d.
  refine (holds_mono _ _ _ _ (judged_then _ _ inl)). intros es' _ e J. right. right. exists c, d, es'. split; [now exists es|].
  subst low_end up_end. destruct lc, lc', uc, uc', c, d; exact J.
Qed.
Print Assumptions c98_into_merged_follows_the_answers.

(** The same for [into_span]; it does not ask whether the two meet. *)
Theorem c98_into_span_follows_the_answers : forall T (l : T) lc u uc l' lc' u' uc',
  let a := nt l lc u uc in let b := nt l' lc' u' uc' in
  let low_end c := if low_2nd c lc lc' then (l', lc') else (l, lc) in
  let up_end c := if up_1st c uc uc' then (u, uc) else (u', uc') in
  always (iv_into_span_d a b) (fun es _ e =>
    (e = None /\ length es <= 2) \/
    (exists c d es', es = Answered KCmp l l' c :: Answered KCmp u u' d :: es' /\ judged (low_end c) (up_end d) (fun i => i) es' e)).
Proof.
  intros T l lc u uc l' lc' u' uc' a b low_end up_end. apply holds_always. unfold iv_into_span_d. subst a b.
  cbn [iv_is_empty imp iv_into_bounds unwrap_d lo up].
  apply holds_then; cbn [holds ret]. apply holds_then; cbn [holds ret fst snd]. unfold lower_min_d, upper_max_d, lower_cmp_d, upper_cmp_d.
  cbn [qbind then_ ask ret holds app lval uval lclosed uclosed lbound ubound bval bclosed].
  split; [left; cbn; split; auto; lia|]. intros c. split; [left; cbn; split; auto; lia|]. intros d.
  refine (holds_mono _ _ _ _ (judged_plain _ _)). intros es' _ e J. right. exists c, d, es'. split; [reflexivity|].
  subst low_end up_end. destruct lc, lc', uc, uc', c, d; exact J.
Qed.
Print Assumptions c98_into_span_follows_the_answers.

(** The same for [into_intersection], which is empty by the same answers as
    [intersection]; where the answers make two ends the same it takes the lower
    one of the argument and the upper one of the receiver. *)
Theorem c98_into_intersection_follows_the_answers : forall T (l : T) lc u uc l' lc' u' uc',
  let a := nt l lc u uc in let b := nt l' lc' u' uc' in
  let low_end c := if low_2nd c lc lc' then (l, lc) else (l', lc') in
  let up_end c := if up_1st c uc uc' then (u', uc') else (u, uc) in
  let gt c := match c with Gt => true | Eq => negb (lc && uc') | Lt => false end in
  let lt c := match c with Lt => true | Eq => negb (uc && lc') | Gt => false end in
  always (iv_into_intersection_d a b) (fun es _ e =>
    (exists c, es = [Answered KCmp l u' c] /\ gt c = true /\ e = Some (Ret nil_iv)) \/
    (exists c d, es = [Answered KCmp l u' c; Answered KCmp u l' d] /\ gt c = false /\ lt d = true /\ e = Some (Ret nil_iv)) \/
    (e = None /\ length es <= 4) \/
    (exists c d p q es', es = Answered KCmp l u' c :: Answered KCmp u l' d :: Answered KCmp l l' p :: Answered KCmp u u' q :: es' /\
       gt c = false /\ lt d = false /\ judged (low_end p) (up_end q) (fun i => i) es' e)).
Proof.
  intros T l lc u uc l' lc' u' uc' a b low_end up_end gt lt. apply holds_always. unfold iv_into_intersection_d. subst a b.
  cbn [iv_is_empty imp iv_into_bounds unwrap_d lo up]. unfold qbind at 1. apply holds_then.
  unfold iv_intersects_d, iv_gt_d, iv_lt_d, lu_gt_d, ul_lt_d, qnot, qor.
  cbn [iv_lower iv_upper imp lo up qbind then_ ask ret holds lval uval lclosed uclosed lbound ubound bval bclosed].
  split; [right; right; left; cbn; split; auto; lia|]. intros c.
  replace (match c with Eq => _ | Lt => false | Gt => true end) with (gt c) by (unfold gt; destruct c, lc, uc'; reflexivity).
  destruct (gt c) eqn:E1; cbn [then_ ret holds negb app].
  { left. exists c. auto. }
  split; [right; right; left; cbn; split; auto; lia|]. intros d.
  replace (match d with Eq => _ | Lt => true | Gt => false end) with (lt d) by (unfold lt; destruct d, uc, lc'; reflexivity).
  destruct (lt d) eqn:E2; cbn [then_ ret holds negb app].
  { right. left. exists c, d. auto. }
  unfold lower_max_d, upper_min_d, lower_cmp_d, upper_cmp_d.
  cbn [qbind then_ ask ret holds app fst snd lval uval lclosed uclosed lbound ubound bval bclosed].
  split; [right; right; left; cbn; split; auto; lia|]. intros p. split; [right; right; left; cbn; split; auto; lia|]. intros q.
  refine (holds_mono _ _ _ _ (judged_plain _ _)). intros es' _ e J. right. right. right. exists c, d, p, q, es'. split; [reflexivity|].
  split; [exact E1|]. split; [exact E2|]. subst low_end up_end. destruct lc, lc', uc, uc', p, q; exact J.
Qed.
Print Assumptions c98_into_intersection_follows_the_answers.

(** *** Arithmetic *)

Ltac right_tac g := exists g; cbn; first
  [ solve [left; repeat split] | solve [right; left; repeat split] | solve [right; right; left; repeat split] | solve [right; right; right; repeat split] ].

(** Putting two updated ends in order: exchanged if the first answer is that the
    lower one is greater, emptied if the second is that they are equal and one of
    them is open.  The panic of a comparison leaves the ends as they are or
    exchanged. *)
Theorem c98_arithmetic_follows_the_answers : forall T U (k : U) (l : T) lc u uc l' u' f g neg,
  always (fix_after_modification_d (nt l lc u uc)) (fun es j e =>
    put_right (l, lc) (u, uc) es j (match e with Some _ => true | None => false end) /\ (e = None \/ e = Some (Ret tt))) /\
  always (create_friendly_d l lc u uc) (fun es _ e =>
    exists j, put_right (l, lc) (u, uc) es j (match e with Some _ => true | None => false end) /\ (e = None \/ e = Some (Ret j))) /\
  (f l k = Ret l' -> f u k = Ret u' -> Forall (fun d => always d (fun es _ e =>
     exists j, put_right (l', lc) (u', uc) es j (match e with Some _ => true | None => false end) /\ (e = None \/ e = Some (Ret j))))
     [iv_add_d f (nt l lc u uc) k; iv_sub_d f (nt l lc u uc) k; iv_mul_d f (nt l lc u uc) k; iv_div_d f (nt l lc u uc) k]) /\
  (neg l = Ret l' -> neg u = Ret u' -> always (iv_neg_d neg (nt l lc u uc)) (fun es _ e =>
     exists j, put_right (u', uc) (l', lc) es j (match e with Some _ => true | None => false end) /\ (e = None \/ e = Some (Ret j)))) /\
  (g l k = (l', Ret tt) -> g u k = (u', Ret tt) -> Forall (fun d => always d (fun es j e =>
     put_right (l', lc) (u', uc) es j (match e with Some _ => true | None => false end) /\ (e = None \/ e = Some (Ret tt))))
     [iv_add_assign_d g (nt l lc u uc) k; iv_sub_assign_d g (nt l lc u uc) k; iv_mul_assign_d g (nt l lc u uc) k; iv_div_assign_d g (nt l lc u uc) k]).
Proof.
  intros T U k l lc u uc l' u' f g neg.
  assert (F : forall (l : T) lc u uc, always (fix_after_modification_d (nt l lc u uc)) (fun es j e =>
    put_right (l, lc) (u, uc) es j (match e with Some _ => true | None => false end) /\ (e = None \/ e = Some (Ret tt)))).
  { clear. intros. apply holds_always. flags; each; auto; first [right_tac true | right_tac false]. }
  assert (L : forall (d : dialog T (interval T) unit) P, always d (fun es j e => P es j (match e with Some _ => true | None => false end) /\ (e = None \/ e = Some (Ret tt))) ->
    always (local d) (fun es _ e => exists j, P es j (match e with Some _ => true | None => false end) /\ (e = None \/ e = Some (Ret j)))).
  { clear. induction d as [j r|s k x y next IH]; intros P H es s' e R.
    - cbn in R. destruct (H _ _ _ (runs_done j r)) as [Q [E|E]]; [discriminate|]. injection E as ->. inversion R; subst. eauto.
    - revert es s' e R. apply holds_always. cbn. split.
      + exists s. destruct (H _ _ _ (runs_panic s k x y next)) as [Q _]. auto.
      + intros a. apply always_holds, (IH a (fun es => P (Answered k x y a :: es))). intros es1 s1 e1 R1. apply H. now constructor. }
  split; [apply F|]. split; [apply (L _ _ (F _ _ _ _))|]. split; [|split].
  - intros E1 E2.
    assert (G : forall lop uop, lop (low l lc) k = Ret (low l' lc) -> uop (upp u uc) k = Ret (upp u' uc) ->
      iv_arith_d lop uop (nt l lc u uc) k = local (fix_after_modification_d (nt l' lc u' uc))).
    { intros lop uop H1 H2. unfold iv_arith_d. cbn [imp lo up]. now rewrite H1, H2. }
    repeat apply Forall_cons; [| | | |apply Forall_nil]; (unfold iv_add_d, iv_sub_d, iv_mul_d, iv_div_d; rewrite G;
      [apply (L _ _ (F _ _ _ _))|cbn; unfold lower_add, lower_sub, lower_mul, lower_div, bound_add, bound_sub, bound_mul, bound_div; cbn; now rewrite E1
       |cbn; unfold upper_add, upper_sub, upper_mul, upper_div, bound_add, bound_sub, bound_mul, bound_div; cbn; now rewrite E2]).
  - intros E1 E2. replace (iv_neg_d neg (nt l lc u uc)) with (local (fix_after_modification_d (nt u' uc l' lc)));
     [apply (L _ _ (F _ _ _ _))|unfold iv_neg_d; cbn [iv_into_tuple imp lower_into_tuple upper_into_tuple lo up lbound ubound bval bclosed]; now rewrite E2, E1].
  - intros E1 E2.
    assert (G : forall lop uop, lop (low l lc) k = (low l' lc, Ret tt) -> uop (upp u uc) k = (upp u' uc, Ret tt) ->
      iv_assign_d lop uop (nt l lc u uc) k = fix_after_modification_d (nt l' lc u' uc)).
    { intros lop uop H1 H2. unfold iv_assign_d. cbn [imp lo up]. now rewrite H1, H2. }
    repeat apply Forall_cons; [| | | |apply Forall_nil]; (unfold iv_add_assign_d, iv_sub_assign_d, iv_mul_assign_d, iv_div_assign_d; rewrite G;
      [apply F|cbn; unfold lower_add_assign, lower_sub_assign, lower_mul_assign, lower_div_assign, bound_add_assign, bound_sub_assign, bound_mul_assign, bound_div_assign; cbn; now rewrite E1
       |cbn; unfold upper_add_assign, upper_sub_assign, upper_mul_assign, upper_div_assign, bound_add_assign, bound_sub_assign, bound_mul_assign, bound_div_assign; cbn; now rewrite E2]).
Qed.
Print Assumptions c98_arithmetic_follows_the_answers.

Example c98_ex :
  (* [contains_val]: every comparison asked, the second answer contradicts the first *)
  runs (iv_contains_val_d (nt 1 true 5 true) 3)
    [Answered KGt 1 3 false; Answered KEq 1 3 true; Answered KLt 5 3 false; Answered KEq 5 3 true] tt (Some (Ret true)) /\
  (* [partial_cmp]: equal at the second time of asking *)
  runs (ivv_partial_cmp_d (nt 1 true 5 true) 3)
    [Answered KLt 5 3 false; Answered KEq 5 3 false; Answered KGt 1 3 false; Answered KEq 1 3 false; Answered KEq 1 3 true; Answered KEq 5 3 true]
    tt (Some (Ret (Some Eq))) /\
  (* [merge] takes both ends of the argument although the first four answers put it after the receiver *)
  runs (iv_merge_d (nt 1 true 5 true) (nt 5 true 9 false))
    [Answered KGt 5 5 false; Answered KEq 5 5 true; Answered KGt 1 9 false; Answered KEq 9 1 false;
     Answered KCmp 5 1 Lt; Answered KCmp 9 5 Gt] (nt 5 true 9 false) (Some (Ret (inl tt))) /\
  (* ... interrupted at the last comparison: a lower end above the upper one *)
  runs (iv_merge_d (nt 1 true 5 true) (nt 6 true 9 false))
    [Answered KGt 6 5 false; Answered KEq 5 6 false; Answered KGt 1 9 false; Answered KEq 9 1 false;
     Answered KCmp 6 1 Lt; Panicked KCmp 9 5] (nt 6 true 5 true) None /\
  (* ... refused *)
  runs (iv_merge_d (nt 1 true 5 true) (nt 5 true 9 false)) [Answered KGt 5 5 true] (nt 1 true 5 true) (Some (Ret (inr (nt 5 true 9 false)))) /\
  (* [intersection] and [span] *)
  runs (iv_intersection_d (nt 1 true 5 true) (nt 5 false 9 false)) [Answered KCmp 1 9 Lt; Answered KCmp 5 5 Eq] nil_iv (Some (Ret tt)) /\
  runs (iv_span_d (nt 1 true 5 true) (nt 7 true 9 false)) [Answered KCmp 7 1 Gt; Panicked KCmp 9 5] (nt 1 true 5 true) None /\
  (* consuming: the check of the constructor is asked again, and panics *)
  runs (iv_into_merged_d (nt 1 true 5 true) (nt 5 true 9 false))
    [Answered KGt 5 5 false; Answered KEq 5 5 true; Answered KGt 1 9 false; Answered KEq 9 1 false;
     Answered KCmp 1 5 Lt; Answered KCmp 5 9 Lt; Answered KGt 1 9 false; Answered KEq 1 9 true] tt (Some Panic) /\
  (* arithmetic: exchanged, then emptied *)
  runs (iv_mul_assign_d (fun x k => (x * k, Ret tt)) (nt 1 true 5 false) 2)
    [Answered KGt 2 10 true; Answered KEq 10 2 true] nil_iv (Some (Ret tt)) /\
  runs (iv_mul_assign_d (fun x k => (x * k, Ret tt)) (nt 1 true 5 false) 2)
    [Answered KGt 2 10 true; Panicked KEq 10 2] (nt 10 false 2 true) None /\
  (* fixed comparisons *)
  (let O := of_cmp Nat.compare in
   eval O calm (iv_into_merged_d (nt 1 true 5 true) (nt 5 true 9 false)) = (tt, Ret (inl (nt 1 true 9 false))) /\
   eval O (nervous (fun x y => Nat.eqb x 9) (fun _ _ => false)) (iv_merge_d (nt 3 true 5 true) (nt 1 true 9 false)) = (nt 1 true 5 true, Panic)).
Proof.
  repeat split; repeat (first [apply runs_done | refine (runs_answer _ _ _ _ _ _ _ _ _ _); cbn | apply runs_panic]).
Qed.
