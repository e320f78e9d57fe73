(** Property theorems C98: comparisons that answer anything at any time, or
    panic. *)
From Coq Require Import Lia Bool Arith.
From Verif Require Import Base IVModel IVModel3 IVModel4 IVModel5 IVRun5 IVSpec.

(** ** Specification *)
(** what is compared, without the answer *)
Definition question (T : Type) : Type := (kind * T * T)%type.
Definition question_of {T} (e : event T) : question T :=
  match e with Answered k x y _ | Panicked k x y => (k, x, y) end.
(** a list begins another *)
Definition begins {A} (xs ys : list A) : Prop := exists zs, ys = xs ++ zs.
(** however the comparisons go, the call asks these questions in this order and
    may stop early; and it may come to ask them all and end well *)
Definition script {T S A} (d : dialog T S A) (qs : list (question T)) : Prop :=
  (forall es s e, runs d es s e -> begins (map question_of es) qs) /\
  (exists es s r, runs d es s (Some (Ret r)) /\ map question_of es = qs).
(** however the comparisons go *)
Definition always {T S A} (d : dialog T S A) (P : list (event T) -> S -> option (outcome A) -> Prop) : Prop :=
  forall es s e, runs d es s e -> P es s e.
Notation nt l lc u uc := (Interval (Some (NonEmpty (Lower (Bound l lc)) (Upper (Bound u uc))))).
Notation nil_iv := (Interval None).
Notation low l lc := (Lower (Bound l lc)).
Notation upp u uc := (Upper (Bound u uc)).
(** a list ends with another *)
Definition ends_with {A} (xs ys : list A) : Prop := exists zs, xs = zs ++ ys.
(** The first of two lower ends lets more through, judging by the answer [c] and
    the flags; then the same of the second, and for upper ends. *)
Definition low_1st (c : comparison) (p q : bool) : bool := match c with Lt => true | Eq => p && negb q | Gt => false end.
Definition low_2nd (c : comparison) (p q : bool) : bool := match c with Gt => true | Eq => negb p && q | Lt => false end.
Definition up_1st (c : comparison) (p q : bool) : bool := match c with Gt => true | Eq => p && negb q | Lt => false end.
(** two ends *)
Definition of_ends {T} (l u : T * bool) : interval T := nt (fst l) (snd l) (fst u) (snd u).
(** the constructors were asked about these ends: the questions after the others
    and what came of it *)
Definition judged {T A} (l u : T * bool) (ok : interval T -> A) (es : list (event T)) (e : option (outcome A)) : Prop :=
  (es = [Answered KGt (fst l) (fst u) true] /\ e = Some Panic) \/
  (es = [Answered KGt (fst l) (fst u) false; Answered KEq (fst l) (fst u) true] /\ (snd l = false \/ snd u = false) /\ e = Some Panic) \/
  (exists b : bool, es = [Answered KGt (fst l) (fst u) false; Answered KEq (fst l) (fst u) b] /\
     (b = true -> snd l = true /\ snd u = true) /\ e = Some (Ret (ok (of_ends l u)))) \/
  (es = [Panicked KGt (fst l) (fst u)] /\ e = None) \/
  (es = [Answered KGt (fst l) (fst u) false; Panicked KEq (fst l) (fst u)] /\ e = None).
(** Two updated ends are put in order: what is asked, and what is left then.  An
    interrupted call may leave them as they are or exchanged, but not emptied. *)
Definition put_right {T} (l u : T * bool) (es : list (event T)) (i : interval T) (over : bool) : Prop :=
  exists g : bool, let '(l', u') := if g then (u, l) else (l, u) in
  (es = [Answered KGt (fst l) (fst u) g; Answered KEq (fst l') (fst u') true] /\ over = true /\
     i = (if snd l && snd u then of_ends l' u' else nil_iv)) \/
  (es = [Answered KGt (fst l) (fst u) g; Answered KEq (fst l') (fst u') false] /\ over = true /\ i = of_ends l' u') \/
  (es = [Answered KGt (fst l) (fst u) g; Panicked KEq (fst l') (fst u')] /\ over = false /\ i = of_ends l' u') \/
  (g = false /\ es = [Panicked KGt (fst l) (fst u)] /\ over = false /\ i = of_ends l u).

(** ** Lemmas *)
Section Lemmas.
Context {T : Type}.
Fixpoint holds {S A} (P : list (event T) -> S -> option (outcome A) -> Prop) (d : dialog T S A) : Prop :=
  match d with
  | Done s r => P [] s (Some r)
  | Ask s k x y next => P [Panicked k x y] s None /\ forall a, holds (fun es => P (Answered k x y a :: es)) (next a)
  end.
Lemma holds_always {S A} (d : dialog T S A) : forall P, holds P d -> always d P.
Proof.
  intros P H es s e R. revert P H. induction R as [s r|s k x y next a es s' e R IH|s k x y next]; cbn; intros P H; auto.
  - destruct H as [_ H]. exact (IH _ (H a)).
  - apply H.
Qed.
Lemma begins_nil {A} (ys : list A) : begins [] ys.
Proof. now exists ys. Qed.
Lemma begins_cons {A} (x : A) xs ys : begins xs ys -> begins (x :: xs) (x :: ys).
Proof. intros [zs ->]. now exists zs. Qed.
Lemma eval_runs {S A} (O : operators T) pn (d : dialog T S A) : forall es s e, runs d es s e -> Forall (given_by O pn) es ->
  eval O pn d = (s, match e with Some r => r | None => Panic end).
Proof.
  intros es s e R. induction R as [s r|s k x y next a es s' e R IH|s k x y next]; intros F; cbn; auto.
  - inversion F as [|? ? G F']; subst. cbn in G. destruct G as [N E]; subst. rewrite N. auto.
  - inversion F as [|? ? N F']; subst. cbn in N. now rewrite N.
Qed.
Lemma runs_eval {S A} (O : operators T) pn (d : dialog T S A) : exists es s e, runs d es s e /\ Forall (given_by O pn) es.
Proof.
  induction d as [s r|s k x y next IH].
  - do 3 eexists. split; constructor.
  - destruct (pn k x y) eqn:N.
    + do 3 eexists. split; [apply runs_panic|]. repeat constructor. exact N.
    + destruct (IH (answers O k x y)) as (es & s' & e & R & F). do 3 eexists. split; [apply runs_answer; exact R|].
      constructor; auto. now split.
Qed.
Lemma ends_refl {A} (xs : list A) : ends_with xs xs.
Proof. now exists []. Qed.
Lemma ends_skip {A} (x : A) xs ys : ends_with xs ys -> ends_with (x :: xs) ys.
Proof. intros [zs ->]. now exists (x :: zs). Qed.
End Lemmas.
Ltac ends_tac := repeat first [apply ends_refl | apply ends_skip].

(** the value of a call of fixed operators that do not panic *)
Section Steady.
Context {T : Type} (O : operators T).
Notation "d >> x" := (eval O calm d = (tt, Ret x)) (at level 70).
Notation cmp := (o_cmp O).
Lemma ev_then {S A B} (s : S) (d : query T A) (f : A -> dialog T S B) x : d >> x -> eval O calm (then_ s d f) = eval O calm (f x).
Proof.
  induction d as [[] r|s' k p q next IH]; cbn; intros H; [injection H as ->; reflexivity|]. now apply IH.
Qed.
Lemma ev_bind {A B} (d : query T A) (f : A -> query T B) x : d >> x -> eval O calm (qbind d f) = eval O calm (f x).
Proof. apply ev_then. Qed.
Lemma ev_or (d d' : query T bool) x y : d >> x -> d' >> y -> qor d d' >> (x || y).
Proof. intros H K. unfold qor. rewrite (ev_bind _ _ _ H). destruct x; auto. Qed.
Lemma ev_and (d d' : query T bool) x y : d >> x -> d' >> y -> qand d d' >> (x && y).
Proof. intros H K. unfold qand. rewrite (ev_bind _ _ _ H). destruct x; auto. Qed.
Lemma ev_not (d : query T bool) x : d >> x -> qnot d >> negb x.
Proof. intros H. unfold qnot. now rewrite (ev_bind _ _ _ H). Qed.
Lemma ev_ret {A} (x : A) : ret T x >> x.
Proof. reflexivity. Qed.
Lemma ev_ask {S B} k (x y : T) (s : S) (f : answer k -> dialog T S B) : eval O calm (then_ s (ask k x y) f) = eval O calm (f (answers O k x y)).
Proof. reflexivity. Qed.
Lemma ev_flag (x y : T) b : qand (ask KEq x y) (ret T b) >> (o_eq O x y && b).
Proof. apply ev_and; reflexivity. Qed.
Lemma ev_local (d : dialog T (interval T) unit) i : eval O calm d = (i, Ret tt) -> local d >> i.
Proof.
  induction d as [j r|s' k p q next IH]; cbn; intros H; [injection H as -> ->; reflexivity|]. now apply IH.
Qed.
Lemma ev_lower_min a b : lower_min_d a b >> lower_min cmp a b.
Proof. cbn. unfold lower_min, lower_cmp. now destruct (cmp _ _). Qed.
Lemma ev_lower_max a b : lower_max_d a b >> lower_max cmp a b.
Proof. cbn. unfold lower_max, lower_cmp. now destruct (cmp _ _). Qed.
Lemma ev_upper_min a b : upper_min_d a b >> upper_min cmp a b.
Proof. cbn. unfold upper_min, upper_cmp. now destruct (cmp _ _). Qed.
Lemma ev_upper_max a b : upper_max_d a b >> upper_max cmp a b.
Proof. cbn. unfold upper_max, upper_cmp. now destruct (cmp _ _). Qed.
Lemma ev_lower_lt a b : lower_lt_d a b >> lower_lt cmp a b.
Proof. cbn. unfold lower_lt, lower_partial_cmp. now destruct (cmp _ _). Qed.
Lemma ev_lower_le a b : lower_le_d a b >> lower_le cmp a b.
Proof. cbn. unfold lower_le, lower_partial_cmp. now destruct (cmp _ _). Qed.
Lemma ev_upper_gt a b : upper_gt_d a b >> upper_gt cmp a b.
Proof. cbn. unfold upper_gt, upper_partial_cmp. now destruct (cmp _ _). Qed.
Lemma ev_upper_ge a b : upper_ge_d a b >> upper_ge cmp a b.
Proof. cbn. unfold upper_ge, upper_partial_cmp. now destruct (cmp _ _). Qed.
Lemma ev_separated l u : are_separated_d l u >> are_separated_o O l u.
Proof. unfold are_separated_o. rewrite <- andb_assoc. apply ev_or; [reflexivity|]. apply ev_and; [reflexivity|apply ev_ret]. Qed.
Lemma ev_checked l lc u uc : eval O calm (create_checked_d l lc u uc) = (tt, create_checked_o O l lc u uc).
Proof.
  unfold create_checked_d, create_checked_o. unfold qbind at 1; rewrite ev_ask. cbn [answers].
  destruct (o_gt O l u); auto. rewrite (ev_bind _ _ _ (ev_flag _ _ _)). cbn [answers]. now destruct (_ && _).
Qed.
Lemma ev_from_bounds l u : eval O calm (iv_from_bounds_d l u) = (tt, iv_from_bounds_o O l u).
Proof. apply ev_checked. Qed.
Lemma ev_fix i : eval O calm (fix_after_modification_d i) = (fix_after_modification_o O i, Ret tt).
Proof.
  unfold fix_after_modification_d, fix_after_modification_o. destruct (imp i) as [[l u]|]; auto.
  rewrite ev_ask. cbn [answers lo up].
  destruct (o_gt O _ _); cbn [swap_bounds lo up]; rewrite (ev_then _ _ _ _ (ev_flag _ _ _)); cbn [answers eval]; now destruct (_ && _).
Qed.
Lemma ev_ivv_lt a v : ivv_lt_d a v >> ivv_lt_o O a v.
Proof. destruct a as [[[l u]|]]; [|reflexivity]. apply ev_or; [reflexivity|]. apply ev_and; [reflexivity|apply ev_ret]. Qed.
Lemma ev_ivv_gt a v : ivv_gt_d a v >> ivv_gt_o O a v.
Proof. destruct a as [[[l u]|]]; [|reflexivity]. apply ev_or; [reflexivity|]. apply ev_and; [reflexivity|apply ev_ret]. Qed.
Lemma ev_ivv_eq a v : ivv_eq_d a v >> ivv_eq_o O a v.
Proof. destruct a as [[[l u]|]]; [|reflexivity]. apply ev_and; (apply ev_and; [reflexivity|apply ev_ret]). Qed.
Lemma ev_iv_eq a b : iv_eq_d a b >> iv_eq_o O a b.
Proof. destruct a as [[[l u]|]], b as [[[l' u']|]]; try reflexivity. apply ev_and; (apply ev_and; [reflexivity|apply ev_ret]). Qed.
Lemma ev_iv_lt a b : iv_lt_d a b >> iv_lt cmp a b.
Proof. destruct a as [[[l u]|]], b as [[[l' u']|]]; reflexivity. Qed.
Lemma ev_iv_gt a b : iv_gt_d a b >> iv_gt cmp a b.
Proof. destruct a as [[[l u]|]], b as [[[l' u']|]]; reflexivity. Qed.
Lemma ev_can a b : iv_can_be_merged_d a b >> iv_can_be_merged_o O a b.
Proof. destruct a as [[[l u]|]], b as [[[l' u']|]]; try reflexivity. apply ev_not, ev_or; apply ev_separated. Qed.
Lemma ev_meets a b : iv_intersects_d a b >> iv_intersects cmp a b.
Proof. apply ev_not, ev_or; [apply ev_iv_gt|apply ev_iv_lt]. Qed.
Lemma ev_widen {A} s o (r : A) : eval O calm (iv_widen_d s o r) = (Interval (Some (NonEmpty (if lower_lt cmp (lo o) (lo s) then lo o else lo s) (if upper_gt cmp (up o) (up s) then up o else up s))), Ret r).
Proof. unfold iv_widen_d. rewrite (ev_then _ _ _ _ (ev_lower_lt _ _)). now rewrite (ev_then _ _ _ _ (ev_upper_gt _ _)). Qed.
Lemma ev_tail {A} (d : query T A) o : eval O calm d = (tt, o) -> forall B (f : A -> B), eval O calm (qbind d (fun i => ret T (f i))) = (tt, obind o (fun i => Ret (f i))).
Proof.
  unfold qbind. induction d as [[] r|s' k p q next IH]; cbn; intros H B f; [injection H as ->; now destruct o|]. now apply IH.
Qed.
Lemma ev_lift {A B} (o : outcome A) (f : A -> query T B) : eval O calm (qbind (lift T o) f) = match o with Ret x => eval O calm (f x) | Panic => (tt, Panic) | Abort => (tt, Abort) | UB => (tt, UB) | NoFuel => (tt, NoFuel) end.
Proof. now destruct o. Qed.
Lemma ev_arith {U} lop uop i (k : U) : eval O calm (iv_arith_d lop uop i k) = (tt, iv_arith_o O lop uop i k).
Proof.
  unfold iv_arith_d, iv_arith_o. destruct (imp i) as [a|]; auto. rewrite ev_lift. destruct (uop _ _) as [u| | | |]; auto.
  rewrite ev_lift. cbn [obind]. destruct (lop _ _) as [l| | | |]; auto. cbn [obind]. apply ev_local, ev_fix.
Qed.
Lemma ev_assign {U} lop uop i (k : U) : eval O calm (iv_assign_d lop uop i k) = iv_assign_o O lop uop i k.
Proof.
  unfold iv_assign_d, iv_assign_o. destruct (imp i) as [a|]; [|apply ev_fix].
  destruct (lop _ _) as [l [[]| | | |]]; auto. destruct (uop _ _) as [u [[]| | | |]]; auto. apply ev_fix.
Qed.
End Steady.
(** the value of a call of a fixed order where some pairs panic *)
Section Nervous.
Context {T : Type} (cmp : T -> T -> comparison) (op ep : T -> T -> bool).
Notation ev := (eval (of_cmp cmp) (nervous op ep)).
Lemma pv_then {S A B} (s : S) (d : query T A) (f : A -> dialog T S B) o : ev d = (tt, o) ->
  ev (then_ s d f) = match o with Ret x => ev (f x) | Panic => (s, Panic) | Abort => (s, Abort) | UB => (s, UB) | NoFuel => (s, NoFuel) end.
Proof.
  revert o. induction d as [[] r|s' k p q next IH]; cbn; intros o H; [injection H as ->; now destruct o|].
  destruct (nervous op ep k p q); [injection H as _ <-; reflexivity|]. now apply IH.
Qed.
Lemma pv_bind {A B} (d : query T A) (f : A -> query T B) o : ev d = (tt, o) ->
  ev (qbind d f) = match o with Ret x => ev (f x) | Panic => (tt, Panic) | Abort => (tt, Abort) | UB => (tt, UB) | NoFuel => (tt, NoFuel) end.
Proof. apply pv_then. Qed.
Lemma pv_gt (x y : T) : @eval T unit bool (of_cmp cmp) (nervous op ep) (ask KGt x y) = (tt, vgt_p cmp op x y).
Proof. cbn. unfold vgt_p. now destruct (op x y). Qed.
Lemma pv_eq (x y : T) : @eval T unit bool (of_cmp cmp) (nervous op ep) (ask KEq x y) = (tt, veq_p cmp ep x y).
Proof. cbn. unfold veq_p. now destruct (ep x y). Qed.
Lemma pv_lower_lt a b : ev (lower_lt_d a b) = (tt, lower_lt_p cmp op a b).
Proof. cbn. unfold lower_lt_p, lower_lt, lower_partial_cmp. destruct (op _ _); [reflexivity|]. cbn. now destruct (cmp _ _). Qed.
Lemma pv_upper_gt a b : ev (upper_gt_d a b) = (tt, upper_gt_p cmp op a b).
Proof. cbn. unfold upper_gt_p, upper_gt, upper_partial_cmp. destruct (op _ _); [reflexivity|]. cbn. now destruct (cmp _ _). Qed.
Lemma pv_separated l u : ev (are_separated_d l u) = (tt, are_separated_p cmp op ep l u).
Proof.
  unfold are_separated_p, vgt_p, veq_p. cbn. destruct (op _ _); cbn; auto. destruct (vgt _ _ _); cbn; auto. destruct (ep _ _); cbn; auto.
  now destruct (veq _ _ _).
Qed.
Lemma pv_or (d d' : query T bool) o o' : ev d = (tt, o) -> ev d' = (tt, o') -> ev (qor d d') = (tt, obind o (fun x => if x then Ret true else o')).
Proof. intros H K. unfold qor. rewrite (pv_bind _ _ _ H). now destruct o as [[]| | | |]. Qed.
Lemma pv_not (d : query T bool) o : ev d = (tt, o) -> ev (qnot d) = (tt, omap negb o).
Proof. intros H. unfold qnot. rewrite (pv_bind _ _ _ H). now destruct o as [[]| | | |]. Qed.
Lemma pv_can a b : ev (iv_can_be_merged_d a b) = (tt, iv_can_be_merged_p cmp op ep a b).
Proof.
  destruct a as [[[l u]|]], b as [[[l' u']|]]; try reflexivity.
  unfold iv_can_be_merged_p, iv_can_be_merged_d. cbn [iv_bounds imp lo up].
  rewrite (pv_not _ _ (pv_or _ _ _ _ (pv_separated _ _) (pv_separated _ _))).
  destruct (are_separated_p cmp op ep l' u) as [[]| | | |]; cbn; auto; now destruct (are_separated_p cmp op ep l u') as [[]| | | |].
Qed.
Lemma pv_iv_gt a b : ev (iv_gt_d a b) = (tt, iv_gt_p cmp op a b).
Proof. destruct a as [[[l u]|]], b as [[[l' u']|]]; try reflexivity. cbn. unfold lu_gt_p. now destruct (op _ _). Qed.
Lemma pv_iv_lt a b : ev (iv_lt_d a b) = (tt, iv_lt_p cmp op a b).
Proof. destruct a as [[[l u]|]], b as [[[l' u']|]]; try reflexivity. cbn. unfold ul_lt_p. now destruct (op _ _). Qed.
Lemma pan_can a b : (exists x, iv_can_be_merged_p cmp op ep a b = Ret x) \/ iv_can_be_merged_p cmp op ep a b = Panic.
Proof.
  unfold iv_can_be_merged_p, are_separated_p, vgt_p, veq_p. destruct (iv_bounds a) as [[l u]|]; eauto. destruct (iv_bounds b) as [[l' u']|]; eauto.
  destruct (op _ _); cbn; auto. destruct (vgt _ _ _); cbn; eauto. destruct (ep _ _); cbn; auto.
  destruct (_ && _); eauto. destruct (op _ _); cbn; auto. destruct (vgt _ _ _); cbn; eauto. destruct (ep _ _); cbn; eauto.
Qed.
Lemma pv_widen {A} s o (r : A) : ev (iv_widen_d s o r) = match iv_widen_p cmp op s o with (i, q) => (i, omap (fun _ => r) q) end.
Proof.
  unfold iv_widen_d, iv_widen_p. rewrite (pv_then _ _ _ _ (pv_lower_lt _ _)). unfold lower_lt_p. destruct (op _ _); [now destruct s|].
  rewrite (pv_then _ _ _ _ (pv_upper_gt _ _)). unfold upper_gt_p. now destruct (op _ _).
Qed.
Lemma pv_fix i : ev (fix_after_modification_d i) = fix_after_modification_p cmp op ep i.
Proof.
  unfold fix_after_modification_d, fix_after_modification_p. destruct i as [[[l u]|]]; auto. cbn [imp lo up]. unfold vgt_p, veq_p. cbn.
  destruct (op _ _); auto. cbn. destruct (vgt _ _ _); cbn; destruct (ep _ _); auto; cbn; destruct (veq _ _ _); auto.
Qed.
Lemma pv_assign {U} lop uop i (k : U) : ev (iv_assign_d lop uop i k) = iv_assign_p cmp op ep lop uop i k.
Proof.
  unfold iv_assign_d, iv_assign_p. destruct (imp i) as [a|]; [|apply pv_fix].
  destruct (lop _ _) as [l [[]| | | |]]; auto. destruct (uop _ _) as [u [[]| | | |]]; auto. apply pv_fix.
Qed.
End Nervous.

Ltac flags := repeat match goal with b : bool |- _ => destruct b end.
(** all the ways a call may go *)
Ltac each :=
  repeat (cbn; match goal with
  | |- _ /\ _ => split
  | |- forall _, _ => intros []
  end).
Ltac begin_tac := cbn; repeat first [apply begins_nil | apply begins_cons].
(** one way in which it asks everything *)
Fixpoint asks_all {T S A} (d : dialog T S A) (qs : list (question T)) : Prop :=
  match d, qs with
  | Done _ (Ret _), [] => True
  | Ask _ k x y next, q :: qs => q = (k, x, y) /\ exists a, asks_all (next a) qs
  | _, _ => False
  end.
Lemma asks_all_runs {T S A} (d : dialog T S A) : forall qs, asks_all d qs -> exists es s r, runs d es s (Some (Ret r)) /\ map question_of es = qs.
Proof.
  induction d as [s r|s k x y next IH]; intros [|q qs] H; try (now destruct r); try easy.
  - destruct r as [r| | | |]; try easy. exists [], s, r. split; [constructor|reflexivity].
  - destruct H as (-> & a & H). destruct (IH a _ H) as (es & s' & r & R & E). exists (Answered k x y a :: es), s', r.
    split; [now constructor|cbn; now rewrite E].
Qed.
Ltac find := cbn; first [exact I | split; [reflexivity|]; first [exists true; solve [find] | exists false; solve [find] | exists Eq; solve [find] | exists Lt; solve [find] | exists Gt; solve [find]]].
Ltac script_tac := flags; (split; [apply holds_always; each; begin_tac | apply asks_all_runs; find]).

(** ** C98 *)

(** With comparisons that always answer the same, the calls are those of
    [IVModel4] (operators that need not agree), and those of [IVModel3] where
    some pairs panic.  This is what fixed operators make of a run. *)
Theorem c98_steady_comparisons : forall T U (O : operators T) a b v (k : U) l lc u uc f g cmp op ep,
  (forall S A (d : dialog T S A) pn es s e, runs d es s e -> Forall (given_by O pn) es ->
     eval O pn d = (s, match e with Some r => r | None => Panic end)) /\
  (forall S A (d : dialog T S A) pn, exists es s e, runs d es s e /\ Forall (given_by O pn) es) /\
  (eval O calm (create_checked_d l lc u uc) = (tt, create_checked_o O l lc u uc) /\
   eval O calm (create_friendly_d l lc u uc) = (tt, Ret (create_friendly_o O l lc u uc)) /\
   eval O calm (fix_after_modification_d a) = (fix_after_modification_o O a, Ret tt) /\
   eval O calm (iv_is_single_d a) = (tt, Ret (iv_is_single_o O a)) /\
   eval O calm (ivv_lt_d a v) = (tt, Ret (ivv_lt_o O a v)) /\ eval O calm (ivv_le_d a v) = (tt, Ret (ivv_le_o O a v)) /\
   eval O calm (ivv_gt_d a v) = (tt, Ret (ivv_gt_o O a v)) /\ eval O calm (ivv_ge_d a v) = (tt, Ret (ivv_ge_o O a v)) /\
   eval O calm (ivv_eq_d a v) = (tt, Ret (ivv_eq_o O a v)) /\ eval O calm (ivv_partial_cmp_d a v) = (tt, Ret (ivv_partial_cmp_o O a v)) /\
   eval O calm (iv_eq_d a b) = (tt, Ret (iv_eq_o O a b)) /\
   eval O calm (iv_lt_d a b) = (tt, Ret (iv_lt (o_cmp O) a b)) /\ eval O calm (iv_le_d a b) = (tt, Ret (iv_le_o O a b)) /\
   eval O calm (iv_gt_d a b) = (tt, Ret (iv_gt (o_cmp O) a b)) /\ eval O calm (iv_ge_d a b) = (tt, Ret (iv_ge_o O a b)) /\
   eval O calm (iv_partial_cmp_d a b) = (tt, Ret (iv_partial_cmp_o O a b)) /\
   eval O calm (iv_contains_val_d a v) = (tt, Ret (iv_contains_val_o O a v)) /\
   eval O calm (iv_contains_interval_d a b) = (tt, Ret (iv_contains_interval (o_cmp O) a b)) /\
   eval O calm (iv_can_be_merged_d a b) = (tt, Ret (iv_can_be_merged_o O a b)) /\
   eval O calm (iv_intersects_d a b) = (tt, Ret (iv_intersects (o_cmp O) a b)) /\
   eval O calm (iv_into_merged_d a b) = (tt, iv_into_merged_o O a b) /\
   eval O calm (iv_merge_d a b) = (fst (iv_merge_o O a b), Ret (snd (iv_merge_o O a b))) /\
   eval O calm (iv_into_intersection_d a b) = (tt, iv_into_intersection_o O a b) /\
   iv_intersection (o_cmp O) a b = Ret (fst (eval O calm (iv_intersection_d a b))) /\ snd (eval O calm (iv_intersection_d a b)) = Ret tt /\
   eval O calm (iv_into_span_d a b) = (tt, iv_into_span_o O a b) /\
   iv_span (o_cmp O) a b = Ret (fst (eval O calm (iv_span_d a b))) /\ snd (eval O calm (iv_span_d a b)) = Ret tt /\
   eval O calm (iv_add_d f a k) = (tt, iv_add_o O f a k) /\ eval O calm (iv_sub_d f a k) = (tt, iv_sub_o O f a k) /\
   eval O calm (iv_mul_d f a k) = (tt, iv_mul_o O f a k) /\ eval O calm (iv_div_d f a k) = (tt, iv_div_o O f a k) /\
   eval O calm (iv_add_assign_d g a k) = iv_add_assign_o O g a k /\ eval O calm (iv_sub_assign_d g a k) = iv_sub_assign_o O g a k /\
   eval O calm (iv_mul_assign_d g a k) = iv_mul_assign_o O g a k /\ eval O calm (iv_div_assign_d g a k) = iv_div_assign_o O g a k /\
   forall neg, eval O calm (iv_neg_d neg a) = (tt, iv_neg_o O neg a)) /\
  (eval (of_cmp cmp) (nervous op ep) (iv_merge_d a b) = iv_merge_p cmp op ep a b /\
   eval (of_cmp cmp) (nervous op ep) (iv_intersection_d a b) = iv_intersection_p cmp op a b /\
   eval (of_cmp cmp) (nervous op ep) (iv_span_d a b) = iv_span_p cmp op a b /\
   eval (of_cmp cmp) (nervous op ep) (fix_after_modification_d a) = fix_after_modification_p cmp op ep a /\
   eval (of_cmp cmp) (nervous op ep) (iv_add_assign_d g a k) = iv_add_assign_p cmp op ep g a k /\ eval (of_cmp cmp) (nervous op ep) (iv_sub_assign_d g a k) = iv_sub_assign_p cmp op ep g a k /\
   eval (of_cmp cmp) (nervous op ep) (iv_mul_assign_d g a k) = iv_mul_assign_p cmp op ep g a k /\ eval (of_cmp cmp) (nervous op ep) (iv_div_assign_d g a k) = iv_div_assign_p cmp op ep g a k).
Proof.
  intros T U O a b v k l lc u uc f g cmp op ep. split; [|split; [|split]].
  - intros S A d pn es s e. apply eval_runs.
  - intros S A d pn. apply runs_eval.
  - repeat match goal with |- _ /\ _ => split end.
    + apply ev_checked.
    + apply ev_local, ev_fix.
    + apply ev_fix.
    + now destruct a as [[[l1 u1]|]].
    + apply ev_ivv_lt.
    + now destruct a as [[[l1 u1]|]].
    + apply ev_ivv_gt.
    + now destruct a as [[[l1 u1]|]].
    + apply ev_ivv_eq.
    + unfold ivv_partial_cmp_d, ivv_partial_cmp_o. rewrite (ev_bind _ _ _ _ (ev_ivv_lt _ _ _)). destruct (ivv_lt_o O a v); auto.
      rewrite (ev_bind _ _ _ _ (ev_ivv_gt _ _ _)). destruct (ivv_gt_o O a v); auto. now rewrite (ev_bind _ _ _ _ (ev_ivv_eq _ _ _)).
    + apply ev_iv_eq.
    + apply ev_iv_lt.
    + now destruct a as [[[l1 u1]|]], b as [[[l2 u2]|]].
    + apply ev_iv_gt.
    + now destruct a as [[[l1 u1]|]], b as [[[l2 u2]|]].
    + unfold iv_partial_cmp_d, iv_partial_cmp_o. rewrite (ev_bind _ _ _ _ (ev_iv_gt _ _ _)). destruct (iv_gt _ a b); auto.
      rewrite (ev_bind _ _ _ _ (ev_iv_lt _ _ _)). destruct (iv_lt _ a b); auto. now rewrite (ev_bind _ _ _ _ (ev_iv_eq _ _ _)).
    + apply ev_not, ev_or; [apply ev_ivv_gt|apply ev_ivv_lt].
    + destruct a as [[[l1 u1]|]], b as [[[l2 u2]|]]; try reflexivity. apply ev_and; [apply ev_lower_le|apply ev_upper_ge].
    + apply ev_can.
    + apply ev_meets.
    + unfold iv_into_merged_d, iv_into_merged_o. rewrite (ev_bind _ _ _ _ (ev_can _ _ _)).
      destruct (iv_can_be_merged_o O a b); auto. destruct a as [[[l1 u1]|]], b as [[[l2 u2]|]]; auto.
      cbn [negb iv_is_empty imp iv_into_bounds unwrap_d unwrap lo up obind].
      rewrite !(ev_bind _ _ _ _ (ev_ret _ _)). cbn [fst snd]. rewrite (ev_bind _ _ _ _ (ev_lower_min _ _ _)), (ev_bind _ _ _ _ (ev_upper_max _ _ _)).
      exact (ev_tail _ _ _ (ev_from_bounds _ _ _) _ inl).
    + unfold iv_merge_d, iv_merge_o. rewrite (ev_then _ _ _ _ _ (ev_can _ _ _)).
      destruct (iv_can_be_merged_o O a b); auto. destruct a as [[[l1 u1]|]], b as [[[l2 u2]|]]; try reflexivity; cbn [negb imp fst snd]; apply ev_widen.
    + unfold iv_into_intersection_d, iv_into_intersection_o. destruct a as [[[l1 u1]|]], b as [[[l2 u2]|]]; auto.
      cbn [negb iv_is_empty imp iv_into_bounds unwrap_d unwrap lo up obind]. rewrite (ev_bind _ _ _ _ (ev_meets _ _ _)).
      destruct (iv_intersects _ _ _); auto. cbn [negb].
      rewrite !(ev_bind _ _ _ _ (ev_ret _ _)). cbn [fst snd]. rewrite (ev_bind _ _ _ _ (ev_lower_max _ _ _)), (ev_bind _ _ _ _ (ev_upper_min _ _ _)).
      apply ev_from_bounds.
    + unfold iv_intersection_d, iv_intersection. destruct a as [[[l1 u1]|]], b as [[[l2 u2]|]]; auto.
      cbn [iv_is_empty imp orb]. rewrite (ev_then _ _ _ _ _ (ev_or _ _ _ _ _ (ev_iv_gt _ _ _) (ev_iv_lt _ _ _))).
      destruct (_ || _); auto; rewrite (ev_then _ _ _ _ _ (ev_lower_lt _ _ _)), (ev_then _ _ _ _ _ (ev_upper_gt _ _ _)); reflexivity.
    + unfold iv_intersection_d, iv_intersection. destruct a as [[[l1 u1]|]], b as [[[l2 u2]|]]; auto.
      cbn [iv_is_empty imp orb]. rewrite (ev_then _ _ _ _ _ (ev_or _ _ _ _ _ (ev_iv_gt _ _ _) (ev_iv_lt _ _ _))).
      destruct (_ || _); auto; rewrite (ev_then _ _ _ _ _ (ev_lower_lt _ _ _)), (ev_then _ _ _ _ _ (ev_upper_gt _ _ _)); reflexivity.
    + unfold iv_into_span_d, iv_into_span_o. destruct a as [[[l1 u1]|]], b as [[[l2 u2]|]]; auto.
      cbn [negb iv_is_empty imp iv_into_bounds unwrap_d unwrap lo up obind].
      rewrite !(ev_bind _ _ _ _ (ev_ret _ _)). cbn [fst snd]. rewrite (ev_bind _ _ _ _ (ev_lower_min _ _ _)), (ev_bind _ _ _ _ (ev_upper_max _ _ _)).
      apply ev_from_bounds.
    + unfold iv_span_d, iv_span. destruct a as [[[l1 u1]|]], b as [[[l2 u2]|]]; auto; cbn [iv_is_empty imp]; now rewrite ev_widen.
    + unfold iv_span_d, iv_span. destruct a as [[[l1 u1]|]], b as [[[l2 u2]|]]; auto; cbn [iv_is_empty imp]; now rewrite ev_widen.
    + apply ev_arith.
    + apply ev_arith.
    + apply ev_arith.
    + apply ev_arith.
    + apply ev_assign.
    + apply ev_assign.
    + apply ev_assign.
    + apply ev_assign.
    + intros neg. unfold iv_neg_d, iv_neg_o. destruct a as [[[[[l1 c1]] [[u1 d1]]]|]]; auto.
      cbn [iv_into_tuple imp lower_into_tuple upper_into_tuple lo up lbound ubound bval bclosed]. rewrite ev_lift.
      destruct (neg u1) as [u'| | | |]; auto. rewrite ev_lift. cbn [obind]. destruct (neg l1) as [l'| | | |]; auto. apply ev_local, ev_fix.
  - repeat match goal with |- _ /\ _ => split end.
    + unfold iv_merge_d, iv_merge_p. rewrite (pv_then _ _ _ _ _ _ _ (pv_can _ _ _ _ _)). destruct (pan_can cmp op ep a b) as [[x ->]| ->]; auto.
      destruct x; auto. destruct a as [[[l1 u1]|]], b as [[[l2 u2]|]]; auto. cbn [negb imp]. rewrite pv_widen.
      destruct (iv_widen_p _ _ _ _) as [i [[]| | | |]]; auto.
    + unfold iv_intersection_d, iv_intersection_p. destruct a as [[[l1 u1]|]], b as [[[l2 u2]|]]; auto. cbn [iv_is_empty imp orb].
      rewrite (pv_then _ _ _ _ _ _ _ (pv_or _ _ _ _ _ _ _ (pv_iv_gt _ _ _ _ _) (pv_iv_lt _ _ _ _ _))).
      unfold iv_gt_p, iv_lt_p, lu_gt_p, ul_lt_p. cbn [iv_lower iv_upper imp lo up].
      destruct (op _ _); cbn [obind]; auto. destruct (lu_gt _ _ _); auto. destruct (op (uval u1) _); cbn [obind]; auto. destruct (ul_lt _ _ _); auto.
      rewrite (pv_then _ _ _ _ _ _ _ (pv_lower_lt _ _ _ _ _)). unfold lower_lt_p. destruct (op _ _); auto.
      rewrite (pv_then _ _ _ _ _ _ _ (pv_upper_gt _ _ _ _ _)). unfold upper_gt_p. destruct (op _ _); auto.
    + unfold iv_span_d, iv_span_p. destruct a as [[[l1 u1]|]], b as [[[l2 u2]|]]; try reflexivity; cbn [iv_is_empty imp]; rewrite pv_widen; now destruct (iv_widen_p _ _ _ _) as [i [[]| | | |]].
    + apply pv_fix.
    + apply pv_assign.
    + apply pv_assign.
    + apply pv_assign.
    + apply pv_assign.
Qed.
Print Assumptions c98_steady_comparisons.

(** The same for the comparisons of bounds. *)
Theorem c98_steady_comparisons_of_bounds : forall T (O : operators T) (l l' : lower T) (u u' : upper T) v,
  eval O calm (lower_eq_d l l') = (tt, Ret (lower_eq_o O l l')) /\
  eval O calm (lower_cmp_d l l') = (tt, Ret (lower_cmp (o_cmp O) l l')) /\
  eval O calm (lower_partial_cmp_d l l') = (tt, Ret (lower_partial_cmp (o_cmp O) l l')) /\
  eval O calm (lower_lt_d l l') = (tt, Ret (lower_lt (o_cmp O) l l')) /\
  eval O calm (lower_le_d l l') = (tt, Ret (lower_le (o_cmp O) l l')) /\
  eval O calm (lower_gt_d l l') = (tt, Ret (lower_gt (o_cmp O) l l')) /\
  eval O calm (lower_ge_d l l') = (tt, Ret (lower_ge (o_cmp O) l l')) /\
  eval O calm (lower_min_d l l') = (tt, Ret (lower_min (o_cmp O) l l')) /\
  eval O calm (lower_max_d l l') = (tt, Ret (lower_max (o_cmp O) l l')) /\
  eval O calm (upper_eq_d u u') = (tt, Ret (upper_eq_o O u u')) /\
  eval O calm (upper_cmp_d u u') = (tt, Ret (upper_cmp (o_cmp O) u u')) /\
  eval O calm (upper_partial_cmp_d u u') = (tt, Ret (upper_partial_cmp (o_cmp O) u u')) /\
  eval O calm (upper_lt_d u u') = (tt, Ret (upper_lt (o_cmp O) u u')) /\
  eval O calm (upper_le_d u u') = (tt, Ret (upper_le (o_cmp O) u u')) /\
  eval O calm (upper_gt_d u u') = (tt, Ret (upper_gt (o_cmp O) u u')) /\
  eval O calm (upper_ge_d u u') = (tt, Ret (upper_ge (o_cmp O) u u')) /\
  eval O calm (upper_min_d u u') = (tt, Ret (upper_min (o_cmp O) u u')) /\
  eval O calm (upper_max_d u u') = (tt, Ret (upper_max (o_cmp O) u u')) /\
  eval O calm (lu_lt_d l u) = (tt, Ret (lu_lt (o_cmp O) l u)) /\
  eval O calm (lu_gt_d l u) = (tt, Ret (lu_gt (o_cmp O) l u)) /\
  eval O calm (lu_partial_cmp_d l u) = (tt, Ret (lu_partial_cmp (o_cmp O) l u)) /\
  eval O calm (lu_le_d l u) = (tt, Ret (lu_le_o O l u)) /\
  eval O calm (lu_ge_d l u) = (tt, Ret (lu_ge_o O l u)) /\
  eval O calm (ul_lt_d u l) = (tt, Ret (ul_lt (o_cmp O) u l)) /\
  eval O calm (ul_gt_d u l) = (tt, Ret (ul_gt (o_cmp O) u l)) /\
  eval O calm (ul_partial_cmp_d u l) = (tt, Ret (ul_partial_cmp (o_cmp O) u l)) /\
  eval O calm (ul_le_d u l) = (tt, Ret (ul_le_o O u l)) /\
  eval O calm (ul_ge_d u l) = (tt, Ret (ul_ge_o O u l)) /\
  eval O calm (lv_partial_cmp_d l v) = (tt, Ret (lv_partial_cmp (o_cmp O) l v)) /\
  eval O calm (lv_lt_d l v) = (tt, Ret (lv_lt_o O l v)) /\
  eval O calm (lv_le_d l v) = (tt, Ret (lv_le_o O l v)) /\
  eval O calm (lv_gt_d l v) = (tt, Ret (lv_gt_o O l v)) /\
  eval O calm (lv_ge_d l v) = (tt, Ret (lv_ge_o O l v)) /\
  eval O calm (lv_eq_d l v) = (tt, Ret (lv_eq_o O l v)) /\
  eval O calm (uv_partial_cmp_d u v) = (tt, Ret (uv_partial_cmp (o_cmp O) u v)) /\
  eval O calm (uv_lt_d u v) = (tt, Ret (uv_lt_o O u v)) /\
  eval O calm (uv_le_d u v) = (tt, Ret (uv_le_o O u v)) /\
  eval O calm (uv_gt_d u v) = (tt, Ret (uv_gt_o O u v)) /\
  eval O calm (uv_ge_d u v) = (tt, Ret (uv_ge_o O u v)) /\
  eval O calm (uv_eq_d u v) = (tt, Ret (uv_eq_o O u v)) /\
  eval O calm (are_separated_d l u) = (tt, Ret (are_separated_o O l u)).
Proof.
  intros T O [[l lc]] [[l' lc']] [[u uc]] [[u' uc']] v.
  unfold lower_lt, lower_le, lower_gt, lower_ge, lower_min, lower_max, lower_partial_cmp, lower_cmp, lower_eq_o,
    upper_lt, upper_le, upper_gt, upper_ge, upper_min, upper_max, upper_partial_cmp, upper_cmp, upper_eq_o,
    lu_partial_cmp, lu_lt, lu_gt, lu_le_o, lu_ge_o, ul_partial_cmp, ul_lt, ul_gt, ul_le_o, ul_ge_o,
    lv_partial_cmp, lv_lt_o, lv_le_o, lv_gt_o, lv_ge_o, lv_eq_o, uv_partial_cmp, uv_lt_o, uv_le_o, uv_gt_o, uv_ge_o, uv_eq_o, are_separated_o.
  repeat match goal with |- _ /\ _ => split end; cbn;
  repeat match goal with |- context [match ?b with _ => _ end] => match type of b with comparison => destruct b | bool => destruct b end; cbn end; reflexivity.
Qed.
Print Assumptions c98_steady_comparisons_of_bounds.

(** What the calls that take one or two bounds ask: one comparison, or two. *)
Theorem c98_questions_of_bounds : forall T (l : T) lc u uc l' lc' u' uc' v,
  script (lower_eq_d (low l lc) (low l' lc')) [(KEq, l, l')] /\
  script (lower_cmp_d (low l lc) (low l' lc')) [(KCmp, l, l')] /\
  script (lower_partial_cmp_d (low l lc) (low l' lc')) [(KCmp, l, l')] /\
  script (lower_lt_d (low l lc) (low l' lc')) [(KCmp, l, l')] /\ script (lower_le_d (low l lc) (low l' lc')) [(KCmp, l, l')] /\
  script (lower_gt_d (low l lc) (low l' lc')) [(KCmp, l, l')] /\ script (lower_ge_d (low l lc) (low l' lc')) [(KCmp, l, l')] /\
  script (lower_min_d (low l lc) (low l' lc')) [(KCmp, l, l')] /\ script (lower_max_d (low l lc) (low l' lc')) [(KCmp, l, l')] /\
  script (upper_eq_d (upp u uc) (upp u' uc')) [(KEq, u, u')] /\
  script (upper_cmp_d (upp u uc) (upp u' uc')) [(KCmp, u, u')] /\
  script (upper_partial_cmp_d (upp u uc) (upp u' uc')) [(KCmp, u, u')] /\
  script (upper_lt_d (upp u uc) (upp u' uc')) [(KCmp, u, u')] /\ script (upper_le_d (upp u uc) (upp u' uc')) [(KCmp, u, u')] /\
  script (upper_gt_d (upp u uc) (upp u' uc')) [(KCmp, u, u')] /\ script (upper_ge_d (upp u uc) (upp u' uc')) [(KCmp, u, u')] /\
  script (upper_min_d (upp u uc) (upp u' uc')) [(KCmp, u, u')] /\ script (upper_max_d (upp u uc) (upp u' uc')) [(KCmp, u, u')] /\
  script (lu_lt_d (low l lc) (upp u uc)) [(KCmp, l, u)] /\ script (lu_le_d (low l lc) (upp u uc)) [(KLe, l, u)] /\
  script (lu_gt_d (low l lc) (upp u uc)) [(KCmp, l, u)] /\ script (lu_ge_d (low l lc) (upp u uc)) [(KGe, l, u)] /\
  script (lu_partial_cmp_d (low l lc) (upp u uc)) [(KCmp, l, u); (KCmp, l, u)] /\
  script (ul_lt_d (upp u uc) (low l lc)) [(KCmp, u, l)] /\ script (ul_le_d (upp u uc) (low l lc)) [(KLe, u, l)] /\
  script (ul_gt_d (upp u uc) (low l lc)) [(KCmp, u, l)] /\ script (ul_ge_d (upp u uc) (low l lc)) [(KGe, u, l)] /\
  script (ul_partial_cmp_d (upp u uc) (low l lc)) [(KCmp, u, l); (KCmp, u, l)] /\
  script (lv_partial_cmp_d (low l lc) v) [(KCmp, l, v)] /\
  script (lv_lt_d (low l lc) v) [(KLt, l, v)] /\ script (lv_le_d (low l lc) v) [(KLt, l, v); (KEq, l, v)] /\
  script (lv_gt_d (low l lc) v) [(KGt, l, v); (KEq, l, v)] /\ script (lv_ge_d (low l lc) v) [(KGe, l, v)] /\
  script (lv_eq_d (low l lc) v) [(KEq, l, v)] /\
  script (uv_partial_cmp_d (upp u uc) v) [(KCmp, u, v)] /\
  script (uv_lt_d (upp u uc) v) [(KLt, u, v); (KEq, u, v)] /\ script (uv_le_d (upp u uc) v) [(KLe, u, v)] /\
  script (uv_gt_d (upp u uc) v) [(KGt, u, v)] /\ script (uv_ge_d (upp u uc) v) [(KGt, u, v); (KEq, u, v)] /\
  script (uv_eq_d (upp u uc) v) [(KEq, u, v)] /\
  script (are_separated_d (low l lc) (upp u uc)) [(KGt, l, u); (KEq, u, l)].
Proof. intros. repeat match goal with |- script _ _ /\ _ => split end; script_tac. Qed.
Print Assumptions c98_questions_of_bounds.

(** What the calls on intervals ask: an end of one against an end of the other,
    or against the value.  Nothing is asked about an empty interval. *)
Theorem c98_questions : forall T (l : T) lc u uc l' lc' u' uc' v,
  script (iv_is_single_d (nt l lc u uc)) [(KEq, l, u)] /\
  script (ivv_lt_d (nt l lc u uc) v) [(KLt, u, v); (KEq, u, v)] /\ script (ivv_le_d (nt l lc u uc) v) [(KLe, u, v)] /\
  script (ivv_gt_d (nt l lc u uc) v) [(KGt, l, v); (KEq, l, v)] /\ script (ivv_ge_d (nt l lc u uc) v) [(KGe, l, v)] /\
  script (ivv_eq_d (nt l lc u uc) v) (if lc then [(KEq, l, v); (KEq, u, v)] else [(KEq, l, v)]) /\
  script (ivv_partial_cmp_d (nt l lc u uc) v)
     ([(KLt, u, v); (KEq, u, v); (KGt, l, v); (KEq, l, v); (KEq, l, v)] ++ if lc then [(KEq, u, v)] else []) /\
  script (iv_eq_d (nt l lc u uc) (nt l' lc' u' uc')) ((KEq, l, l') :: if Bool.eqb lc lc' then [(KEq, u, u')] else []) /\
  script (iv_lt_d (nt l lc u uc) (nt l' lc' u' uc')) [(KCmp, u, l')] /\ script (iv_le_d (nt l lc u uc) (nt l' lc' u' uc')) [(KLe, u, l')] /\
  script (iv_gt_d (nt l lc u uc) (nt l' lc' u' uc')) [(KCmp, l, u')] /\ script (iv_ge_d (nt l lc u uc) (nt l' lc' u' uc')) [(KGe, l, u')] /\
  script (iv_partial_cmp_d (nt l lc u uc) (nt l' lc' u' uc'))
     ([(KCmp, l, u'); (KCmp, u, l'); (KEq, l, l')] ++ if Bool.eqb lc lc' then [(KEq, u, u')] else []) /\
  script (iv_contains_val_d (nt l lc u uc) v) [(KGt, l, v); (KEq, l, v); (KLt, u, v); (KEq, u, v)] /\
  script (iv_contains_interval_d (nt l lc u uc) (nt l' lc' u' uc')) [(KCmp, l, l'); (KCmp, u, u')] /\
  script (iv_can_be_merged_d (nt l lc u uc) (nt l' lc' u' uc')) [(KGt, l', u); (KEq, u, l'); (KGt, l, u'); (KEq, u', l)] /\
  script (iv_intersects_d (nt l lc u uc) (nt l' lc' u' uc')) [(KCmp, l, u'); (KCmp, u, l')] /\
  script (iv_merge_d (nt l lc u uc) (nt l' lc' u' uc'))
    [(KGt, l', u); (KEq, u, l'); (KGt, l, u'); (KEq, u', l); (KCmp, l', l); (KCmp, u', u)] /\
  script (iv_intersection_d (nt l lc u uc) (nt l' lc' u' uc')) [(KCmp, l, u'); (KCmp, u, l'); (KCmp, l, l'); (KCmp, u, u')] /\
  script (iv_span_d (nt l lc u uc) (nt l' lc' u' uc')) [(KCmp, l', l); (KCmp, u', u)] /\
  script (create_checked_d l lc u uc) [(KGt, l, u); (KEq, l, u)].
Proof. intros. repeat match goal with |- script _ _ /\ _ => split end; script_tac. Qed.
Print Assumptions c98_questions.
