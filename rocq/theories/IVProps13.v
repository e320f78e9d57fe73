(** Property theorems C120: programs with intervals only depend on how the elements
    compare. *)
From Coq Require Import ZArith QArith Lia Lqa.
From Verif Require Import Base IVModel IVSpec IVSpec2 IVSpec3 IVRun IVRun7 IVProofs IVProofs2 IVProofs3 IVProofs4 IVProofs9 IVProps1 IVProps2.
Set Implicit Arguments.

Section Rel.
Variables T U : Type.
Variable cmp : T -> T -> comparison.
Variable R : T -> T -> Prop.
Variable W : U -> U -> Prop.
Hypothesis K : ordered_alike cmp R.
Local Notation img := (img R).

Lemma img_ends a b : img a b <-> ends_rel R (iv_into_tuple a) (iv_into_tuple b).
Proof.
  destruct a as [[[[[l lc]] [[u uc]]]|]], b as [[[[[l' lc']] [[u' uc']]]|]]; unfold IVProofs9.img, limg, uimg; cbn; tauto.
Qed.
Lemma img_ivt l lc u uc l' u' : R l l' -> R u u' -> img (ivt l lc u uc) (ivt l' lc u' uc).
Proof. intros A B. repeat split; auto. Qed.

Lemma make_img m n : make_rel R m n -> orel img (run_make cmp m) (run_make cmp n).
Proof.
  assert (C : forall l u l' u' lc uc, R l l' -> R u u' -> orel img (create_checked cmp l lc u uc) (create_checked cmp l' lc u' uc)).
  { intros l u l' u' lc uc A B. unfold create_checked, vgt, veq. rewrite (K A B).
    destruct (cmp l u), lc, uc; cbn; auto; repeat split; auto. }
  destruct m, n; cbn; try contradiction.
  - intros _. exact Logic.I.
  - intros H. repeat split; auto.
  - intros (A & -> & B & ->). now apply C.
  - intros [A B]. now apply C.
  - intros [A B]. now apply C.
  - intros [A B]. now apply C.
  - intros [A B]. now apply C.
Qed.

Lemma fix_img l lc u uc l' u' : R l l' -> R u u' ->
  img (fix_after_modification cmp (ivt l lc u uc)) (fix_after_modification cmp (ivt l' lc u' uc)).
Proof.
  intros A B. unfold fix_after_modification, ivt, vgt, veq. cbn. rewrite (K A B).
  destruct (cmp l u) eqn:E; cbn; rewrite ?(K A B), ?(K B A), ?E; cbn.
  - destruct lc, uc; cbn; repeat split; auto.
  - repeat split; auto.
  - destruct (cmp u l); cbn; [destruct lc, uc; cbn|..]; repeat split; auto.
Qed.

Lemma map_rel f g a b : (forall x p, R x p -> out_rel R (f x) (g p)) -> img a b -> orel img (iv_map cmp f a) (iv_map cmp g b).
Proof.
  intros F H. destruct (ivt_eta a) as [->|(l & lc & u & uc & ->)], (ivt_eta b) as [->|(l' & lc' & u' & uc' & ->)]; try contradiction; [exact Logic.I|].
  destruct H as [[A A2] [B B2]]. cbn in A, A2, B, B2. subst. rewrite !iv_map_ivt.
  pose proof (F _ _ A) as FA. pose proof (F _ _ B) as FB.
  destruct (f u), (g u'); try contradiction; cbn [obind]; auto.
  destruct (f l), (g l'); try contradiction; cbn [obind]; auto. now apply fix_img.
Qed.
Lemma neg_rel f a b : neg_alike R f -> img a b -> orel img (iv_neg cmp f a) (iv_neg cmp f b).
Proof.
  intros F H. destruct (ivt_eta a) as [->|(l & lc & u & uc & ->)], (ivt_eta b) as [->|(l' & lc' & u' & uc' & ->)]; try contradiction; [exact Logic.I|].
  destruct H as [[A A2] [B B2]]. cbn in A, A2, B, B2. subst. rewrite !iv_neg_ivt.
  pose proof (F _ _ A) as FA. pose proof (F _ _ B) as FB.
  destruct (f u), (f u'); try contradiction; cbn [obind]; auto;
  destruct (f l), (f l'); try contradiction; cbn [obind]; auto. now apply fix_img.
Qed.

(** the four compound assignments are one function *)
Definition amap (f : T -> T * outcome unit) (i : interval T) : interval T * outcome unit :=
  match iv_into_tuple i with
  | Some (l, lc, u, uc) =>
      match f l with
      | (l', Ret _) => match f u with
                       | (u', Ret _) => (fix_after_modification cmp (ivt l' lc u' uc), Ret tt)
                       | (u', e) => (ivt l' lc u' uc, e)
                       end
      | (l', e) => (ivt l' lc u uc, e)
      end
  | None => (i, Ret tt)
  end.
Lemma assign_amap (A : arith T U) o i k : run_assign cmp A o i k = amap (fun x => ar_assign A o x k) i.
Proof.
  destruct o; cbn [run_assign]; unfold amap, iv_add_assign, iv_sub_assign, iv_mul_assign, iv_div_assign,
    lower_add_assign, lower_sub_assign, lower_mul_assign, lower_div_assign,
    upper_add_assign, upper_sub_assign, upper_mul_assign, upper_div_assign,
    bound_add_assign, bound_sub_assign, bound_mul_assign, bound_div_assign;
  destruct i as [[[[[l lc]] [[u uc]]]|]]; cbn; auto;
  destruct (ar_assign A _ l k) as [l' []]; cbn; auto; destruct (ar_assign A _ u k) as [u' []]; cbn; auto.
Qed.
Lemma amap_rel f g a b : (forall x p, R x p -> R (fst (f x)) (fst (g p)) /\ snd (f x) = snd (g p)) -> img a b ->
  img (fst (amap f a)) (fst (amap g b)) /\ snd (amap f a) = snd (amap g b).
Proof.
  intros F H. destruct (ivt_eta a) as [->|(l & lc & u & uc & ->)], (ivt_eta b) as [->|(l' & lc' & u' & uc' & ->)]; try contradiction; [split; [exact Logic.I|reflexivity]|].
  destruct H as [[A A2] [B B2]]. cbn in A, A2, B, B2. subst. unfold amap. cbn.
  pose proof (F _ _ A) as [A1 A2]. pose proof (F _ _ B) as [B1 B2].
  destruct (f l) as [l1 o1], (g l') as [l2 o2], (f u) as [u1 p1], (g u') as [u2 p2]. cbn in *. subst o2 p2.
  destruct o1; [destruct p1|..]; cbn [fst snd]; (split; [first [apply fix_img|apply img_ivt]; auto|reflexivity]).
Qed.

Lemma put_rel d i j s t : img i j -> (forall n, img (s n) (t n)) -> forall n, img (put d i s n) (put d j t n).
Proof. intros A B n. unfold put. destruct (n =? d); auto. Qed.
Lemma put_out_rel d r q s t : orel img r q -> (forall n, img (s n) (t n)) ->
  (forall n, img (fst (put_out d r s) n) (fst (put_out d q t) n)) /\
  out_rel (answer_rel R) (snd (put_out d r s)) (snd (put_out d q t)).
Proof.
  intros A B. destruct r, q; try contradiction; cbn; split; auto. now apply put_rel.
Qed.

Variable A : arith T U.
Hypothesis HO : forall o, op_alike R W (ar_op A o).
Hypothesis HA : forall o, assign_alike R W (ar_assign A o).
Hypothesis HN : neg_alike R (ar_neg A).

Lemma oper_map o i k : run_oper cmp A o i k = iv_map cmp (fun x => ar_op A o x k) i.
Proof. destruct o; cbn [run_oper]; [apply iv_add_map|apply iv_sub_map|apply iv_mul_map|apply iv_div_map]. Qed.

Lemma call_alike c d s t : call_rel R W c d -> (forall n, img (s n) (t n)) ->
  (forall n, img (fst (run_call cmp A c s) n) (fst (run_call cmp A d t) n)) /\
  out_rel (answer_rel R) (snd (run_call cmp A c s)) (snd (run_call cmp A d t)).
Proof.
  intros C H. destruct c; cbn [call_rel] in C; try (rewrite <- C; clear C d); try (destruct d; try contradiction).
  - destruct C as [-> C]. apply put_out_rel; auto. now apply make_img.
  - cbn [run_call]. destruct (@up_merge T cmp R K _ _ _ _ (H d0) (H a)) as [M1 M2].
    destruct (iv_merge cmp (s d0) (s a)) as [i [?|j]], (iv_merge cmp (t d0) (t a)) as [i' [?|j']]; cbn in *; try contradiction; split; auto using put_rel.
  - cbn [run_call]. pose proof (@up_into_merged T cmp R K _ _ _ _ (H a) (H b)) as M.
    destruct (iv_into_merged cmp (s a) (s b)) as [[i|[i j]]| | | |], (iv_into_merged cmp (t a) (t b)) as [[i'|[i' j']]| | | |]; cbn in *; try contradiction; split; auto using put_rel.
    destruct M; auto using put_rel.
  - apply put_out_rel; auto. apply up_intersection; auto.
  - apply put_out_rel; auto. apply up_into_intersection; auto.
  - apply put_out_rel; auto. apply up_span; auto.
  - apply put_out_rel; auto. apply up_into_span; auto.
  - destruct C as (-> & -> & -> & C). cbn [run_call]. apply put_out_rel; auto. rewrite !oper_map.
    apply map_rel; auto. intros x p X. now apply HO.
  - destruct C as (-> & -> & C). cbn [run_call]. rewrite !assign_amap.
    match goal with |- context [amap (fun x => ar_assign A ?o x ?k) (s ?e)] => match goal with |- context [amap (fun x => ar_assign A o x ?k') (t e)] =>
      destruct (@amap_rel (fun x => ar_assign A o x k) (fun x => ar_assign A o x k') _ _ (fun x p X => HA o X C) (H e)) as [M1 M2];
      destruct (amap (fun x => ar_assign A o x k) (s e)) as [i r], (amap (fun x => ar_assign A o x k') (t e)) as [i' r'] end end. cbn in *. subst r'. split; auto using put_rel.
    destruct r; cbn; auto.
  - cbn [run_call]. apply put_out_rel; auto. now apply neg_rel.
  - cbn [run_call fst snd]. split; auto. cbn [out_rel answer_rel].
    rewrite (@up_lt T cmp R K _ _ _ _ (H a) (H b)), (@up_le T cmp R K _ _ _ _ (H a) (H b)), (@up_gt T cmp R K _ _ _ _ (H a) (H b)), (@up_ge T cmp R K _ _ _ _ (H a) (H b)),
      (@up_eq T cmp R K _ _ _ _ (H a) (H b)), (@up_ci T cmp R K _ _ _ _ (H a) (H b)), (@up_cm T cmp R K _ _ _ _ (H a) (H b)), (@up_is T cmp R K _ _ _ _ (H a) (H b)),
      (@up_pc T cmp R K _ _ _ _ (H a) (H b)), (@up_empty T R _ _ _ _ (H a) (H b)).
    replace (iv_is_single cmp (t a)) with (iv_is_single cmp (s a)); auto.
    pose proof (H a) as X. unfold iv_is_single, veq. destruct (s a) as [[[l u]|]], (t a) as [[[l' u']|]]; cbn in *; try contradiction; auto.
    destruct X as [[X _] [Y _]]. now rewrite (K X Y).
  - destruct C as [-> C]. cbn [run_call fst snd]. split; auto. cbn [out_rel answer_rel].
    destruct (@up_val T cmp R K _ _ (H a0) _ _ C) as (-> & -> & -> & -> & -> & -> & ->). reflexivity.
  - cbn [run_call fst snd]. split; auto. cbn. now apply img_ends.
Qed.

Lemma run_alike cs ds s t : Forall2 (call_rel R W) cs ds -> (forall n, img (s n) (t n)) ->
  (forall n, img (fst (run cmp A cs s) n) (fst (run cmp A ds t) n)) /\
  Forall2 (out_rel (answer_rel R)) (snd (run cmp A cs s)) (snd (run cmp A ds t)).
Proof.
  intros F. revert s t. induction F as [|c d cs ds C F IH]; intros s t H; cbn [run]; [split; auto; constructor|].
  destruct (call_alike _ _ _ _ C H) as [H1 H2].
  destruct (run_call cmp A c s) as [s1 r], (run_call cmp A d t) as [t1 r']. cbn [fst snd] in *.
  destruct (IH _ _ H1) as [H3 H4]. destruct (run cmp A cs s1) as [s2 tr], (run cmp A ds t1) as [t2 tr']. cbn [fst snd] in *. auto.
Qed.
End Rel.

(** ** C120: only comparisons matter *)
(** Two programs that make the same calls with elements that compare alike give the
    same answers, and the ends they show stay in relation; whatever laws the
    comparison obeys. *)
Theorem c120_only_comparisons_matter : forall T U (cmp : T -> T -> comparison) (R : T -> T -> Prop) (W : U -> U -> Prop) (A : arith T U) cs ds s t,
  ordered_alike cmp R ->
  (forall o, op_alike R W (ar_op A o)) -> (forall o, assign_alike R W (ar_assign A o)) -> neg_alike R (ar_neg A) ->
  Forall2 (call_rel R W) cs ds -> (forall n, ends_rel R (iv_into_tuple (s n)) (iv_into_tuple (t n))) ->
  Forall2 (out_rel (answer_rel R)) (snd (run cmp A cs s)) (snd (run cmp A ds t)) /\
  (forall n, ends_rel R (iv_into_tuple (fst (run cmp A cs s) n)) (iv_into_tuple (fst (run cmp A ds t) n))).
Proof.
  intros T U cmp R W A cs ds s t K HO HA HN F H.
  assert (H' : forall n, img R (s n) (t n)) by (intros n; apply img_ends, H).
  edestruct run_alike as [H1 H2]; [exact K|exact HO|exact HA|exact HN|exact F|exact H'|]. split; auto. intros n. apply img_ends, H1.
Qed.
Print Assumptions c120_only_comparisons_matter.

(** the operators of an element type give equal results for equal elements *)
Definition respects {T U} (cmp : T -> T -> comparison) (A : arith T U) : Prop :=
  (forall o x y k, cmp x y = Eq -> out_rel (fun p q => cmp p q = Eq) (ar_op A o x k) (ar_op A o y k)) /\
  (forall o x y k, cmp x y = Eq -> cmp (fst (ar_assign A o x k)) (fst (ar_assign A o y k)) = Eq /\ snd (ar_assign A o x k) = snd (ar_assign A o y k)) /\
  (forall x y, cmp x y = Eq -> out_rel (fun p q => cmp p q = Eq) (ar_neg A x) (ar_neg A y)).

Lemma eq_ends T (cmp : T -> T -> comparison) a b : iv_eq cmp a b = true <-> ends_rel (fun x y => cmp x y = Eq) (iv_into_tuple a) (iv_into_tuple b).
Proof.
  unfold iv_eq, lower_eq, upper_eq, veq.
  destruct a as [[[[[l lc]] [[u uc]]]|]], b as [[[[[l' lc']] [[u' uc']]]|]]; cbn; try (split; intros; try discriminate; tauto).
  destruct (cmp l l'), (cmp u u'), lc, lc', uc, uc'; cbn; split; intros; try discriminate; try tauto; intuition discriminate.
Qed.

(** Equal intervals are exchangeable: a program cannot tell stores apart that are equal
    place by place, though equal elements may look different. *)
Theorem c120_equal_intervals_answer_alike : forall T U (cmp : T -> T -> comparison) (A : arith T U) cs s t,
  ord_laws cmp -> respects cmp A -> (forall n, iv_eq cmp (s n) (t n) = true) ->
  Forall2 (out_rel (answer_rel (fun x y => cmp x y = Eq))) (snd (run cmp A cs s)) (snd (run cmp A cs t)) /\
  (forall n, iv_eq cmp (fst (run cmp A cs s) n) (fst (run cmp A cs t) n) = true).
Proof.
  intros T U cmp A cs s t HL (RO & RA & RN) H.
  assert (K : ordered_alike cmp (fun x y => cmp x y = Eq)).
  { intros x y p q X Y. rewrite <- (ord_eq HL x p q X). symmetry. rewrite (ord_opp HL y x), (ord_opp HL q x), (ord_eq HL y q x Y). reflexivity. }
  assert (Rf : forall x, cmp x x = Eq) by (intros x; apply (cmp_refl HL)).
  destruct (@c120_only_comparisons_matter T U cmp (fun x y => cmp x y = Eq) eq A cs cs s t K) as [X Y].
  - intros o x p k k' Q <-. now apply RO.
  - intros o x p k k' Q <-. now apply RA.
  - intros x p Q. now apply RN.
  - assert (M : forall m, make_rel (fun x y : T => cmp x y = Eq) m m) by (intros []; cbn; auto).
    induction cs as [|c cs IH]; constructor; auto. destruct c; cbn; auto.
  - intros n. now apply eq_ends.
  - split; auto. intros n. now apply eq_ends.
Qed.
Print Assumptions c120_equal_intervals_answer_alike.

(** A function that keeps the order carries over whole programs without arithmetic:
    the elements in the calls may be replaced by their images. *)
Definition move_make {T} (g : T -> T) (m : make T) : make T :=
  match m with
  | MEmpty => MEmpty | MSingle v => MSingle (g v) | MNew l lc u uc => MNew (g l) lc (g u) uc
  | MOpen l u => MOpen (g l) (g u) | MClosed l u => MClosed (g l) (g u)
  | MLowerClosed l u => MLowerClosed (g l) (g u) | MUpperClosed l u => MUpperClosed (g l) (g u)
  end.
Definition move_call {T U} (g : T -> T) (c : call T U) : call T U :=
  match c with
  | KMake d m => KMake d (move_make g m)
  | KCompareVal a v => KCompareVal a (g v)
  | c => c
  end.
Definition move_ends {T} (g : T -> T) (e : ends T) : ends T := option_map (fun '(l, lc, u, uc) => (g l, lc, g u, uc)) e.
Definition move_answer {T} (g : T -> T) (x : answer T) : answer T := match x with AEnds e => AEnds (move_ends g e) | x => x end.
(** no operators are used *)
Definition plain {T U} (c : call T U) : Prop := match c with KOper _ _ _ _ | KAssign _ _ _ | KNeg _ _ => False | _ => True end.

Theorem c120_programs_can_be_moved : forall T U (cmp : T -> T -> comparison) (A : arith T U) (g : T -> T) cs s t,
  (forall x y, cmp (g x) (g y) = cmp x y) -> Forall plain cs -> (forall n, iv_into_tuple (t n) = move_ends g (iv_into_tuple (s n))) ->
  snd (run cmp A (map (move_call g) cs) t) = map (omap (move_answer g)) (snd (run cmp A cs s)) /\
  (forall n, iv_into_tuple (fst (run cmp A (map (move_call g) cs) t) n) = move_ends g (iv_into_tuple (fst (run cmp A cs s) n))).
Proof.
  intros T U cmp A g cs s t G P H.
  set (R := fun x y : T => y = g x).
  assert (ER : forall a b : ends T, ends_rel R a b <-> b = move_ends g a).
  { intros [[[[l lc] u] uc]|] [[[[l' lc'] u'] uc']|]; unfold R; cbn; (split; [|intros Q; try discriminate Q]); try tauto.
    - intros (-> & -> & -> & ->). reflexivity.
    - injection Q as -> -> -> ->. auto. }
  (* operators play no part: replace them by ones that panic *)
  set (B := Arith (fun (_ : oper) (_ : T) (_ : U) => Panic) (fun (_ : oper) (x : T) (_ : U) => (x, Panic)) (fun _ : T => Panic)).
  assert (PB : forall ds s0, Forall plain ds -> run cmp A ds s0 = run cmp B ds s0).
  { induction ds as [|d ds IH]; intros s0 F; auto. inversion F as [|? ? F1 F2]; subst. cbn [run].
    assert (Q : run_call cmp A d s0 = run_call cmp B d s0) by (destruct d; try contradiction; reflexivity).
    rewrite Q. destruct (run_call cmp B d s0) as [s1 r]. now rewrite IH. }
  rewrite (PB cs s P), (PB (map (move_call g) cs) t).
  2:{ clear - P. induction P as [|c cs C P IH]; cbn; constructor; auto. destruct c; auto. }
  destruct (@c120_only_comparisons_matter T U cmp R eq B cs (map (move_call g) cs) s t) as [X Y].
  - intros x y p q -> ->. apply G.
  - intros o x p k k' _ _. exact Logic.I.
  - intros o x p k k' Q _. split; auto.
  - intros x p _. exact Logic.I.
  - clear - P. induction P as [|c cs C P IH]; cbn; constructor; auto. destruct c; cbn; unfold R; try contradiction; auto.
    split; auto. destruct m; cbn; auto.
  - intros n. apply ER. apply H.
  - split; [|intros n; apply ER, Y]. clear - X ER.
    induction X as [|x y xs ys Q X IH]; cbn; auto. rewrite IH. f_equal. clear - Q ER.
    destruct x as [x| | | |], y as [y| | | |]; cbn in *; try contradiction; auto. f_equal.
    destruct x, y; cbn in Q; try discriminate Q; cbn; try congruence. apply ER in Q. now subst.
Qed.
Print Assumptions c120_programs_can_be_moved.

(** ** Examples *)
Local Open Scope Z_scope.
(** [i8] without checks, to see arithmetic wrap; operands are elements *)
Definition I8 : int_type := IntType (-128) 127 false.
Definition zop (o : oper) (x y : Z) : outcome Z :=
  match o with Plus => int_add I8 x y | Minus => int_sub I8 x y | Times => int_mul I8 x y | Over => int_div I8 x y end.
Definition i8 : arith Z Z := Arith zop (fun o => assign_of (zop o)) (int_neg I8).
Definition none_yet : nat -> interval Z := fun _ => iv_empty Z.
Definition prog : list (call Z Z) :=
  [KMake 0 (MLowerClosed 2 5); KMake 1 (MClosed 5 9); KCompare 0 1; KMerge 0 1; KEnds 0; KMake 2 (MOpen 9 9); KMake 2 (MUpperClosed 7 8);
   KIntersection 0 2; KCompareVal 0 8; KIntoSpan 3 1 2; KEnds 3].
Example c120_example : Forall plain prog /\
  snd (run Z.compare i8 prog none_yet) =
   [Ret AUnit; Ret AUnit; Ret (ABools [true; true; false; false; false; false; true; false; false; false] (Some Lt)); Ret (AMerged true); Ret (AEnds (Some (2, true, 9, true)));
    Panic; Ret AUnit; Ret AUnit; Ret (ABools [true; false; true; false; false; false] None); Ret AUnit; Ret (AEnds (Some (5, true, 9, true)))] /\
  nth 4 (snd (run Z.compare i8 (map (move_call (fun x => 3 * x - 7)) prog) none_yet)) Panic = Ret (AEnds (Some (-1, true, 20, true))).
Proof. split; [repeat constructor|]. split; vm_compute; reflexivity. Qed.
(** Elements with a mark that comparison does not see: the ends differ, no answer does. *)
Definition mcmp (x y : Z * bool) : comparison := fst x ?= fst y.
Definition mop (o : oper) (x : Z * bool) (k : Z) : outcome (Z * bool) := omap (fun z => (z, snd x)) (zop o (fst x) k).
Definition marked : arith (Z * bool) Z := Arith mop (fun o => assign_of (mop o)) (fun x => omap (fun z => (z, snd x)) (int_neg I8 (fst x))).
Example c120_respects : ord_laws mcmp /\ respects mcmp marked.
Proof.
  split.
  - destruct Z_ord as [E O T]. constructor; unfold mcmp; intros; eauto.
  - unfold respects, mcmp. cbn. unfold mop, assign_of. repeat split; intros.
    + apply Z.compare_eq in H. rewrite H. destruct (zop o (fst y) k); cbn; auto. apply Z.compare_refl.
    + apply Z.compare_eq in H. rewrite H. destruct (zop o (fst y) k); cbn; try rewrite H; apply Z.compare_refl.
    + apply Z.compare_eq in H. rewrite H. destruct (zop o (fst y) k); reflexivity.
    + apply Z.compare_eq in H. rewrite H. destruct (int_neg I8 (fst y)); cbn; auto. apply Z.compare_refl.
Qed.
Example c120_marked :
  let s := fun n => if (n =? 0)%nat then iv_single (3, true) else iv_empty (Z * bool) in
  let t := fun n => if (n =? 0)%nat then iv_single (3, false) else iv_empty (Z * bool) in
  (forall n, iv_eq mcmp (s n) (t n) = true) /\
  snd (run mcmp marked [KAssign Times 0 60; KAssign Over 0 0; KEnds 0; KCompareVal 0 (-76, true)] s) =
    [Ret AUnit; Panic; Ret (AEnds (Some ((-76, true), true, (-76, true), true))); Ret (ABools [true; false; true; false; true; true] (Some Eq))] /\
  snd (run mcmp marked [KAssign Times 0 60; KAssign Over 0 0; KEnds 0; KCompareVal 0 (-76, true)] t) =
    [Ret AUnit; Panic; Ret (AEnds (Some ((-76, false), true, (-76, false), true))); Ret (ABools [true; false; true; false; true; true] (Some Eq))].
Proof.
  split; [intros n; destruct (n =? 0)%nat; reflexivity|]. split; vm_compute; reflexivity.
Qed.
