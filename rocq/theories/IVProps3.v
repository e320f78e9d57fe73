(** Exact descriptions for the interval properties that hold only in part:
    C22, C26, C29, C31, C36, C38. *)
From Coq Require Import ZArith QArith Lia Lqa.
From Verif Require Import Base IVModel IVSpec IVRun IVProofs IVProofs2 IVProofs3 IVProofs4 IVProofs5 IVProps1 IVProps2.
Local Open Scope Z_scope.

(** ** C22 *)
(** the only wrong answers are those of the empty interval *)
Theorem c22_contains_val_exact_partial : forall T (cmp : T -> T -> comparison) i x, ord_laws cmp ->
  (iv_contains_val cmp i x = true <-> iv_is_empty i = true \/ has cmp i x).
Proof.
  intros T cmp i x HL. destruct (iv_is_empty i) eqn:H.
  - split; auto. intros _. destruct i as [[[? ?]|]]; [discriminate|reflexivity].
  - rewrite (@contains_val_spec T cmp HL i x H). split; auto. intros [K|K]; [discriminate|auto].
Qed.
Print Assumptions c22_contains_val_exact_partial.

Example c22_ex_exact : iv_contains_val Z.compare (zt 1 false 3 true) 2 = true /\ iv_is_empty (zt 1 false 3 true) = false /\
  iv_contains_val Z.compare (zt 1 false 3 true) 4 = false.
Proof. repeat split. Qed.

(** ** C26 *)
(** in every order [intersects] compares the ends: it is true unless one
    interval lies behind the other *)
Theorem c26_intersects_exact_partial : forall T (cmp : T -> T -> comparison) a b, ord_laws cmp ->
  (iv_intersects cmp a b = true <->
   match iv_into_tuple a, iv_into_tuple b with
   | Some (l, lc, u, uc), Some (l', lc', u', uc') =>
       well_formed cmp (Some (l, lc, u', uc')) /\ well_formed cmp (Some (l', lc', u, uc))
   | _, _ => True
   end).
Proof.
  intros T cmp a b HL.
  destruct (ivt_eta a) as [->|(l & lc & u & uc & ->)]; [split; [exact (fun _ => Logic.I)|reflexivity]|].
  destruct (ivt_eta b) as [->|(l' & lc' & u' & uc' & ->)]; [split; [exact (fun _ => Logic.I)|reflexivity]|].
  unfold iv_intersects, iv_gt, iv_lt, lu_gt, ul_lt, well_formed, lt, eqv; cbn.
  rewrite (ord_opp HL l' u). destruct (cmp l u'), (cmp l' u), lc, uc, lc', uc'; cbn; intuition discriminate.
Qed.
Print Assumptions c26_intersects_exact_partial.

(** over a dense order this means: a common point, or an empty operand *)
Theorem c26_intersects_dense_exact_partial : forall T (cmp : T -> T -> comparison) a b, ord_laws cmp -> dense cmp ->
  obtainable cmp a -> obtainable cmp b ->
  (iv_intersects cmp a b = true <->
   iv_is_empty a = true \/ iv_is_empty b = true \/ exists x, has cmp a x /\ has cmp b x).
Proof.
  intros T cmp a b HL HD Ha Hb. destruct (iv_is_empty a) eqn:Na.
  { split; auto. intros _. destruct a as [[[? ?]|]]; [discriminate|reflexivity]. }
  destruct (iv_is_empty b) eqn:Nb.
  { split; auto. intros _. destruct b as [[[? ?]|]]; [discriminate|]. destruct a as [[[? ?]|]]; reflexivity. }
  rewrite (@c26_intersects_dense_partial T cmp a b HL HD Ha Hb Na Nb). split; auto.
  intros [K|[K|K]]; [discriminate|discriminate|auto].
Qed.
Print Assumptions c26_intersects_dense_exact_partial.

(** over the integers the answer is wrong exactly for two operands that overlap
    in an open gap between neighbouring numbers *)
Theorem c26_intersects_integers_exact_partial : forall a b, zob a -> zob b ->
  iv_is_empty a = false -> iv_is_empty b = false ->
  (iv_intersects Z.compare a b = true <->
   (exists x, zhas a x /\ zhas b x) \/
   (exists l lc u uc l' lc' u' uc',
      iv_into_tuple a = Some (l, lc, u, uc) /\ iv_into_tuple b = Some (l', lc', u', uc') /\
      (l = u - 1 /\ lc = false /\ uc = false /\ l' < u /\ l < u' \/
       l' = u' - 1 /\ lc' = false /\ uc' = false /\ l < u' /\ l' < u \/
       l = u' - 1 /\ lc = false /\ uc' = false /\ l' < u /\ l < u' \/
       l' = u - 1 /\ lc' = false /\ uc = false /\ l < u' /\ l' < u))).
Proof.
  intros a b Ha Hb Na Nb. rewrite (c26_intersects_exact_partial _ Z.compare a b Z_ord).
  pose proof (obtainable_wf Z_ord Ha) as Wa. pose proof (obtainable_wf Z_ord Hb) as Wb.
  destruct (ivt_eta a) as [->|(l & lc & u & uc & ->)]; [discriminate|].
  destruct (ivt_eta b) as [->|(l' & lc' & u' & uc' & ->)]; [discriminate|].
  assert (Z1 : forall x y, lt Z.compare x y <-> x < y) by reflexivity.
  assert (Z2 : forall x y, le Z.compare x y <-> x <= y) by reflexivity.
  unfold wf, has in *. cbn in Wa, Wb |- *. rewrite ?Z_eqv in *. rewrite ?Z1 in *.
  split.
  - intros [R1 R2].
    set (lo := Z.max (if lc then l else l + 1) (if lc' then l' else l' + 1)).
    set (hi := Z.min (if uc then u else u - 1) (if uc' then u' else u' - 1)).
    destruct (Z_le_gt_dec lo hi) as [H|H].
    + left. exists lo. unfold lo, hi in *.
      destruct lc, uc, lc', uc'; cbn; rewrite ?Z1, ?Z2; lia.
    + right. exists l, lc, u, uc, l', lc', u', uc'. split; auto. split; auto. unfold lo, hi in *.
      destruct lc, uc, lc', uc'; lia.
  - intros [(x & Hx)|(l0 & lc0 & u0 & uc0 & l0' & lc0' & u0' & uc0' & E1 & E2 & H)].
    + destruct lc, uc, lc', uc'; cbn in Hx; rewrite ?Z1, ?Z2 in Hx; lia.
    + injection E1 as <- <- <- <-. injection E2 as <- <- <- <-. lia.
Qed.
Print Assumptions c26_intersects_integers_exact_partial.

Example c26_ex_exact : iv_intersects Z.compare (zt 1 false 3 false) (zt 2 false 4 false) = true /\
  zob (zt 1 false 3 false) /\ zob (zt 2 false 4 false) /\ (2 = 3 - 1 /\ 1 < 4 /\ 2 < 3) /\
  iv_intersects Z.compare (zt 1 false 3 true) (zt 2 false 4 false) = true /\ zhas (zt 1 false 3 true) 3 /\ zhas (zt 2 false 4 false) 3.
Proof. split; [reflexivity|]. split; [ob|]. split; [ob|]. split; [lia|]. repeat split; discriminate. Qed.

(** ** C29 *)
(** what [<=] and [>=] mean: the end of one is not after the start of the
    other, whatever the flags; for equal intervals they hold exactly for a
    single point *)
Theorem c29_le_exact_partial : forall T (cmp : T -> T -> comparison) a b, ord_laws cmp ->
  (iv_le cmp a b = true <->
   match iv_into_tuple a, iv_into_tuple b with Some (_, _, u, _), Some (l, _, _, _) => le cmp u l | _, _ => False end) /\
  (iv_ge cmp a b = true <->
   match iv_into_tuple a, iv_into_tuple b with Some (l, _, _, _), Some (_, _, u, _) => le cmp u l | _, _ => False end) /\
  (obtainable cmp a -> iv_eq cmp a b = true ->
    (iv_le cmp a b = true <-> iv_is_single cmp a = true) /\ (iv_ge cmp a b = true <-> iv_is_single cmp a = true)).
Proof.
  intros T cmp a b HL. split; [|split].
  - destruct (ivt_eta a) as [->|(l & lc & u & uc & ->)]; [cbn; split; [discriminate|intros []]|].
    destruct (ivt_eta b) as [->|(l' & lc' & u' & uc' & ->)]; [cbn; split; [discriminate|intros []]|].
    unfold iv_le, ul_le, vle, le; cbn. destruct (cmp u l'); split; auto; congruence.
  - destruct (ivt_eta a) as [->|(l & lc & u & uc & ->)]; [cbn; split; [discriminate|intros []]|].
    destruct (ivt_eta b) as [->|(l' & lc' & u' & uc' & ->)]; [cbn; split; [discriminate|intros []]|].
    unfold iv_ge, lu_ge, vge, le; cbn. rewrite (ord_opp HL l u'). destruct (cmp l u'); split; cbn; auto; congruence.
  - intros Ha He. pose proof (obtainable_wf HL Ha) as W. apply iv_eq_same in He.
    destruct (ivt_eta a) as [->|(l & lc & u & uc & ->)]; [split; split; discriminate|].
    destruct (ivt_eta b) as [->|(l' & lc' & u' & uc' & ->)]; [destruct He|].
    cbn in He. destruct He as (E1 & -> & E2 & ->). unfold wf in W; cbn in W. unfold eqv, lt in *.
    unfold iv_le, iv_ge, ul_le, lu_ge, vle, vge, iv_is_single; cbn. unfold veq; cbn.
    assert (A : cmp u l' = CompOpp (cmp l u)).
    { rewrite (ord_opp HL l' u). f_equal. symmetry; exact (ord_eq HL l l' u E1). }
    assert (B : cmp l u' = cmp l u).
    { rewrite (ord_opp HL u' l), (ord_opp HL u l). f_equal. symmetry; exact (ord_eq HL u u' l E2). }
    rewrite A, B. destruct W as [W|(W & _)]; rewrite W; cbn; split; split; congruence.
Qed.
Print Assumptions c29_le_exact_partial.

Example c29_ex_exact : iv_le Z.compare (zt 3 true 5 true) (zt 5 true 7 true) = true /\
  iv_le Z.compare (zt 3 true 5 false) (zt 5 false 7 true) = true /\
  iv_le Z.compare (zt 3 true 3 true) (zt 3 true 3 true) = true /\ iv_ge Z.compare (zt 3 true 4 true) (zt 3 true 4 true) = false.
Proof. repeat split. Qed.

(** ** C31 *)
(** the whole table: [<] and [>] hold together exactly for equal values that are
    not both closed; [==] and [!=] are always false *)
Theorem c31_lower_upper_exact_partial : forall T (cmp : T -> T -> comparison) (l : lower T) (u : upper T), ord_laws cmp ->
  (lu_lt cmp l u = true <-> lt cmp (lval l) (uval u) \/ eqv cmp (lval l) (uval u) /\ ~ (lclosed l = true /\ uclosed u = true)) /\
  (lu_gt cmp l u = true <-> lt cmp (uval u) (lval l) \/ eqv cmp (lval l) (uval u) /\ ~ (lclosed l = true /\ uclosed u = true)) /\
  (lu_lt cmp l u = true /\ lu_gt cmp l u = true <->
     eqv cmp (lval l) (uval u) /\ ~ (lclosed l = true /\ uclosed u = true)) /\
  (lu_le cmp l u = true /\ lu_lt cmp l u = false <->
     eqv cmp (lval l) (uval u) /\ lclosed l = true /\ uclosed u = true) /\
  lu_eq l u = false /\ lu_ne l u = false /\ ul_eq u l = false /\ ul_ne u l = false /\
  (lu_partial_cmp cmp l u = None <-> eqv cmp (lval l) (uval u) /\ lclosed l = true /\ uclosed u = true) /\
  (lu_partial_cmp cmp l u = Some Gt <-> lt cmp (uval u) (lval l)) /\
  (ul_partial_cmp cmp u l = Some Gt <-> lt cmp (lval l) (uval u)).
Proof.
  intros T cmp [[l lc]] [[u uc]] HL.
  unfold lu_partial_cmp, ul_partial_cmp, lu_lt, lu_gt, lu_le, ul_lt, ul_gt, vle, lt, eqv; cbn.
  rewrite (ord_opp HL l u). destruct (cmp l u), lc, uc; cbn; intuition (try discriminate; try congruence).
Qed.
Print Assumptions c31_lower_upper_exact_partial.

Example c31_ex_exact : lu_partial_cmp Z.compare (lower_new 1 true) (upper_new 1 true) = None /\
  lu_partial_cmp Z.compare (lower_new 1 true) (upper_new 1 false) = Some Lt /\
  ul_partial_cmp Z.compare (upper_new 1 false) (lower_new 1 true) = Some Lt.
Proof. repeat split. Qed.

(** ** C36 *)
(** truncating integer division in full: the points of I/k are the quotients of
    the points of I, except those that coincide with the quotient of an open
    end *)
Theorem c36_division_integers_exact_partial : forall I i k l lc u uc j, zob i ->
  iv_into_tuple i = Some (l, lc, u, uc) -> iv_div Z.compare (int_div I) i k = Ret j ->
  forall y, zhas j y <->
    (lc = false -> y <> Z.quot l k) /\ (uc = false -> y <> Z.quot u k) /\ exists x, zhas i x /\ y = Z.quot x k.
Proof.
  intros I i k l lc u uc j Ho Ht Hd. pose proof (obtainable_wf Z_ord Ho) as W.
  destruct (ivt_eta i) as [->|(l0 & lc0 & u0 & uc0 & ->)]; [discriminate|]. injection Ht as -> -> -> ->.
  rewrite iv_div_map, iv_map_ivt in Hd. unfold int_div in Hd.
  destruct (Z.eqb_spec k 0) as [->|K]; [discriminate|].
  destruct ((imin I <=? Z.quot u k) && (Z.quot u k <=? imax I)); [|discriminate]. cbn [obind] in Hd.
  destruct ((imin I <=? Z.quot l k) && (Z.quot l k <=? imax I)); [|discriminate]. cbn [obind] in Hd.
  injection Hd as <-.
  assert (Z1 : forall x y, lt Z.compare x y <-> x < y) by reflexivity.
  assert (Z2 : forall x y, le Z.compare x y <-> x <= y) by reflexivity.
  assert (L : l < u \/ l = u /\ lc = true /\ uc = true).
  { unfold wf in W; cbn in W. rewrite Z1, Z_eqv in W. exact W. }
  assert (Qx : forall y, Z.quot (y * k) k = y) by (intros; apply Z.quot_mul; auto).
  set (ql := Z.quot l k) in *. set (qu := Z.quot u k) in *.
  assert (Mono : 0 < k /\ (forall a b, a <= b -> Z.quot a k <= Z.quot b k) \/
                 k < 0 /\ (forall a b, a <= b -> Z.quot b k <= Z.quot a k)).
  { destruct (Z.lt_trichotomy k 0) as [K0|[K0|K0]]; [|contradiction|].
    - right. split; auto. intros a b Hab. assert (P : 0 < - k) by lia.
      pose proof (Z.quot_le_mono a b (- k) P Hab) as A. rewrite !Z.quot_opp_r in A by auto. lia.
    - left. split; auto. intros a b Hab. apply Z.quot_le_mono; lia. }
  intros y.
  (* the exact multiple above y lies strictly between the ends *)
  assert (In : (ql < y < qu \/ qu < y < ql) -> l < y * k < u).
  { intros Hy. destruct Mono as [[K0 M]|[K0 M]].
    - pose proof (M l u). destruct (Z_le_gt_dec (y * k) l) as [H1|H1].
      + pose proof (M _ _ H1) as A. rewrite Qx in A. unfold ql, qu in *. lia.
      + destruct (Z_le_gt_dec u (y * k)) as [H2|H2]; [|lia].
        pose proof (M _ _ H2) as A. rewrite Qx in A. unfold ql, qu in *. lia.
    - pose proof (M l u). destruct (Z_le_gt_dec (y * k) l) as [H1|H1].
      + pose proof (M _ _ H1) as A. rewrite Qx in A. unfold ql, qu in *. lia.
      + destruct (Z_le_gt_dec u (y * k)) as [H2|H2]; [|lia].
        pose proof (M _ _ H2) as A. rewrite Qx in A. unfold ql, qu in *. lia. }
  assert (Bt : forall x, l <= x <= u -> ql <= Z.quot x k <= qu \/ qu <= Z.quot x k <= ql).
  { intros x [H1 H2]. destruct Mono as [[K0 M]|[K0 M]]; pose proof (M _ _ H1); pose proof (M _ _ H2); unfold ql, qu; lia. }
  assert (El : lc = true -> zhas (ivt l lc u uc) l).
  { intros ->. unfold has; cbn. rewrite Z2. destruct uc; cbn; rewrite ?Z1, ?Z2; lia. }
  assert (Eu : uc = true -> zhas (ivt l lc u uc) u).
  { intros ->. unfold has; cbn. rewrite Z2. destruct lc; cbn; rewrite ?Z1, ?Z2; lia. }
  assert (Ei : forall x, l < x < u -> zhas (ivt l lc u uc) x).
  { intros x Hx. unfold has; cbn. destruct lc, uc; cbn; rewrite ?Z1, ?Z2; lia. }
  assert (Eb : forall x, zhas (ivt l lc u uc) x -> l <= x <= u).
  { intros x. unfold has; cbn. destruct lc, uc; cbn; rewrite ?Z1, ?Z2; lia. }
  destruct (Z.lt_trichotomy ql qu) as [Q|[Q|Q]].
  - unfold has at 1. rewrite fix_lt by exact Q. cbn. split.
    + intros Hy.
      assert (Hy' : ql <= y <= qu /\ (lc = false -> y <> ql) /\ (uc = false -> y <> qu))
        by (destruct lc, uc; cbn in Hy; rewrite ?Z1, ?Z2 in Hy; repeat split; try lia; intros; try discriminate; lia).
      destruct Hy' as (R & F1 & F2). split; auto. split; auto.
      destruct (Z.eq_dec y ql) as [->|N1]; [exists l; split; [apply El; destruct lc; [reflexivity|exfalso; apply F1; reflexivity]|reflexivity]|].
      destruct (Z.eq_dec y qu) as [->|N2]; [exists u; split; [apply Eu; destruct uc; [reflexivity|exfalso; apply F2; reflexivity]|reflexivity]|].
      exists (y * k). split; [apply Ei, In; lia|auto].
    + intros (F1 & F2 & x & Hx & ->). pose proof (Bt x (Eb x Hx)).
      destruct lc, uc; cbn; rewrite ?Z1, ?Z2; try specialize (F1 eq_refl); try specialize (F2 eq_refl); lia.
  - unfold has at 1. rewrite fix_eq by (apply Z_eqv; exact Q). split.
    + destruct lc, uc; cbn; try tauto. rewrite ?Z2. intros Hy. assert (y = ql) by lia. subst y.
      split; [discriminate|]. split; [discriminate|]. exists l. split; auto.
    + intros (F1 & F2 & x & Hx & ->). pose proof (Bt x (Eb x Hx)).
      destruct lc; [|specialize (F1 eq_refl); lia]. destruct uc; [|specialize (F2 eq_refl); lia].
      cbn; rewrite ?Z2; lia.
  - unfold has at 1. rewrite (fix_gt Z_ord) by exact Q. cbn. split.
    + intros Hy.
      assert (Hy' : qu <= y <= ql /\ (lc = false -> y <> ql) /\ (uc = false -> y <> qu))
        by (destruct lc, uc; cbn in Hy; rewrite ?Z1, ?Z2 in Hy; repeat split; try lia; intros; try discriminate; lia).
      destruct Hy' as (R & F1 & F2). split; auto. split; auto.
      destruct (Z.eq_dec y ql) as [->|N1]; [exists l; split; [apply El; destruct lc; [reflexivity|exfalso; apply F1; reflexivity]|reflexivity]|].
      destruct (Z.eq_dec y qu) as [->|N2]; [exists u; split; [apply Eu; destruct uc; [reflexivity|exfalso; apply F2; reflexivity]|reflexivity]|].
      exists (y * k). split; [apply Ei, In; lia|auto].
    + intros (F1 & F2 & x & Hx & ->). pose proof (Bt x (Eb x Hx)).
      destruct lc, uc; cbn; rewrite ?Z1, ?Z2; try specialize (F1 eq_refl); try specialize (F2 eq_refl); lia.
Qed.
Print Assumptions c36_division_integers_exact_partial.

(** and it panics exactly for a zero divisor or when a quotient is out of range
    (MIN / -1), in every build; the empty interval can be divided by anything *)
Theorem c36_division_panics : forall I i k,
  (iv_div Z.compare (int_div I) i k = Panic <->
   iv_is_empty i = false /\ (k = 0 \/ ~ no_overflow I (fun x => Z.quot x k) (iv_into_tuple i))) /\
  (iv_div Z.compare (int_div I) i k = Panic \/ exists j, iv_div Z.compare (int_div I) i k = Ret j).
Proof.
  intros I i k. destruct (ivt_eta i) as [->|(l & lc & u & uc & ->)].
  { split; [split; [discriminate|intros [K _]; discriminate]|right; eexists; reflexivity]. }
  rewrite iv_div_map, iv_map_ivt. unfold int_div, no_overflow, in_range; cbn.
  destruct (Z.eqb_spec k 0) as [->|K]; cbn; [split; auto; split; auto|].
  destruct ((imin I <=? Z.quot u k) && (Z.quot u k <=? imax I)) eqn:B1; cbn.
  - destruct ((imin I <=? Z.quot l k) && (Z.quot l k <=? imax I)) eqn:B2; cbn.
    + split; [|right; eexists; reflexivity]. split; [discriminate|]. intros (_ & [H|H]); [contradiction|exfalso; apply H; lia].
    + split; auto. split; auto. intros _. split; auto. right. lia.
  - split; auto. split; auto. intros _. split; auto. right. lia.
Qed.
Print Assumptions c36_division_panics.

Example c36_ex_exact : iv_div Z.compare (int_div (i32 true)) (zt (-7) false 9 true) 2 = Ret (zt (-3) false 4 true) /\
  zob (zt (-7) false 9 true) /\ zhas (zt (-7) false 9 true) (-6) /\ Z.quot (-6) 2 = -3 /\ Z.quot (-7) 2 = -3 /\
  iv_div Z.compare (int_div (i32 false)) (zt (-2147483648) true 9 true) (-1) = Panic.
Proof. split; [reflexivity|]. split; [ob|]. repeat split; discriminate. Qed.

(** ** C38 *)
(** unary minus panics exactly on overflow, too *)
Theorem c38_neg_panics_iff_overflow : forall I i, ichecked I = true -> zob i ->
  (iv_neg Z.compare (int_neg I) i = Panic <-> ~ no_overflow I Z.opp (iv_into_tuple i)).
Proof.
  intros I i C Ho. split.
  - intros H F. destruct (@c37_negation I i Ho F) as (j & K & _). congruence.
  - intros F. destruct (@c38_checked_exact_or_panic_partial I i 1 C Ho) as (_ & _ & _ & [H|(j & H & _)]); auto.
    exfalso. apply F. destruct (ivt_eta i) as [->|(l & lc & u & uc & ->)]; [exact Logic.I|]. cbn.
    rewrite iv_neg_ivt in H. unfold int_neg, int_result in H. rewrite C in H. unfold in_range.
    destruct ((imin I <=? - u) && (- u <=? imax I)) eqn:B1; [|discriminate]. cbn [obind] in H.
    destruct ((imin I <=? - l) && (- l <=? imax I)) eqn:B2; [|discriminate]. lia.
Qed.
Print Assumptions c38_neg_panics_iff_overflow.

Example c38_ex_neg : iv_neg Z.compare (int_neg (u8 true)) (zt 0 true 5 true) = Panic /\
  ~ no_overflow (u8 true) Z.opp (iv_into_tuple (zt 0 true 5 true)) /\ zob (zt 0 true 5 true) /\
  iv_neg Z.compare (int_neg (u8 true)) (zt 0 true 0 true) = Ret (zt 0 true 0 true).
Proof. split; [reflexivity|]. split; [cbn; unfold in_range; cbn; lia|]. split; [ob|reflexivity]. Qed.
