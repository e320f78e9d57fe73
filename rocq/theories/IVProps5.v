(** Property theorems C38 (what arithmetic that wraps around computes) and C39
    (exactly which panicking compound assignments leave a malformed interval). *)
From Coq Require Import ZArith Lia Bool.
From Verif Require Import Base IVModel IVSpec IVRun IVProofs IVProofs2 IVProofs3 IVProofs4 IVProofs5 IVProps1 IVProps2.
Local Open Scope Z_scope.

(** ** C38 *)
(** two new end points put in order, each keeping its flag; two equal ones make
    a single point if both are closed and nothing otherwise *)
Definition oriented (l : Z) (lc : bool) (u : Z) (uc : bool) : option (Z * bool * Z * bool) :=
  if l <? u then Some (l, lc, u, uc)
  else if u <? l then Some (u, uc, l, lc)
  else if lc && uc then Some (l, true, l, true) else None.

Lemma wrap_in I z : in_range I z -> wrap I z = z.
Proof. unfold in_range, wrap. intros H. rewrite Z.mod_small by lia. lia. Qed.
Lemma wrap_over I z : imin I <= imax I -> imax I < z <= imax I + (imax I - imin I + 1) -> wrap I z = z - (imax I - imin I + 1).
Proof.
  unfold wrap. intros H B. rewrite <- (Z.mod_unique (z - imin I) (imax I - imin I + 1) 1 (z - imin I - (imax I - imin I + 1))); lia.
Qed.
Lemma wrap_under I z : imin I <= imax I -> imin I - (imax I - imin I + 1) <= z < imin I -> wrap I z = z + (imax I - imin I + 1).
Proof.
  unfold wrap. intros H B. rewrite <- (Z.mod_unique (z - imin I) (imax I - imin I + 1) (-1) (z - imin I + (imax I - imin I + 1))); lia.
Qed.
Lemma unchecked I z : ichecked I = false -> int_result I z = Ret (wrap I z).
Proof.
  intros C. destruct (in_range_dec I z) as [R|R].
  - now rewrite int_result_in, wrap_in.
  - unfold int_result. rewrite C. unfold in_range in R. replace ((imin I <=? z) && (z <=? imax I)) with false by lia. reflexivity.
Qed.
Lemma fix_oriented l lc u uc : iv_into_tuple (fix_after_modification Z.compare (ivt l lc u uc)) = oriented l lc u uc.
Proof.
  unfold oriented. destruct (Z.ltb_spec l u) as [H|H]; [now apply fix_lt|].
  destruct (Z.ltb_spec u l) as [K|K]; [now apply (fix_gt Z_ord)|].
  assert (l = u) by lia. subst u. rewrite fix_eq by (now apply Z_eqv). destruct lc, uc; reflexivity.
Qed.
Lemma map_unchecked I f i l lc u uc : ichecked I = false -> iv_into_tuple i = Some (l, lc, u, uc) ->
  exists j, iv_map Z.compare (fun x => int_result I (f x)) i = Ret j /\
    iv_into_tuple j = oriented (wrap I (f l)) lc (wrap I (f u)) uc.
Proof.
  intros C E. destruct (ivt_eta i) as [->|(l' & lc' & u' & uc' & ->)]; [discriminate|].
  cbn in E. injection E as -> -> -> ->. rewrite iv_map_ivt, !unchecked by auto. cbn [obind].
  eexists; split; [reflexivity|]. apply fix_oriented.
Qed.

(** Without overflow checks + - * and unary - never fail: both end points are
    computed modulo the width of the type and put in order again. *)
Theorem c38_wrapping_exact_partial : forall I i k l lc u uc, ichecked I = false -> iv_into_tuple i = Some (l, lc, u, uc) ->
  (exists j, iv_add Z.compare (int_add I) i k = Ret j /\ iv_into_tuple j = oriented (wrap I (l + k)) lc (wrap I (u + k)) uc) /\
  (exists j, iv_sub Z.compare (int_sub I) i k = Ret j /\ iv_into_tuple j = oriented (wrap I (l - k)) lc (wrap I (u - k)) uc) /\
  (exists j, iv_mul Z.compare (int_mul I) i k = Ret j /\ iv_into_tuple j = oriented (wrap I (l * k)) lc (wrap I (u * k)) uc) /\
  (exists j, iv_neg Z.compare (int_neg I) i = Ret j /\ iv_into_tuple j = oriented (wrap I (- u)) uc (wrap I (- l)) lc).
Proof.
  intros I i k l lc u uc C E. rewrite iv_add_map, iv_sub_map, iv_mul_map.
  split; [exact (@map_unchecked I _ i _ _ _ _ C E)|]. split; [exact (@map_unchecked I _ i _ _ _ _ C E)|].
  split; [exact (@map_unchecked I _ i _ _ _ _ C E)|].
  destruct (ivt_eta i) as [->|(l' & lc' & u' & uc' & ->)]; [discriminate|].
  cbn in E. injection E as -> -> -> ->. rewrite iv_neg_ivt. unfold int_neg. rewrite !unchecked by auto. cbn [obind].
  eexists; split; [reflexivity|]. rewrite fix_oriented. reflexivity.
Qed.
Print Assumptions c38_wrapping_exact_partial.

Lemma wrap_cases I z : imin I <= imax I -> imin I - (imax I - imin I + 1) <= z <= imax I + (imax I - imin I + 1) ->
  (imin I <= z <= imax I /\ wrap I z = z) \/ (imax I < z /\ wrap I z = z - (imax I - imin I + 1)) \/
  (z < imin I /\ wrap I z = z + (imax I - imin I + 1)).
Proof.
  intros H B. destruct (Z.lt_ge_cases z (imin I)) as [A|A]; [right; right; split; auto; apply wrap_under; lia|].
  destruct (Z.lt_ge_cases (imax I) z) as [A'|A']; [right; left; split; auto; apply wrap_over; lia|].
  left. split; [lia|]. apply wrap_in. unfold in_range; lia.
Qed.
Lemma sides I a b : (in_range I a <-> in_range I b) -> imin I <= imax I ->
  (imin I <= a <= imax I /\ imin I <= b <= imax I) \/ ((a < imin I \/ imax I < a) /\ (b < imin I \/ imax I < b)).
Proof.
  unfold in_range. intros H R. destruct (in_range_dec I a) as [A|A]; unfold in_range in A.
  - left. split; [exact A|apply H, A].
  - right. split; [lia|]. assert (~ (imin I <= b <= imax I)) by (intros K; apply A, H, K). lia.
Qed.
Lemma nosides I a b : ~ (in_range I a <-> in_range I b) -> imin I <= imax I ->
  (imin I <= a <= imax I /\ (b < imin I \/ imax I < b)) \/ ((a < imin I \/ imax I < a) /\ imin I <= b <= imax I).
Proof.
  unfold in_range. intros H R. destruct (in_range_dec I a) as [A|A], (in_range_dec I b) as [B|B]; unfold in_range in A, B; try tauto; lia.
Qed.

(** the monotone and the antitone case, on the values alone *)
Ltac laps :=
  repeat match goal with |- context [wrap ?I ?z] =>
    lazymatch goal with _ : wrap I z = _ |- _ => fail | _ => idtac end;
    destruct (@wrap_cases I z) as [[? ?]|[[? ?]|[? ?]]]; [lia|lia| | |]; try (exfalso; lia) end;
  repeat match goal with H : wrap _ _ = _ |- _ => rewrite H; clear H end; lia.
Lemma up_same I l u x d : imin I <= imax I -> imin I <= l <= imax I -> imin I <= u <= imax I -> imin I <= x <= imax I ->
  - (imax I - imin I + 1) <= d <= imax I - imin I + 1 -> l <= u ->
  (in_range I (l + d) <-> in_range I (u + d)) ->
  wrap I (u + d) - wrap I (l + d) = u - l /\
  ((l <= x <= u /\ wrap I (x + d) - wrap I (l + d) = x - l) \/
   ((x < l \/ u < x) /\ (wrap I (x + d) < wrap I (l + d) \/ wrap I (u + d) < wrap I (x + d)))).
Proof. intros H Hl Hu Hx Hd L S. apply sides in S; auto. laps. Qed.
Lemma up_diff I l u x d : imin I <= imax I -> imin I <= l <= imax I -> imin I <= u <= imax I -> l < x < u ->
  - (imax I - imin I + 1) <= d <= imax I - imin I + 1 ->
  ~ (in_range I (l + d) <-> in_range I (u + d)) ->
  wrap I (u + d) < wrap I (l + d) /\ (wrap I (x + d) < wrap I (u + d) \/ wrap I (l + d) < wrap I (x + d)).
Proof. intros H Hl Hu Hx Hd S. apply nosides in S; auto. laps. Qed.
Lemma down_same I l u x : imin I = 0 /\ 0 < imax I \/ imin I = - imax I - 1 /\ imin I < 0 ->
  imin I <= l <= imax I -> imin I <= u <= imax I -> imin I <= x <= imax I -> l <= u ->
  (in_range I (- l) <-> in_range I (- u)) ->
  wrap I (- l) - wrap I (- u) = u - l /\
  ((l <= x <= u /\ wrap I (- l) - wrap I (- x) = x - l) \/
   ((x < l \/ u < x) /\ (wrap I (- x) < wrap I (- u) \/ wrap I (- l) < wrap I (- x)))).
Proof. intros H Hl Hu Hx L S. apply sides in S; [|lia]. laps. Qed.
Lemma down_diff I l u x : imin I = 0 /\ 0 < imax I \/ imin I = - imax I - 1 /\ imin I < 0 ->
  imin I <= l <= imax I -> imin I <= u <= imax I -> l < x < u ->
  ~ (in_range I (- l) <-> in_range I (- u)) ->
  wrap I (- l) < wrap I (- u) /\ (wrap I (- x) < wrap I (- l) \/ wrap I (- u) < wrap I (- x)).
Proof. intros H Hl Hu Hx S. apply nosides in S; [|lia]. laps. Qed.

(** from the ordered ends to the points they hold *)
Lemma points_same i j l lc u uc a b c x : iv_into_tuple i = Some (l, lc, u, uc) -> iv_into_tuple j = oriented a lc b uc ->
  (l = u -> lc = true /\ uc = true) -> l <= u -> b - a = u - l ->
  ((l <= x <= u /\ c - a = x - l) \/ ((x < l \/ u < x) /\ (c < a \/ b < c))) -> (zhas i x <-> zhas j c).
Proof.
  intros E T P L D H. unfold has. rewrite E, T. unfold oriented.
  destruct (Z.ltb_spec a b) as [Q|Q]; [destruct lc, uc; zpts; lia|].
  destruct (Z.ltb_spec b a) as [Q'|Q']; [lia|]. destruct P as [-> ->]; [lia|]. cbn. zpts. lia.
Qed.
Lemma points_swap i j l lc u uc a b c x : iv_into_tuple i = Some (l, lc, u, uc) -> iv_into_tuple j = oriented b uc a lc ->
  (l = u -> lc = true /\ uc = true) -> l <= u -> a - b = u - l ->
  ((l <= x <= u /\ a - c = x - l) \/ ((x < l \/ u < x) /\ (c < b \/ a < c))) -> (zhas i x <-> zhas j c).
Proof.
  intros E T P L D H. unfold has. rewrite E, T. unfold oriented.
  destruct (Z.ltb_spec b a) as [Q|Q]; [destruct lc, uc; zpts; lia|].
  destruct (Z.ltb_spec a b) as [Q'|Q']; [lia|]. destruct P as [-> ->]; [lia|]. cbn. zpts. lia.
Qed.
Lemma points_diff j lc uc a b c : iv_into_tuple j = oriented a lc b uc -> a <> b -> 
  (c < a /\ c < b) \/ (a < c /\ b < c) -> ~ zhas j c.
Proof.
  intros T N H. unfold has. rewrite T. unfold oriented.
  destruct (Z.ltb_spec a b) as [Q|Q]; [destruct lc, uc; zpts; lia|].
  destruct (Z.ltb_spec b a) as [Q'|Q']; [destruct lc, uc; zpts; lia|lia].
Qed.

(** Which of these results is the right one.  An operand of the type itself can
    push the ends over the range in one direction only.  If both ends or neither
    overflow, the result holds exactly the wrapped sums (differences, opposites)
    of the points of the interval; if just one end overflows, it holds the wrapped
    result of NO point between the ends. *)
Theorem c38_wrapping_right_or_inside_out_partial : forall I i k l lc u uc, ichecked I = false -> zob i ->
  imin I = 0 /\ 0 < imax I \/ imin I = - imax I - 1 /\ imin I < 0 ->
  iv_into_tuple i = Some (l, lc, u, uc) -> in_range I l -> in_range I u -> in_range I k ->
  let good (f : Z -> Z) (r : outcome (interval Z)) := exists j, r = Ret j /\
    ((in_range I (f l) <-> in_range I (f u)) -> forall x, in_range I x -> (zhas i x <-> zhas j (wrap I (f x)))) /\
    (~ (in_range I (f l) <-> in_range I (f u)) -> forall x, l < x < u -> ~ zhas j (wrap I (f x))) in
  good (fun x => x + k) (iv_add Z.compare (int_add I) i k) /\
  good (fun x => x - k) (iv_sub Z.compare (int_sub I) i k) /\
  good (fun x => - x) (iv_neg Z.compare (int_neg I) i).
Proof.
  intros I i k l lc u uc C Ho HI E Rl Ru Rk good. subst good. cbv beta.
  destruct (@c38_wrapping_exact_partial I i k l lc u uc C E) as ((ja & Ja & Ta) & (js & Js & Ts) & _ & (jn & Jn & Tn)).
  pose proof (obtainable_wf Z_ord Ho) as W. unfold wf in W. rewrite E in W.
  assert (L : l <= u) by (destruct W as [W|(W & _)]; [change (l < u) in W|apply Z_eqv in W]; lia).
  assert (P : l = u -> lc = true /\ uc = true) by (destruct W as [W|(W & W1 & W2)]; [change (l < u) in W; lia|auto]).
  unfold in_range in Rl, Ru, Rk. assert (HM : imin I <= imax I) by lia. clear W Ho.
  split; [|split].
  - exists ja. split; [exact Ja|]. split; intros B x X.
    + destruct (@up_same I l u x k) as [H1 H2]; auto; [lia|]. exact (@points_same i ja l lc u uc _ _ _ x E Ta P L H1 H2).
    + destruct (@up_diff I l u x k) as [H1 H2]; auto; [lia|]. eapply points_diff; [exact Ta|lia|lia].
  - exists js. split; [exact Js|]. change (l - k) with (l + - k) in *. change (u - k) with (u + - k) in *.
    split; intros B x X; change (x - k) with (x + - k).
    + destruct (@up_same I l u x (- k)) as [H1 H2]; auto; [lia|]. exact (@points_same i js l lc u uc _ _ _ x E Ts P L H1 H2).
    + destruct (@up_diff I l u x (- k)) as [H1 H2]; auto; [lia|]. eapply points_diff; [exact Ts|lia|lia].
  - exists jn. split; [exact Jn|]. split; intros B x X.
    + destruct (@down_same I l u x) as [H1 H2]; auto. exact (@points_swap i jn l lc u uc _ _ _ x E Tn P L H1 H2).
    + destruct (@down_diff I l u x) as [H1 H2]; auto. eapply points_diff; [exact Tn|lia|lia].
Qed.
Print Assumptions c38_wrapping_right_or_inside_out_partial.

(** u8: [100,200] + 200 wraps at both ends and is right modulo 256; [100,200] + 100
    wraps at one end and loses everything in between *)
Example c38_ex_wrap : ichecked (u8 false) = false /\ zob (zt 100 true 200 false) /\
  iv_into_tuple (zt 100 true 200 false) = Some (100, true, 200, false) /\ in_range (u8 false) 100 /\ in_range (u8 false) 200 /\
  iv_add Z.compare (int_add (u8 false)) (zt 100 true 200 false) 200 = Ret (zt 44 true 144 false) /\
  iv_add Z.compare (int_add (u8 false)) (zt 100 true 200 false) 100 = Ret (zt 44 false 200 true) /\
  iv_mul Z.compare (int_mul (u8 false)) (zt 3 true 5 false) 128 = Ret (iv_empty Z) /\
  iv_neg Z.compare (int_neg (i32 false)) (zt (-2147483648) true 7 false) = Ret (zt (-2147483648) true (-7) false).
Proof.
  split; [reflexivity|]. split; [ob|]. split; [reflexivity|]. split; [unfold in_range; cbn; lia|].
  split; [unfold in_range; cbn; lia|]. repeat split.
Qed.

(** ** C39 *)
(** For every element type: after a failed compound assignment the interval left
    behind is well formed exactly if the lower value could not be updated either,
    or its new value still lies below the old upper one (or meets it in a closed
    point).  The empty interval never fails. *)
Theorem c39_left_behind_well_formed_iff_partial : forall T U (cmp : T -> T -> comparison) (op : T -> U -> outcome T) i k j o,
  ord_laws cmp -> obtainable cmp i ->
  iv_add_assign cmp (assign_of op) i k = (j, o) \/ iv_sub_assign cmp (assign_of op) i k = (j, o) \/
  iv_mul_assign cmp (assign_of op) i k = (j, o) \/ iv_div_assign cmp (assign_of op) i k = (j, o) ->
  o <> Ret tt ->
  exists l lc u uc, iv_into_tuple i = Some (l, lc, u, uc) /\
   (well_formed cmp (iv_into_tuple j) <->
    forall l', op l k = Ret l' -> lt cmp l' u \/ eqv cmp l' u /\ lc = true /\ uc = true).
Proof.
  intros T U cmp op i k j o HL Ho H N. pose proof (obtainable_wf HL Ho) as W.
  assert (M : iv_map_assign cmp (fun x => op x k) i = (j, o)).
  { destruct H as [H|[H|[H|H]]].
    - now rewrite iv_add_assign_map in H.
    - now rewrite iv_sub_assign_map in H.
    - now rewrite iv_mul_assign_map in H.
    - now rewrite iv_div_assign_map in H. }
  clear H. destruct (ivt_eta i) as [->|(l & lc & u & uc & ->)].
  { cbn in M. injection M as _ <-. now exfalso. }
  exists l, lc, u, uc. split; [reflexivity|]. unfold iv_map_assign in M; cbn in M.
  assert (Q : (exists l1, op l k = Ret l1 /\ j = ivt l1 lc u uc) \/ ((forall l1, op l k <> Ret l1) /\ j = ivt l lc u uc)).
  { destruct (op l k) as [l1| | | |]; try (right; injection M as <- _; split; [congruence|reflexivity]).
    left. exists l1. split; auto. destruct (op u k); injection M as <- <-; auto. now exfalso. }
  destruct Q as [(l1 & -> & ->)|[Q ->]]; cbn.
  - split; [|auto]. intros K l' [= <-]. exact K.
  - split; [|intros _; exact W]. intros _ l' K. now apply Q in K.
Qed.
Print Assumptions c39_left_behind_well_formed_iff_partial.

(** the same for checked integers: +=, -= and *= leave a malformed interval exactly
    if they panicked on the upper end only and moved the lower end past it *)
Theorem c39_integers_malformed_iff_partial : forall I i k j o l lc u uc, ichecked I = true -> zob i ->
  iv_into_tuple i = Some (l, lc, u, uc) -> o <> Ret tt ->
  let bad (l' : Z) := in_range I l' /\ (u < l' \/ u = l' /\ lc && uc = false) in
  (iv_add_assign Z.compare (assign_of (int_add I)) i k = (j, o) -> (~ well_formed Z.compare (iv_into_tuple j) <-> bad (l + k))) /\
  (iv_sub_assign Z.compare (assign_of (int_sub I)) i k = (j, o) -> (~ well_formed Z.compare (iv_into_tuple j) <-> bad (l - k))) /\
  (iv_mul_assign Z.compare (assign_of (int_mul I)) i k = (j, o) -> (~ well_formed Z.compare (iv_into_tuple j) <-> bad (l * k))).
Proof.
  intros I i k j o l lc u uc C Ho E N bad.
  assert (G : forall z (P : Prop), (P <-> forall l', int_result I z = Ret l' -> lt Z.compare l' u \/ eqv Z.compare l' u /\ lc = true /\ uc = true) ->
    (~ P <-> bad z)).
  { intros z P HP. rewrite HP. clear HP. unfold bad. destruct (in_range_dec I z) as [R|R].
    - rewrite int_result_in by auto. split.
      + intros H. split; [exact R|]. destruct (Z.lt_trichotomy z u) as [A|[A|A]]; [|right|left; lia].
        * exfalso. apply H. intros l' [= <-]. left. exact A.
        * split; [auto|]. destruct lc, uc; auto. exfalso. apply H. intros l' [= <-]. right. split; [now apply Z_eqv|auto].
      + intros [_ H] K. destruct (K z eq_refl) as [A|(A & -> & ->)]; [change (z < u) in A; lia|]. apply Z_eqv in A. destruct H as [H|[_ H]]; [lia|discriminate].
    - rewrite int_result_out by auto. split; [|tauto]. intros H. exfalso. apply H. discriminate. }
  split; [|split]; intros H; apply G.
  - destruct (@c39_left_behind_well_formed_iff_partial _ _ Z.compare (int_add I) i k j o Z_ord Ho) as (l1 & lc1 & u1 & uc1 & E1 & K); auto.
    rewrite E in E1. injection E1 as <- <- <- <-. exact K.
  - destruct (@c39_left_behind_well_formed_iff_partial _ _ Z.compare (int_sub I) i k j o Z_ord Ho) as (l1 & lc1 & u1 & uc1 & E1 & K); auto.
    rewrite E in E1. injection E1 as <- <- <- <-. exact K.
  - destruct (@c39_left_behind_well_formed_iff_partial _ _ Z.compare (int_mul I) i k j o Z_ord Ho) as (l1 & lc1 & u1 & uc1 & E1 & K); auto.
    rewrite E in E1. injection E1 as <- <- <- <-. exact K.
Qed.
Print Assumptions c39_integers_malformed_iff_partial.

(** u8: (100,200) *= 2 leaves (200,200); [100,200) *= 2 leaves [200,200); but
    [10,200] *= 2 leaves [20,200], which is well formed *)
Example c39_ex_malformed : zob (zt 100 false 200 false) /\
  iv_mul_assign Z.compare (assign_of (int_mul (u8 true))) (zt 100 false 200 false) 2 = (ivt 200 false 200 false, Panic) /\
  iv_add_assign Z.compare (assign_of (int_add (u8 true))) (zt 100 true 200 false) 150 = (ivt 250 true 200 false, Panic) /\
  iv_mul_assign Z.compare (assign_of (int_mul (u8 true))) (zt 10 true 200 true) 2 = (zt 20 true 200 true, Panic) /\
  iv_sub_assign Z.compare (assign_of (int_sub (i32 true))) (zt 0 true 2147483647 true) (-5) = (zt 5 true 2147483647 true, Panic).
Proof. split; [ob|]. repeat split. Qed.
