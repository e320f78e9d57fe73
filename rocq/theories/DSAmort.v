(** The amortised number of calls of [find_with_path_compression]. *)
From Coq Require Import Permutation NArith.
From Verif Require Import Base HMModel HMProofs DSModel DSSpec DSRun DSProofs DSProofs2 DSProofs3 DSProofs4 DSAck DSCost.
Local Open Scope outcome_scope.
Set Implicit Arguments.

Implicit Types (v : list data) (i j p q r : nat).

(** ranks as [nat] *)
Definition nrk v i : nat := N.to_nat (rk v i).

(** ** Sums *)
Definition sum (f : nat -> nat) (n : nat) : nat := list_sum (map f (seq 0 n)).

Lemma sum_S f n : sum f (S n) = sum f n + f n.
Proof.
  unfold sum. rewrite seq_S, map_app. simpl. induction (map f (seq 0 n)) as [|x l IH]; simpl; lia.
Qed.

Lemma sum_ext f g n : (forall i, i < n -> f i = g i) -> sum f n = sum g n.
Proof. induction n as [|n IH]; intros H; [reflexivity|]. rewrite !sum_S, IH; auto. Qed.

Lemma sum_change f g n k : k < n -> (forall i, i < n -> i <> k -> g i = f i) ->
  sum g n + f k = sum f n + g k.
Proof.
  induction n as [|n IH]; intros L H; [lia|]. rewrite !sum_S.
  destruct (Nat.eq_dec k n) as [->|N].
  - rewrite (@sum_ext g f n); [lia|]. intros i Li. apply H; lia.
  - rewrite (H n) by lia. assert (X := IH ltac:(lia) ltac:(auto)). lia.
Qed.

Lemma sum_le f g n k d : (forall i, i < n -> i <> k -> g i <= f i) -> g k <= f k + d ->
  sum g n <= sum f n + d.
Proof.
  intros H Hk. assert (X : sum g n <= sum f n + (if k <? n then d else 0)).
  { induction n as [|n IH]; [unfold sum; simpl; lia|]. rewrite !sum_S.
    assert (Y := IH ltac:(auto)).
    destruct (Nat.eq_dec n k) as [->|N].
    - rewrite Nat.ltb_irrefl in Y. replace (k <? S k) with true by (symmetry; apply Nat.ltb_lt; lia). lia.
    - specialize (H n ltac:(lia) N). destruct (k <? n) eqn:Q.
      + apply Nat.ltb_lt in Q. replace (k <? S n) with true by (symmetry; apply Nat.ltb_lt; lia). lia.
      + destruct (k <? S n); lia. }
  destruct (k <? n); lia.
Qed.

(** ** The potential of a forest *)
Section Amort.
Variable a : nat.

(** the potential of one position *)
Definition pot1 v i : nat :=
  if pa v i =? i then a * nrk v i else phi a (nrk v i) (nrk v (pa v i)).
(** the potential of the forest *)
Definition pot v : nat := sum (pot1 v) (length v).

(** ranks are small *)
Definition small v : Prop := forall i, nrk v i < A a 1.

Lemma nrk_up v i : forest v -> i < length v -> pa v i <> i -> nrk v i < nrk v (pa v i).
Proof. intros F L P. destruct (F i L) as [_ G]. specialize (G P). unfold nrk. lia. Qed.

Lemma nrk_root v i r : forest v -> root v i r -> nrk v i <= nrk v r.
Proof. intros F R. destruct (root_rank F R) as [->|H]; unfold nrk; lia. Qed.

(** a search rewrites no element of rank below its start *)
Lemma find_spec fuel v i r : forest v -> root v i r -> N.to_nat (rk v r - rk v i) < fuel ->
  exists v', ds_find fuel v i = (v', Ret r) /\ same v v' /\
    (forall j, (rk v j < rk v i)%N -> pa v' j = pa v j) /\
    (small v -> exists lv, NoDup lv /\
       (forall k, In k lv -> k < a /\ exists z, nrk v i <= nrk v z /\ 1 <= nrk v z /\
          A k (nrk v z) <= nrk v r) /\
       find_calls fuel v i + pot v' <= pot v + 1 + length lv + (if (rk v i =? 0)%N then 1 else 0)).
Proof.
  revert v i r. induction fuel as [|fuel IH]; intros v i r F R Lt; [lia|].
  destruct (root_lt R) as [Li Lr]. cbn [ds_find find_calls].
  destruct (vec_at_lt v Li) as (d & -> & D).
  assert (P : pa v i = parent d) by (unfold pa; now rewrite D).
  inversion R as [? ? T|? ? ? T R2]; subst.
  - rewrite <- P, T, Nat.eqb_refl. exists v. split; auto. split; [now apply same_refl|].
    split; [auto|]. intros _. exists []. split; [constructor|]. split; [intros k []|]. simpl. lia.
  - rewrite <- P. replace (pa v i =? i) with false by (symmetry; now apply Nat.eqb_neq).
    destruct (F i Li) as [Lp G]. specialize (G T).
    destruct (IH v (pa v i) r F R2) as (v1 & Hf & S1 & Low & Cost).
    { destruct (root_rank F R2) as [Eq|X]; [rewrite Eq in *|]; lia. }
    rewrite Hf. pose proof S1 as (L1 & R1 & F1 & T1).
    destruct (@vec_at_lt _ v1 i) as (d1 & -> & D1); [lia|].
    replace (rank d1) with (rk v1 i) by (unfold rk; now rewrite D1).
    assert (Nir : i <> r) by (intros ->; apply T; exact (root_top R)).
    assert (S2 : same v1 (vec_set v1 i (Data r (rk v1 i)))) by (apply redirect; auto; now apply T1).
    exists (vec_set v1 i (Data r (rk v1 i))). split; [reflexivity|].
    split; [eapply same_trans; [exact S1|exact S2]|].
    assert (Pi : pa v1 i = pa v i) by (apply Low; auto).
    split.
    { intros j Hj. rewrite pa_set by lia. destruct (j =? i) eqn:Q.
      - apply Nat.eqb_eq in Q; subst j. lia.
      - apply Low. lia. }
    intros Sm. destruct (Cost Sm) as (lv & Nd & Lv & C). clear Cost IH.
    set (v' := vec_set v1 i (Data r (rk v1 i))) in *.
    assert (Len : length v' = length v1) by apply vec_set_length.
    assert (Rk : forall j, nrk v' j = nrk v j).
    { intros j. unfold nrk. destruct S2 as (_ & X & _). now rewrite X, R1. }
    assert (Rk1 : forall j, nrk v1 j = nrk v j) by (intros j; unfold nrk; now rewrite R1).
    assert (Pot : pot v' + phi a (nrk v i) (nrk v (pa v i)) = pot v1 + phi a (nrk v i) (nrk v r)).
    { unfold pot. rewrite Len.
      assert (E1 : pot1 v1 i = phi a (nrk v i) (nrk v (pa v i))).
      { unfold pot1. rewrite Pi, !Rk1. now replace (pa v i =? i) with false by (symmetry; now apply Nat.eqb_neq). }
      assert (E2 : pot1 v' i = phi a (nrk v i) (nrk v r)).
      { unfold pot1. rewrite !Rk. unfold v'. rewrite pa_set by lia. rewrite Nat.eqb_refl. cbn [parent].
        now replace (r =? i) with false by (symmetry; apply Nat.eqb_neq; auto). }
      rewrite <- E1, <- E2. apply sum_change; [lia|].
      intros j Lj Nj. unfold pot1. rewrite !Rk, !Rk1. unfold v'. rewrite pa_set by lia.
      now replace (j =? i) with false by (symmetry; now apply Nat.eqb_neq). }
    assert (Up : nrk v i < nrk v (pa v i)) by (apply nrk_up; auto).
    assert (Rr : nrk v (pa v i) <= nrk v r) by (apply nrk_root; auto).
    replace (rk v (pa v i) =? 0)%N with false in C by (symmetry; apply N.eqb_neq; lia).
    assert (Keep : forall k, In k lv -> k < a /\ exists z, nrk v i <= nrk v z /\ 1 <= nrk v z /\
       A k (nrk v z) <= nrk v r).
    { intros k Ik. destruct (Lv k Ik) as (X & z & Y1 & Y2 & Y3). split; auto. exists z. repeat split; auto. lia. }
    destruct (rk v i =? 0)%N eqn:Z.
    + apply N.eqb_eq in Z. exists lv. split; auto. split; auto.
      assert (X : nrk v i = 0) by (unfold nrk; lia). rewrite X in Pot. simpl in Pot. lia.
    + apply N.eqb_neq in Z. assert (Z1 : 1 <= nrk v i) by (unfold nrk; lia).
      pose proof (Sm r) as Br.
      destruct (@level_spec a (nrk v i) (nrk v (pa v i)) Up) as (X1 & X2 & X3).
      { apply bound_up; auto. }
      set (k := level a (nrk v i) (nrk v (pa v i))) in *.
      destruct (in_dec Nat.eq_dec k lv) as [I|I].
      * exists lv. split; auto. split; auto.
        destruct (Lv k I) as (_ & z & Y1 & Y2 & Y3).
        assert (Dr : phi a (nrk v i) (nrk v r) + 1 <= phi a (nrk v i) (nrk v (pa v i))).
        { apply phi_drop; auto. fold k. transitivity (A k (nrk v z)); auto. now apply A_mono. }
        lia.
      * exists (k :: lv). split; [now constructor|]. split.
        -- intros k' [<-|I']; auto. split; auto. exists i. repeat split; auto. lia.
        -- assert (M := @phi_mono a _ _ _ Up Rr Br). simpl. lia.
Qed.

Lemma nodup_bound (l : list nat) n : NoDup l -> (forall k, In k l -> k < n) -> length l <= n.
Proof.
  intros N H. rewrite <- (seq_length n 0). apply NoDup_incl_length; auto.
  intros k I. apply in_seq. specialize (H k I). lia.
Qed.

(** one search *)
Lemma find_amortised fuel v i r : forest v -> small v -> root v i r -> N.to_nat (rk v r - rk v i) < fuel ->
  exists v', ds_find fuel v i = (v', Ret r) /\ same v v' /\
    find_calls fuel v i + pot v' <= pot v + a + 2.
Proof.
  intros F Sm R Lt. destruct (find_spec F R Lt) as (v' & Hf & S & _ & C).
  destruct (C Sm) as (lv & N & H & Q). exists v'. split; auto. split; auto.
  pose proof (@nodup_bound lv a N ltac:(intros k I; apply (H k I))).
  destruct (rk v i =? 0)%N; lia.
Qed.

(** linking two roots *)
Lemma link_pa E v x y v' : x < length v -> y < length v -> x <> y -> pa v x = x -> pa v y = y ->
  ds_link E v x y = (v', Ret tt) ->
  let lo := if (rk v x <? rk v y)%N then x else y in
  let hi := if (rk v x <? rk v y)%N then y else x in
  forall j, pa v' j = if j =? lo then hi else pa v j.
Proof.
  intros Lx Ly Ne Px Py H lo hi. unfold ds_link in H.
  destruct (vec_at_lt v Lx) as (dx & Qx & Dx). destruct (vec_at_lt v Ly) as (dy & Qy & Dy).
  rewrite Qx, Qy in H.
  replace (rank dx) with (rk v x) in H by (unfold rk; now rewrite Dx).
  replace (rank dy) with (rk v y) in H by (unfold rk; now rewrite Dy).
  fold lo hi in H.
  assert (Nhl : hi <> lo) by (unfold hi, lo; destruct (_ <? _)%N; auto).
  assert (Ph : pa v hi = hi) by (unfold hi; destruct (_ <? _)%N; auto).
  assert (Lh : hi < length v) by (unfold hi; destruct (_ <? _)%N; auto).
  assert (Ll : lo < length v) by (unfold lo; destruct (_ <? _)%N; auto).
  clearbody lo hi. destruct (vec_at_lt v Ll) as (dl & Ql & Dl). rewrite Ql in H.
  set (v1 := vec_set v lo (Data hi (rank dl))) in *.
  assert (L1 : length v1 = length v) by apply vec_set_length.
  assert (P1 : forall j, pa v1 j = if j =? lo then hi else pa v j).
  { intros j. unfold v1. now rewrite pa_set by auto. }
  destruct (@vec_at_lt _ v1 hi) as (dh & Qh & Dh); [lia|]. rewrite Qh in H.
  destruct (@vec_at_lt _ v1 lo) as (dl1 & Ql1 & Dl1); [lia|]. rewrite Ql1 in H.
  assert (Pd : parent dh = hi).
  { pose proof (P1 hi) as X. unfold pa at 1 in X. rewrite Dh in X. rewrite X.
    replace (hi =? lo) with false by (symmetry; now apply Nat.eqb_neq). exact Ph. }
  destruct (rank dh =? rank dl1)%N; [|inversion H; subst v'; exact P1].
  destruct (rank_incr E (rank dh)) as [q| | | |]; inversion H. subst v'. clear H.
  intros j. rewrite pa_set by lia. cbn [parent]. rewrite P1. destruct (j =? hi) eqn:Q; auto.
  apply Nat.eqb_eq in Q; subst j. rewrite Pd, Ph.
  now replace (hi =? lo) with false by (symmetry; now apply Nat.eqb_neq).
Qed.

Lemma link_pot v lo hi v' : forest v -> forest v' -> length v' = length v ->
  lo < length v -> hi < length v -> lo <> hi -> pa v lo = lo -> pa v hi = hi ->
  (forall j, pa v' j = if j =? lo then hi else pa v j) ->
  (forall j, j <> hi -> rk v' j = rk v j) -> (rk v hi <= rk v' hi <= rk v hi + 1)%N ->
  small v' -> pot v' <= pot v + a.
Proof.
  intros F F' Len Ll Lh Ne Pl Ph Pa Ro Rh Sm. unfold pot. rewrite Len.
  assert (Mono : forall j, nrk v j <= nrk v' j).
  { intros j. unfold nrk. destruct (Nat.eq_dec j hi) as [->|X]; [lia|]. rewrite Ro; auto. }
  apply (@sum_le (pot1 v) (pot1 v') (length v) hi a).
  - intros j Lj Nj. unfold pot1. rewrite Pa. destruct (j =? lo) eqn:Q.
    + apply Nat.eqb_eq in Q; subst j. rewrite Pl, Nat.eqb_refl.
      replace (hi =? lo) with false by (symmetry; apply Nat.eqb_neq; auto).
      unfold nrk at 1 2. rewrite Ro by auto. apply phi_le.
    + assert (Rj : nrk v' j = nrk v j) by (unfold nrk; now rewrite Ro).
      rewrite Rj. destruct (pa v j =? j) eqn:X; [lia|]. apply Nat.eqb_neq in X.
      apply phi_mono; [now apply nrk_up|apply Mono|apply Sm].
  - unfold pot1. rewrite Pa. replace (hi =? lo) with false by (symmetry; apply Nat.eqb_neq; auto).
    rewrite Ph, Nat.eqb_refl.
    assert (X : nrk v' hi <= nrk v hi + 1) by (unfold nrk; lia).
    transitivity (a * (nrk v hi + 1)); [now apply Nat.mul_le_mono_l|]. lia.
Qed.

Lemma push_pot v : pot (v ++ [data_new (length v)]) = pot v.
Proof.
  unfold pot. rewrite app_length, Nat.add_1_r, sum_S.
  assert (X : forall j, pot1 (v ++ [data_new (length v)]) j = pot1 v j).
  { intros j. unfold pot1, nrk. rewrite pa_push, !rk_push. reflexivity. }
  rewrite (@sum_ext (pot1 (v ++ [data_new (length v)])) (pot1 v)); auto.
  rewrite X. unfold pot1. rewrite pa_out, Nat.eqb_refl by lia. unfold nrk, rk.
  replace (nth_error v (length v)) with (@None data) by (symmetry; now apply nth_error_None).
  simpl. lia.
Qed.


(** ** Calls of the interface *)
Section Calls.
Variable K : Type.
Variable eqb : K -> K -> bool.
Hypothesis L : eq_laws eqb.
Variable E : machine.
Hypothesis U : (N.log2 (N.of_nat (alloc_max E)) < u32_max)%N.
Implicit Types (s : dset K).
Notation valid := (valid eqb E).
Notation spot s := (pot (ds_data s)).

Lemma valid_small s : valid s -> ds_len s <= A a 1 -> small (ds_data s).
Proof.
  intros (_ & Ld & _ & _ & F & H) B i. unfold ds_len in B.
  destruct (lt_dec i (length (ds_data s))) as [Li|Li].
  - pose proof (heavy_rank F H Li) as X.
    assert (Y : (rk (ds_data s) i < 2 ^ rk (ds_data s) i)%N) by (apply N.pow_gt_lin_r; lia).
    unfold nrk. lia.
  - unfold nrk, rk. replace (nth_error (ds_data s) i) with (@None data).
    + simpl. pose proof (A_gt a 1). lia.
    + symmetry. apply nth_error_None. lia.
Qed.

Lemma find_in_amortised s i r : valid s -> ds_len s <= A a 1 -> root (ds_data s) i r ->
  exists v, ds_find_in i s = (DSet (ds_ids s) v, Ret r) /\ same (ds_data s) v /\
    calls_in i s + pot v <= spot s + a + 2.
Proof.
  intros V B R. pose proof (valid_small V B) as Sm. destruct V as (W & Ld & Le & P & F & H).
  unfold ds_find_in, calls_in. pose proof (find_fuel F H R) as X. destruct (root_lt R) as [Li _].
  assert (Nat.log2 (length (ds_data s)) < length (ds_data s)) by (apply Nat.log2_lt_lin; lia).
  destruct (@find_amortised (S (length (ds_data s))) (ds_data s) i r F Sm R) as (v & -> & S & C); [lia|].
  exists v. auto.
Qed.

Lemma two_amortised s ia ib ra rb : valid s -> ds_len s <= A a 1 ->
  root (ds_data s) ia ra -> root (ds_data s) ib rb ->
  exists v1 v2, ds_find_in ia s = (DSet (ds_ids s) v1, Ret ra) /\
    ds_find_in ib (DSet (ds_ids s) v1) = (DSet (ds_ids s) v2, Ret rb) /\
    same (ds_data s) v2 /\ calls_two ia ib s + pot v2 <= spot s + (a + 2) * 2.
Proof.
  intros V B Ra Rb. destruct (find_in_amortised V B Ra) as (v1 & H1 & S1 & C1).
  pose proof (same_valid V S1) as V1.
  assert (Rb1 : root (ds_data (DSet (ds_ids s) v1)) ib rb) by (apply S1; exact Rb).
  destruct (find_in_amortised V1 B Rb1) as (v2 & H2 & S2 & C2).
  exists v1, v2. split; auto. split; auto. split; [eapply same_trans; eauto|].
  unfold calls_two. rewrite H1. simpl in *. lia.
Qed.

Lemma make_amortised x s s' o : valid s -> ds_make_or_get eqb E x s = (s', o) ->
  valid s' /\ spot s' = spot s /\ ds_len s <= ds_len s'.
Proof.
  intros V H. destruct (@make_cases K eqb E x s V) as [(k & i & _ & Q)|[(N & Lt & Q)|(_ & _ & Q)]];
    rewrite Q in H; inversion H; subst; auto.
  split; [now apply pushed_valid|]. split.
  - unfold pushed; simpl. destruct V as (_ & Ld & _). rewrite <- Ld. apply push_pot.
  - unfold ds_len, pushed; simpl. lia.
Qed.

Lemma makes_amortised xs s s' o : valid s -> for_each (ds_make_set eqb E) xs s = (s', o) ->
  spot s' = spot s.
Proof.
  revert s. induction xs as [|x xs IH]; intros s V H; simpl in H; [inversion H; auto|].
  unfold ds_make_set in H at 1. destruct (ds_make_or_get eqb E x s) as [s1 o1] eqn:Q.
  destruct (make_amortised _ V Q) as (V1 & P1 & _).
  destruct o1 as [n| | | |]; simpl in H; try (inversion H; subst; exact P1).
  rewrite (IH s1 V1 H). exact P1.
Qed.

Lemma make_root x s s' i : valid s -> ds_make_or_get eqb E x s = (s', Ret i) ->
  exists r, root (ds_data s') i r.
Proof.
  intros V H. assert (G : exists k, In (k, i) (ds_ids s')).
  { destruct (@make_cases K eqb E x s V) as [(k & j & Q0 & Q)|[(N & Lt & Q)|(_ & _ & Q)]];
      rewrite Q in H; inversion H; subst.
    - exists k. now apply entry_of_some in Q0.
    - exists x. simpl. auto. }
  destruct G as [k I]. destruct (make_amortised _ V H) as (V' & _). exact (root_of _ _ V' I).
Qed.

Lemma make_keeps_root x s s' o i r : valid s -> ds_make_or_get eqb E x s = (s', o) ->
  root (ds_data s) i r -> root (ds_data s') i r.
Proof.
  intros V H R. destruct (@make_cases K eqb E x s V) as [(k & j & Q0 & Q)|[(N & Lt & Q)|(_ & _ & Q)]];
    rewrite Q in H; inversion H; subst; auto.
  unfold pushed; simpl. destruct V as (_ & Ld & _ & _ & F & _). rewrite <- Ld. apply push_roots; auto.
Qed.

Lemma union_amortised x y s s' o : valid s -> ds_union eqb E x y s = (s', o) -> ds_len s' <= A a 1 ->
  op_calls eqb E (OUnion x y) s + spot s' <= spot s + (a + 2) * 2 + a.
Proof.
  intros V H B. unfold op_calls. unfold ds_union in H.
  destruct (ds_make_or_get eqb E x s) as [s1 o1] eqn:Q1.
  destruct (make_amortised _ V Q1) as (V1 & P1 & _).
  destruct o1 as [ia| | | |]; try (inversion H; subst; lia).
  destruct (ds_make_or_get eqb E y s1) as [s2 o2] eqn:Q2.
  destruct (make_amortised _ V1 Q2) as (V2 & P2 & _).
  destruct o2 as [ib| | | |]; try (inversion H; subst; lia).
  destruct (make_root _ V1 Q2) as [rb Rb].
  destruct (make_root _ V Q1) as [ra Ra0]. pose proof (make_keeps_root _ V1 Q2 Ra0) as Ra.
  assert (B2 : ds_len s2 <= A a 1).
  { assert (X : ds_ids s' = ds_ids s2); [|unfold ds_len in *; congruence].
    destruct (find_in_ok V2 Ra) as (v3 & H3 & E3). rewrite H3 in H.
    pose proof (same_valid V2 E3) as V3.
    assert (Rb3 : root (ds_data (DSet (ds_ids s2) v3)) ib rb) by (apply E3; exact Rb).
    destruct (find_in_ok V3 Rb3) as (v4 & H4 & E4). rewrite H4 in H.
    destruct (ra =? rb); [inversion H; reflexivity|]. simpl in H.
    destruct (ds_link E v4 ra rb) as [v5 o5]. inversion H; reflexivity. }
  destruct (two_amortised V2 B2 Ra Rb) as (v3 & v4 & H3 & H4 & S4 & C).
  rewrite H3, H4 in H.
  destruct (ra =? rb) eqn:Qr; [inversion H; subst; simpl in *; lia|].
  apply Nat.eqb_neq in Qr. cbn [ds_data ds_ids] in H.
  pose proof (same_valid V2 S4) as V4. pose proof V4 as (W4 & Ld4 & Le4 & P4 & F4 & H4v). cbn [ds_data ds_ids] in *.
  assert (Ra4 : root v4 ra ra) by (apply S4; exact (root_root Ra)).
  assert (Rb4 : root v4 rb rb) by (apply S4; exact (root_root Rb)).
  destruct (@link_ok E v4 ra rb F4 H4v Ra4 Rb4 Qr) as (v5 & H5 & (L5 & F5 & Hv5 & _ & Ro & Rh)).
  { eapply N.le_lt_trans; [|exact U]. apply N.log2_le_mono. lia. }
  rewrite H5 in H. inversion H; subst. cbn [ds_data] in *.
  destruct (root_lt Ra4) as [La _]. destruct (root_lt Rb4) as [Lb _].
  pose proof (@link_pa E v4 ra rb v5 La Lb Qr (root_top Ra4) (root_top Rb4) H5) as Pa. cbv zeta in Pa.
  assert (Sm : small v5).
  { apply (@valid_small (DSet (ds_ids s2) v5)); [|exact B2].
    split; [exact W4|]. split; [simpl; congruence|]. split; [exact Le4|]. split; [exact P4|]. split; [exact F5|exact Hv5]. }
  set (lo := if (rk v4 ra <? rk v4 rb)%N then ra else rb) in *.
  set (hi := if (rk v4 ra <? rk v4 rb)%N then rb else ra) in *.
  assert (X : pot v5 <= pot v4 + a).
  { apply (@link_pot v4 lo hi v5); auto; try (unfold lo, hi; destruct (_ <? _)%N; auto; apply root_top; auto; fail).
    - unfold lo; destruct (_ <? _)%N; [exact (root_top Ra4)|exact (root_top Rb4)].
    - unfold hi; destruct (_ <? _)%N; [exact (root_top Rb4)|exact (root_top Ra4)].
    - rewrite Rh. destruct (_ =? _)%N; lia. }
  lia.
Qed.

Lemma group_amortised l s v m s' o : valid s -> ds_len s <= A a 1 -> same (ds_data s) v ->
  (forall k i, In (k, i) l -> In (k, i) (ds_ids s)) ->
  ds_group E l (DSet (ds_ids s) v) m = (s', o) ->
  (exists w, s' = DSet (ds_ids s) w) /\
  ((exists m', o = Ret m') -> calls_group l (DSet (ds_ids s) v) + spot s' <= pot v + (a + 2) * length l).
Proof.
  intros V B. revert v m. induction l as [|[k i] l IH]; intros v m S I H; simpl in H.
  - inversion H; subst. split; [eauto|]. intros _. simpl. lia.
  - pose proof (same_valid V S) as Vv.
    destruct (root_of k i V) as [r R]; [apply I; simpl; auto|].
    assert (Rv : root (ds_data (DSet (ds_ids s) v)) i r) by (apply S; exact R).
    destruct (find_in_amortised Vv B Rv) as (v1 & H1 & S1 & C1). rewrite H1 in H.
    cbn [ds_ids ds_data] in *.
    destruct (ds_group_push E r k m) as [m1 [u| | | |]] eqn:Q; try (inversion H; subst; split; [eauto|intros [? X]; discriminate]).
    destruct (IH v1 m1) as [G1 G2]; auto.
    + eapply same_trans; eauto.
    + intros k' i' J. apply I. simpl; auto.
    + split; auto. intros X. specialize (G2 X). simpl. rewrite H1. simpl in *. lia.
Qed.

Lemma step_amortised o s s' (r : outcome (out K)) : valid s -> (exists g, shows eqb s g) -> op_ok o -> ds_step eqb E o s = (s', r) ->
  ds_len s <= A a 1 -> ds_len s' <= A a 1 ->
  op_calls eqb E o s + spot s' <= spot s + (a + 2) * op_finds o s + a * op_unions o.
Proof.
  intros V [g Sh] Ok H B B'. destruct o; cbn [ds_step op_finds op_unions] in *.
  - unfold unit_out in H. inversion H; subst. simpl op_calls.
    unfold ds_make_set. destruct (ds_make_or_get eqb E x s) as [s1 o1] eqn:Q. simpl.
    destruct (make_amortised _ V Q) as (_ & P & _). lia.
  - unfold unit_out in H. destruct (ds_union eqb E a0 b s) as [s1 o1] eqn:Q. simpl in H. inversion H; subst.
    pose proof (union_amortised _ _ V Q B'). lia.
  - unfold unit_out in H. inversion H; subst. simpl op_calls. unfold ds_extend, ds_reserve.
    destruct (let* _ := _ in _) as [u| | | |]; simpl; try lia.
    destruct (for_each (ds_make_set eqb E) xs s) as [s1 o1] eqn:Q. simpl. rewrite (makes_amortised _ V Q). lia.
  - unfold unit_out in H. inversion H; subst. simpl op_calls. unfold ds_extend_ref, ds_reserve. rewrite map_id.
    destruct (let* _ := _ in _) as [u| | | |]; simpl; try lia.
    destruct (for_each (ds_make_set eqb E) xs s) as [s1 o1] eqn:Q. simpl. rewrite (makes_amortised _ V Q). lia.
  - inversion H; subst. simpl. unfold pot at 1. simpl. unfold sum; simpl. lia.
  - unfold unit_out in H. inversion H; subst. simpl. lia.
  - inversion H; subst. simpl. lia.
  - cbn [op_calls]. unfold ds_in_union in H. unfold hm_get in *.
    destruct (hm_entry_of eqb a0 (ds_ids s)) as [[ka ia]|] eqn:Qa; simpl in *; [|inversion H; subst; lia].
    destruct (hm_entry_of eqb b (ds_ids s)) as [[kb ib]|] eqn:Qb; simpl in *; [|inversion H; subst; lia].
    pose proof (entry_of_some _ _ _ Qa) as [Ia _]. pose proof (entry_of_some _ _ _ Qb) as [Ib _].
    destruct (root_of _ _ V Ia) as [ra Ra]. destruct (root_of _ _ V Ib) as [rb Rb].
    destruct (two_amortised V B Ra Rb) as (v1 & v2 & H1 & H2 & S2 & C). rewrite H1, H2 in H. simpl in H.
    inversion H; subst. simpl. lia.
  - inversion H; subst. simpl. lia.
  - inversion H; subst. simpl. lia.
  - destruct Ok as [Po Pp]. cbn [op_calls].
    destruct (iter_ok order pick V Po) as (v & Hq & _ & _). unfold ds_into_iter, ds_build_sets in *.
    assert (Id : s = DSet (ds_ids s) (ds_data s)) by now destruct s.
    destruct (ds_group E (order (ds_ids s)) s []) as [s1 o1] eqn:Q.
    rewrite Id in Q at 2.
    destruct (@group_amortised (order (ds_ids s)) s (ds_data s) [] s1 o1) as [G1 G2]; auto.
    + apply same_refl, V.
    + intros k i I. eapply Permutation_in; [apply Permutation_sym, Po|exact I].
    + inversion H; subst. rewrite <- Id in G2.
      rewrite <- (Permutation_length (Po (ds_ids s))) in G2. unfold ds_len.
      assert (X : exists m', o1 = Ret m').
      { destruct o1 as [m'| | | |]; simpl in Hq; try (inversion Hq; fail). eauto. }
      specialize (G2 X). lia.
Qed.

Lemma run_amortised (ops : list (op K)) s : valid s -> (exists g, shows eqb s g) -> Forall (@op_ok K) ops ->
  (forall n, ds_len (fst (ds_run eqb E (firstn n ops) s)) <= A a 1) ->
  run_calls eqb E ops s + spot (fst (ds_run eqb E ops s)) <=
    spot s + (a + 2) * run_finds eqb E ops s + a * run_unions ops.
Proof.
  revert s. induction ops as [|o ops IH]; intros s V Sh Ok B.
  - simpl. lia.
  - inversion Ok as [|? ? O1 O2]; subst. unfold run_unions. cbn [run_calls run_finds map list_sum ds_run fold_right].
    pose proof (B 0) as B0. pose proof (B 1) as B1. simpl in B0, B1.
    destruct (ds_step eqb E o s) as [s1 r] eqn:Q. simpl in B1. simpl fst.
    destruct Sh as [g Sh]. destruct (step_ok L U _ V Sh O1 Q) as (g1 & V1 & S1 & _).
    assert (X := step_amortised _ V (ex_intro _ g Sh) O1 Q B0 B1).
    assert (Y := IH s1 V1 (ex_intro _ g1 S1) O2).
    destruct (ds_run eqb E ops s1) as [s2 tr] eqn:R. simpl in *.
    assert (Z : forall n, ds_len (fst (ds_run eqb E (firstn n ops) s1)) <= A a 1).
    { intros n. specialize (B (S n)). simpl in B. rewrite Q in B.
      destruct (ds_run eqb E (firstn n ops) s1). exact B. }
    specialize (Y Z). unfold run_unions in Y.
    set (t1 := op_unions o) in *. set (t2 := list_sum (map (op_unions (K:=K)) ops)) in *.
    change (fold_right Nat.add 0 (map (op_unions (K:=K)) ops)) with t2.
    rewrite Nat.mul_add_distr_l with (n := a). lia.
Qed.

End Calls.
End Amort.
