(** A history after which one search needs the logarithmic number of calls. *)
From Coq Require Import Permutation NArith.
From Verif Require Import Base HMModel HMProofs DSModel DSSpec DSRun DSProofs DSCost.
Local Open Scope outcome_scope.
Set Implicit Arguments.

Implicit Types (v : list data) (i j x y n b k : nat) (s : dset nat).

(** unite the elements [b .. b + 2^k - 1] in a balanced way *)
Fixpoint build (k b : nat) : list (op nat) :=
  match k with
  | 0 => []
  | S k' => build k' b ++ build k' (b + 2 ^ k') ++ [OUnion b (b + 2 ^ k')]
  end.

(** [climb v lo hi i j d]: from [i] it takes [d] steps, within [lo .. hi - 1],
    to the root [j] *)
Inductive climb v (lo hi : nat) : nat -> nat -> nat -> Prop :=
| climb_top i : lo <= i < hi -> pa v i = i -> climb v lo hi i i 0
| climb_up i j d : lo <= i < hi -> pa v i <> i -> climb v lo hi (pa v i) j d -> climb v lo hi i j (S d).

Lemma climb_root v lo hi i j d : climb v lo hi i j d -> pa v j = j.
Proof. induction 1; auto. Qed.

Lemma climb_extend v w lo hi lo' hi' i j d r : climb v lo hi i j d -> lo' <= lo -> hi <= hi' ->
  (forall q, lo <= q < hi -> q <> j -> pa w q = pa v q) -> pa w j = r -> r <> j -> lo' <= r < hi' ->
  pa w r = r -> climb w lo' hi' i r (S d).
Proof.
  intros C A B F Pj N R Pr. induction C as [i Ri P|i j d Ri P C IH].
  - apply climb_up; [lia|congruence|]. rewrite Pj. apply climb_top; auto.
  - assert (Ni : i <> j).
    { intros ->. apply P. apply (climb_root C). }
    apply climb_up; [lia| |]; rewrite (F i Ri Ni); auto.
Qed.

Lemma climb_calls v lo hi i j d fuel : climb v lo hi i j d -> hi <= length v -> d < fuel ->
  find_calls fuel v i = S d.
Proof.
  intros C. revert fuel. induction C as [i R P|i j d R P C IH]; intros fuel H Lt.
  - destruct fuel as [|fuel]; [lia|]. cbn [find_calls].
    destruct (@vec_at_lt _ v i) as (e & -> & D); [lia|].
    unfold pa in P. rewrite D in P. rewrite P, Nat.eqb_refl. reflexivity.
  - destruct fuel as [|fuel]; [lia|]. cbn [find_calls].
    destruct (@vec_at_lt _ v i) as (e & -> & D); [lia|].
    assert (Q : pa v i = parent e) by (unfold pa; now rewrite D).
    rewrite <- Q. apply Nat.eqb_neq in P. rewrite P. rewrite IH; auto. lia.
Qed.

Section Lower.
Variable E : machine.

Lemma run_app (l1 l2 : list (op nat)) s : ds_run Nat.eqb E (l1 ++ l2) s =
  let '(s1, t1) := ds_run Nat.eqb E l1 s in
  let '(s2, t2) := ds_run Nat.eqb E l2 s1 in (s2, t1 ++ t2).
Proof.
  revert s. induction l1 as [|o l1 IH]; intros s; simpl.
  - destruct (ds_run Nat.eqb E l2 s); reflexivity.
  - destruct (ds_step Nat.eqb E o s) as [s1 r]. rewrite IH.
    destruct (ds_run Nat.eqb E l1 s1) as [s2 t1]. destruct (ds_run Nat.eqb E l2 s2). reflexivity.
Qed.

Lemma find_root fuel v x : x < length v -> pa v x = x -> ds_find (S fuel) v x = (v, Ret x).
Proof.
  intros L P. cbn [ds_find]. destruct (vec_at_lt v L) as (d & -> & D).
  unfold pa in P. rewrite D in P. rewrite P, Nat.eqb_refl. reflexivity.
Qed.

(** uniting two roots of equal rank *)
Lemma union_roots ids v x y k : hm_get Nat.eqb x ids = Some x -> hm_get Nat.eqb y ids = Some y ->
  x < length v -> y < length v -> x <> y -> pa v x = x -> pa v y = y ->
  rk v x = N.of_nat k -> rk v y = N.of_nat k -> (N.of_nat k + 1 <= u32_max)%N ->
  exists w, ds_step Nat.eqb E (OUnion x y) (DSet ids v) = (DSet ids w, Ret RUnit) /\ length w = length v /\
    (forall q, pa w q = if q =? y then x else pa v q) /\
    (forall q, rk w q = if q =? x then N.of_nat (S k) else rk v q).
Proof.
  intros Gx Gy Lx Ly Ne Px Py Rx Ry B.
  set (w := vec_set (vec_set v y (Data x (N.of_nat k))) x (Data x (N.of_nat (S k)))).
  assert (L1 : length (vec_set v y (Data x (N.of_nat k))) = length v) by apply vec_set_length.
  exists w. split; [|split; [|split]].
  - unfold ds_step, unit_out, ds_union, ds_make_or_get, hm_entry. cbn [ds_ids ds_data].
    rewrite Gx. cbn [ds_ids ds_data]. rewrite Gy. unfold ds_find_in. cbn [ds_ids ds_data].
    rewrite find_root by auto. cbn [ds_ids ds_data]. rewrite find_root by auto.
    apply Nat.eqb_neq in Ne. rewrite Ne. cbn [ds_ids ds_data]. unfold ds_link.
    destruct (vec_at_lt v Lx) as (dx & -> & Dx). destruct (vec_at_lt v Ly) as (dy & Qy & Dy). rewrite Qy.
    assert (Hx : rank dx = N.of_nat k) by (unfold rk in Rx; now rewrite Dx in Rx).
    assert (Hy : rank dy = N.of_nat k) by (unfold rk in Ry; now rewrite Dy in Ry).
    rewrite Hx, Hy, N.ltb_irrefl, Qy, Hy.
    apply Nat.eqb_neq in Ne.
    assert (Q1 : vec_at (vec_set v y (Data x (N.of_nat k))) x = Ret dx).
    { unfold vec_at. rewrite vec_set_other by auto. now rewrite Dx. }
    assert (Q2 : vec_at (vec_set v y (Data x (N.of_nat k))) y = Ret (Data x (N.of_nat k))).
    { unfold vec_at. now rewrite vec_set_same. }
    rewrite Q1, Q2. cbn [rank]. rewrite Hx, N.eqb_refl. unfold rank_incr.
    apply N.leb_le in B. rewrite B.
    assert (Pd : parent dx = x) by (unfold pa in Px; now rewrite Dx in Px). rewrite Pd.
    unfold w. rewrite Nat2N.inj_succ, <- N.add_1_r. reflexivity.
  - unfold w. now rewrite !vec_set_length.
  - intros q. unfold w. rewrite pa_set by lia. cbn [parent]. rewrite pa_set by auto. cbn [parent].
    destruct (q =? x) eqn:Q; auto. apply Nat.eqb_eq in Q; subst q.
    apply Nat.eqb_neq in Ne. rewrite Ne. auto.
  - intros q. unfold w. rewrite rk_set by lia. cbn [rank]. rewrite rk_set by auto. cbn [rank].
    destruct (q =? x) eqn:Q; auto. destruct (q =? y) eqn:Q2; auto.
    apply Nat.eqb_eq in Q2; subst q. congruence.
Qed.

Lemma build_ok k : (N.of_nat k <= u32_max)%N -> forall b ids v,
  (forall x, x < length v -> hm_get Nat.eqb x ids = Some x) -> b + 2 ^ k <= length v ->
  (forall q, b <= q < b + 2 ^ k -> pa v q = q /\ rk v q = 0%N) ->
  exists w tr, ds_run Nat.eqb E (build k b) (DSet ids v) = (DSet ids w, tr) /\
    Forall (fun r => r = Ret RUnit) tr /\ length w = length v /\
    (forall q, ~ b <= q < b + 2 ^ k -> pa w q = pa v q /\ rk w q = rk v q) /\
    pa w b = b /\ rk w b = N.of_nat k /\ climb w b (b + 2 ^ k) (b + 2 ^ k - 1) b k.
Proof.
  induction k as [|k IH]; intros B b ids v G Le Fr.
  - exists v, []. split; [reflexivity|]. split; [constructor|]. split; auto. split; auto.
    destruct (Fr b) as [P R]; [simpl; lia|]. split; auto. split; auto.
    simpl. replace (b + 1 - 1) with b by lia. apply climb_top; auto. lia.
  - assert (B' : (N.of_nat k <= u32_max)%N) by lia.
    pose proof (Nat.pow_nonzero 2 k ltac:(lia)) as Nz.
    assert (Sp : 2 ^ S k = 2 ^ k + 2 ^ k) by (simpl; lia). rewrite Sp in *.
    destruct (IH B' b ids v G) as (w1 & t1 & H1 & A1 & L1 & O1 & P1 & R1 & C1); [lia|intros q Q; apply Fr; lia|].
    destruct (IH B' (b + 2 ^ k) ids w1) as (w2 & t2 & H2 & A2 & L2 & O2 & P2 & R2 & C2).
    { intros x Lx. apply G. lia. }
    { lia. }
    { intros q Q. destruct (O1 q) as [X Y]; [lia|]. rewrite X, Y. apply Fr. lia. }
    destruct (O2 b) as [Pb Rb]; [lia|]. rewrite P1 in Pb. rewrite R1 in Rb.
    destruct (@union_roots ids w2 b (b + 2 ^ k) k) as (w & Hs & Lw & Pw & Rw); auto;
      try (apply G; lia); try lia.
    cbn [build]. exists w, (t1 ++ t2 ++ [Ret RUnit]).
    rewrite run_app, H1, run_app, H2. cbn [ds_run]. rewrite Hs. split; [reflexivity|].
    split; [apply Forall_app; split; auto; apply Forall_app; split; auto|].
    split; [lia|].
    assert (Nb : (b =? b + 2 ^ k) = false) by (apply Nat.eqb_neq; lia).
    split.
    + intros q Q. rewrite Pw, Rw.
      replace (q =? b + 2 ^ k) with false by (symmetry; apply Nat.eqb_neq; lia).
      replace (q =? b) with false by (symmetry; apply Nat.eqb_neq; lia).
      destruct (O2 q) as [X Y]; [lia|]. rewrite X, Y. apply O1. lia.
    + split; [now rewrite Pw, Nb|]. split; [rewrite Rw, Nat.eqb_refl; reflexivity|].
      replace (b + (2 ^ k + 2 ^ k) - 1) with (b + 2 ^ k + 2 ^ k - 1) by lia.
      eapply climb_extend; [exact C2|lia|lia| | |lia|lia|].
      * intros q Q Nq. rewrite Pw. now replace (q =? b + 2 ^ k) with false by (symmetry; now apply Nat.eqb_neq).
      * rewrite Pw, Nat.eqb_refl. reflexivity.
      * now rewrite Pw, Nb.
Qed.

(** adding fresh elements *)
Definition fresh_ids n : hmap nat nat := rev (map (fun i => (i, i)) (seq 0 n)).
(** [n] singletons *)
Definition fresh n : dset nat := DSet (fresh_ids n) (map data_new (seq 0 n)).

Lemma fresh_S n : fresh (S n) = DSet ((n, n) :: fresh_ids n) (map data_new (seq 0 n) ++ [data_new n]).
Proof. unfold fresh, fresh_ids. rewrite seq_S, !map_app, rev_app_distr. reflexivity. Qed.

Lemma fresh_get n x : hm_get Nat.eqb x (fresh_ids n) = if x <? n then Some x else None.
Proof.
  induction n as [|n IH]; [reflexivity|].
  assert (X : fresh_ids (S n) = (n, n) :: fresh_ids n).
  { unfold fresh_ids. rewrite seq_S, map_app, rev_app_distr. reflexivity. }
  rewrite X. unfold hm_get in *. simpl. destruct (Nat.eqb_spec x n) as [->|Q]; simpl.
  - replace (n <? S n) with true by (symmetry; apply Nat.ltb_lt; lia). reflexivity.
  - rewrite IH. destruct (Nat.ltb_spec x n), (Nat.ltb_spec x (S n)); auto; lia.
Qed.

Lemma fresh_len n : length (fresh_ids n) = n.
Proof. unfold fresh_ids. now rewrite rev_length, map_length, seq_length. Qed.

Lemma makes_fresh m n : n + m <= alloc_max E ->
  for_each (ds_make_set Nat.eqb E) (seq n m) (fresh n) = (fresh (n + m), Ret tt).
Proof.
  revert n. induction m as [|m IH]; intros n H; simpl.
  - now rewrite Nat.add_0_r.
  - assert (X : ds_make_set Nat.eqb E n (fresh n) = (fresh (S n), Ret tt)).
    { unfold ds_make_set, ds_make_or_get, hm_entry. cbn [fresh ds_ids ds_data]. rewrite fresh_get, Nat.ltb_irrefl.
      unfold hm_reserve, vec_push. rewrite fresh_len, map_length, seq_length.
      replace (n + 1 <=? alloc_max E) with true by (symmetry; apply Nat.leb_le; lia). simpl.
      rewrite fresh_S. reflexivity. }
    rewrite X, IH by lia. f_equal. f_equal. lia.
Qed.

Theorem deep k : 2 ^ k <= alloc_max E -> (N.of_nat k <= u32_max)%N ->
  let ops := OExtend 0 (seq 0 (2 ^ k)) :: build k 0 in
  let s := fst (ds_run Nat.eqb E ops (ds_new nat)) in
  Forall (fun r => r = Ret RUnit) (snd (ds_run Nat.eqb E ops (ds_new nat))) /\
  ds_len s = 2 ^ k /\ calls_in (2 ^ k - 1) s = S k /\
  S k <= op_calls Nat.eqb E (OInUnion (2 ^ k - 1) 0) s.
Proof.
  intros Le B ops s.
  pose proof (Nat.pow_nonzero 2 k ltac:(lia)) as Nz.
  assert (H0 : ds_step Nat.eqb E (OExtend 0 (seq 0 (2 ^ k))) (ds_new nat) = (fresh (2 ^ k), Ret RUnit)).
  { unfold ds_step, unit_out, ds_extend, ds_reserve, vec_reserve, hm_reserve. simpl length.
    replace (0 + 0 <=? alloc_max E) with true by (symmetry; apply Nat.leb_le; lia). simpl.
    change (ds_new nat) with (fresh 0). rewrite makes_fresh by lia. reflexivity. }
  destruct (@build_ok k B 0 (fresh_ids (2 ^ k)) (map data_new (seq 0 (2 ^ k)))) as (w & tr & H & A & Lw & _ & Pw & Rw & C).
  { intros x. rewrite map_length, seq_length, fresh_get. intros X. apply Nat.ltb_lt in X. now rewrite X. }
  { now rewrite map_length, seq_length. }
  { intros q [_ Q]. unfold pa, rk. rewrite nth_error_map.
    assert (X : nth_error (seq 0 (2 ^ k)) q = Some q).
    { rewrite (nth_error_nth' _ 0) by (rewrite seq_length; lia). now rewrite seq_nth by lia. }
    rewrite X. simpl. auto. }
  rewrite map_length, seq_length in Lw. simpl in C.
  assert (R : ds_run Nat.eqb E ops (ds_new nat) = (DSet (fresh_ids (2 ^ k)) w, Ret RUnit :: tr)).
  { unfold ops. cbn [ds_run]. rewrite H0. unfold fresh. rewrite H. reflexivity. }
  unfold s. rewrite R. cbn [fst snd].
  assert (Kl : k < 2 ^ k) by (apply Nat.pow_gt_lin_r; lia).
  split; [constructor; auto|]. split; [unfold ds_len; cbn [ds_ids]; apply fresh_len|].
  assert (Q : calls_in (2 ^ k - 1) (DSet (fresh_ids (2 ^ k)) w) = S k).
  { unfold calls_in. cbn [ds_data]. eapply climb_calls; [exact C|lia|lia]. }
  split; [exact Q|].
  cbn [op_calls ds_ids]. rewrite !fresh_get.
  replace (2 ^ k - 1 <? 2 ^ k) with true by (symmetry; apply Nat.ltb_lt; lia).
  replace (0 <? 2 ^ k) with true by (symmetry; apply Nat.ltb_lt; lia).
  unfold calls_two. rewrite Q. destruct (ds_find_in _ _) as [? [ | | | | ]]; lia.
Qed.

Lemma build_ops k b : Forall (fun o => exists x y, o = OUnion x y) (build k b).
Proof.
  revert b. induction k as [|k IH]; intros b; simpl; [constructor|].
  apply Forall_app; split; auto. apply Forall_app; split; auto. constructor; eauto.
Qed.

Lemma build_op_ok h xs k b : Forall (@op_ok nat) (OExtend h xs :: build k b).
Proof.
  constructor; [exact I|]. eapply Forall_impl; [|apply build_ops]. intros o (x & y & ->). exact I.
Qed.

Lemma run_length (ops : list (op nat)) s s' tr : ds_run Nat.eqb E ops s = (s', tr) -> length tr = length ops.
Proof.
  revert s s' tr. induction ops as [|o ops IH]; intros s s' tr H; simpl in H; [inversion H; reflexivity|].
  destruct (ds_step Nat.eqb E o s) as [s1 r]. destruct (ds_run Nat.eqb E ops s1) as [s2 t2] eqn:Q.
  inversion H; subst. simpl. f_equal. eapply IH; eauto.
Qed.
End Lower.
