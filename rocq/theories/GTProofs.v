(** The probe sequence of hashbrown's table meets every slot. *)
From Coq Require Import Permutation NArith.
From Verif Require Import Base HMModel HTModel GTModel.
Set Implicit Arguments.

(** ** triangular numbers modulo a power of two *)
Fixpoint tri (i : nat) : nat := match i with 0 => 0 | S i' => tri i' + S i' end.

Lemma tri_twice i : 2 * tri i = i * S i.
Proof. induction i as [|i IH]; cbn [tri]; lia. Qed.

Lemma odd_factor c x y : Nat.odd x = true -> Nat.divide (2 ^ c) (x * y) -> Nat.divide (2 ^ c) y.
Proof.
  intros Od. revert y. induction c as [|c IH]; intros y [z H]; [exists y; simpl; lia|].
  assert (Ev : Nat.even y = true).
  { assert (X : Nat.even (x * y) = true) by (rewrite H, Nat.even_mul; cbn [Nat.pow]; rewrite Nat.even_mul; cbn; apply orb_true_r).
    rewrite Nat.even_mul in X. apply orb_true_iff in X. destruct X as [X|X]; auto.
    rewrite <- Nat.negb_odd, Od in X. discriminate. }
  apply Nat.even_spec in Ev. destruct Ev as [w ->]. destruct (IH w) as [u U].
  - exists z. cbn [Nat.pow] in H. nia.
  - exists u. cbn [Nat.pow]. nia.
Qed.

Lemma tri_apart c i j : i < j -> j < 2 ^ c -> tri i mod 2 ^ c <> tri j mod 2 ^ c.
Proof.
  intros I J H. assert (P0 : 2 ^ c <> 0) by (apply Nat.pow_nonzero; lia).
  assert (Le : tri i <= tri j) by (pose proof (tri_twice i); pose proof (tri_twice j); nia).
  assert (D : Nat.divide (2 ^ S c) ((j - i) * (j + i + 1))).
  { exists ((tri j / 2 ^ c) - (tri i / 2 ^ c)).
    pose proof (Nat.div_mod (tri i) _ P0) as A. pose proof (Nat.div_mod (tri j) _ P0) as B.
    pose proof (tri_twice i) as Ti. pose proof (tri_twice j) as Tj.
    assert (G : tri j - tri i = 2 ^ c * (tri j / 2 ^ c - tri i / 2 ^ c)).
    { rewrite Nat.mul_sub_distr_l. lia. }
    cbn [Nat.pow]. replace ((tri j / 2 ^ c - tri i / 2 ^ c) * (2 * 2 ^ c)) with (2 * (tri j - tri i)) by (rewrite G; lia).
    replace j with (i + (j - i)) in Tj at 2 3 by lia. nia. }
  destruct (Nat.odd (j - i)) eqn:Od.
  - apply odd_factor in D; auto. apply Nat.divide_pos_le in D; [cbn [Nat.pow] in D|]; lia.
  - rewrite Nat.mul_comm in D. apply odd_factor in D.
    + apply Nat.divide_pos_le in D; [cbn [Nat.pow] in D|]; lia.
    + replace (j + i + 1) with (S ((j - i) + 2 * i)) by lia. rewrite Nat.odd_succ, Nat.even_add_mul_2.
      rewrite <- Nat.negb_odd, Od. reflexivity.
Qed.

Lemma tri_all c u : u < 2 ^ c -> exists i, i < 2 ^ c /\ tri i mod 2 ^ c = u.
Proof.
  intros U. assert (P0 : 2 ^ c <> 0) by lia.
  assert (I : incl (seq 0 (2 ^ c)) (map (fun i => tri i mod 2 ^ c) (seq 0 (2 ^ c)))).
  { apply NoDup_length_incl.
    - assert (N : forall s n, s + n <= 2 ^ c -> NoDup (map (fun i => tri i mod 2 ^ c) (seq s n))).
      { intros s n. revert s. induction n as [|n IH]; intros s Le; cbn [seq map]; constructor; [|apply IH; lia].
        intros H. apply in_map_iff in H. destruct H as (j & H & J). apply in_seq in J.
        symmetry in H. revert H. apply tri_apart; lia. }
      apply N. lia.
    - now rewrite map_length, !seq_length.
    - intros x X. apply in_map_iff in X. destruct X as (i & <- & _). apply in_seq. cbn. split; [lia|]. now apply Nat.mod_upper_bound. }
  specialize (I u). rewrite in_map_iff in I. destruct I as (i & H & J); [apply in_seq; lia|]. apply in_seq in J. exists i. split; [lia|auto].
Qed.

(** ** the groups of a probe sequence *)
Definition pow2 (n : nat) : Prop := exists a, n = 2 ^ a.

Section Groups.
Variable W : nat.
Hypothesis W2 : pow2 W.

Fixpoint gpos (h : N) (n i : nat) : nat :=
  match i with 0 => g_start h n | S i' => (gpos h n i' + (W * i' + W)) mod n end.

Lemma gpos_in h n i : 0 < n -> gpos h n i < n.
Proof.
  intros Hn. destruct i as [|i]; cbn.
  - unfold g_start. pose proof (N.mod_upper_bound h (N.of_nat n) ltac:(lia)). lia.
  - apply Nat.mod_upper_bound. lia.
Qed.

Lemma gpos_tri h n i : 0 < n -> gpos h n i = (g_start h n + W * tri i) mod n.
Proof.
  intros Hn. induction i as [|i IH]; cbn [gpos tri].
  - rewrite Nat.mul_0_r, Nat.add_0_r. symmetry. apply Nat.mod_small. apply (gpos_in h 0 Hn).
  - rewrite IH, Nat.add_mod_idemp_l by lia. f_equal. lia.
Qed.

Lemma W_pos : 0 < W.
Proof. destruct W2 as [b ->]. pose proof (Nat.pow_nonzero 2 b). lia. Qed.

Lemma group_in n pos p : pos < n -> In (Some p) (g_group W n pos) -> p < n.
Proof.
  intros Pn H. apply in_map_iff in H. destruct H as (j & H & J). apply in_seq in J. revert H. unfold g_byte.
  destruct (Nat.ltb_spec n W).
  - destruct (Nat.ltb_spec (pos + j) n); [intros [= <-]; lia|].
    destruct (Nat.ltb_spec (pos + j) W); [discriminate|]. intros [= <-]. lia.
  - intros [= <-]. apply Nat.mod_upper_bound. lia.
Qed.

(** a group of a large table: [W] slots in a row *)
Lemma group_large n pos p : W <= n -> 0 < n -> In (Some p) (g_group W n pos) <-> exists j, j < W /\ p = (pos + j) mod n.
Proof.
  intros Le Hn. unfold g_group. rewrite in_map_iff. unfold g_byte.
  destruct (Nat.ltb_spec n W); [lia|]. split.
  - intros (j & H1 & J). apply in_seq in J. injection H1 as <-. exists j. split; [lia|auto].
  - intros (j & J & ->). exists j. split; auto. apply in_seq. lia.
Qed.

Lemma group_large_real n pos : W <= n -> ~ In None (g_group W n pos).
Proof.
  intros Le H. apply in_map_iff in H. destruct H as (j & H & _). revert H. unfold g_byte.
  destruct (Nat.ltb_spec n W); [lia|discriminate].
Qed.

(** a group of a small table: all slots, and spare bytes *)
Lemma group_small n pos p : n < W -> pos < n -> p < n -> In (Some p) (g_group W n pos).
Proof.
  intros Lt Pn Hp. apply in_map_iff. unfold g_byte. destruct (Nat.ltb_spec n W); [|lia].
  destruct (Nat.le_gt_cases pos p).
  - exists (p - pos). split; [|apply in_seq; lia]. destruct (Nat.ltb_spec (pos + (p - pos)) n); [f_equal|]; lia.
  - exists (p + W - pos). split; [|apply in_seq; lia]. destruct (Nat.ltb_spec (pos + (p + W - pos)) n); [lia|].
    destruct (Nat.ltb_spec (pos + (p + W - pos)) W); [lia|]. f_equal. lia.
Qed.

Lemma group_small_spare n pos : n < W -> pos < n -> In None (g_group W n pos).
Proof.
  intros Lt Pn. apply in_map_iff. unfold g_byte. destruct (Nat.ltb_spec n W); [|lia].
  exists (n - pos). split; [|apply in_seq; lia]. destruct (Nat.ltb_spec (pos + (n - pos)) n); [lia|].
  destruct (Nat.ltb_spec (pos + (n - pos)) W); [auto|lia].
Qed.

(** every slot is in one of the groups *)
Lemma cover h n p : pow2 n -> p < n -> exists i, i < n /\ In (Some p) (g_group W n (gpos h n i)).
Proof.
  intros [a Ha] Hp. assert (Hn : 0 < n) by lia. destruct (Nat.lt_ge_cases n W) as [Lt|Ge].
  { exists 0. split; auto. apply group_small; auto. now apply gpos_in. }
  destruct W2 as [b Hb]. pose proof W_pos as WP.
  assert (AB : b <= a). { rewrite Ha, Hb in Ge. apply Nat.pow_le_mono_r_iff in Ge; lia. }
  assert (Hm : n = W * 2 ^ (a - b)). { rewrite Ha, Hb, <- Nat.pow_add_r. f_equal. lia. }
  set (m := 2 ^ (a - b)) in *. assert (M0 : 0 < m) by (destruct m; lia).
  set (s := g_start h n). assert (Hs : s < n) by apply (gpos_in h 0 Hn).
  set (d := (p + (n - s)) mod n). assert (Hd : d < n) by (apply Nat.mod_upper_bound; lia).
  assert (Sd : (s + d) mod n = p).
  { unfold d. rewrite Nat.add_mod_idemp_r by lia. replace (s + (p + (n - s))) with (p + 1 * n) by lia.
    rewrite Nat.mod_add by lia. now apply Nat.mod_small. }
  assert (U : d / W < m) by (apply Nat.div_lt_upper_bound; lia).
  destruct (@tri_all (a - b) (d / W) U) as (i & I & T). exists i. split; [fold m in I; nia|].
  apply group_large; auto. exists (d mod W). split; [apply Nat.mod_upper_bound; lia|].
  rewrite gpos_tri by auto. fold s. rewrite Nat.add_mod_idemp_l by lia. rewrite <- Sd.
  fold m in T. pose proof (Nat.div_mod (tri i) m ltac:(lia)) as Dt. pose proof (Nat.div_mod d W ltac:(lia)) as Dd.
  rewrite T in Dt. rewrite Dt.
  replace (s + W * (m * (tri i / m) + d / W) + d mod W) with (s + d + tri i / m * n) by (rewrite Hm; nia).
  now rewrite Nat.mod_add by lia.
Qed.
End Groups.
