(** When a removal from hashbrown's table leaves a mark. *)
From Coq Require Import Permutation NArith.
From Verif Require Import Base HMModel HMProofs HTModel HTProofs GTModel GTProofs GTProofs2 GTProofs3.
Set Implicit Arguments.

Lemma run_holds {A} (f : A -> bool) l d j : j < run f l -> f (nth j l d) = true.
Proof.
  revert j. induction l as [|x l IH]; cbn; intros j J; [lia|]. destruct (f x) eqn:F; [|lia].
  destruct j as [|j]; auto. apply IH. lia.
Qed.

Lemma run_stops {A} (f : A -> bool) l d j : j < length l -> f (nth j l d) = false -> run f l <= j.
Proof.
  intros J F. destruct (Nat.le_gt_cases (run f l) j) as [|G]; auto. rewrite (run_holds f l d G) in F. discriminate.
Qed.

Section Erase.
Variables K V : Type.
Variable W : nat.
Hypothesis W2 : pow2 W.
Notation table := (table K V).
Implicit Types (t : table).
Notation full t := (fun b => negb (g_is_empty t b)).
Notation before t p := (run (full t) (rev (g_group W (length t) ((p + W * (length t - 1)) mod length t)))).
Notation after t p := (run (full t) (g_group W (length t) p)).

Lemma empty_slot t p : g_is_empty t (Some p) = false <-> nth p t Empty <> Empty.
Proof. unfold g_is_empty, g_at. destruct (nth p t Empty); split; congruence. Qed.

Lemma erase_small t p : pow2 (length t) -> length t < W -> p < length t -> before t p + after t p < W.
Proof.
  intros P2 Sm Hp. set (n := length t) in *. pose proof (W_pos W2) as WP.
  assert (Base : (p + W * (n - 1)) mod n = p).
  { destruct P2 as [a Ha], W2 as [b Hb].
    assert (AB : a <= b). { assert (X : 2 ^ a <= 2 ^ b) by lia. apply Nat.pow_le_mono_r_iff in X; lia. }
    assert (Hm : W = 2 ^ (b - a) * n). { rewrite Ha, Hb, <- Nat.pow_add_r. f_equal. lia. }
    rewrite Hm. replace (p + 2 ^ (b - a) * n * (n - 1)) with (p + 2 ^ (b - a) * (n - 1) * n) by lia.
    rewrite Nat.mod_add by lia. now apply Nat.mod_small. }
  assert (B : before t p <= p).
  { fold n. rewrite Base. apply run_stops with None; [rewrite rev_length, group_len; lia|].
    rewrite rev_nth by (rewrite group_len; lia). rewrite group_len, nth_group by lia.
    replace (p + (W - S p)) with (W - 1) by lia. unfold g_byte. destruct (Nat.ltb_spec n W); [|lia].
    destruct (Nat.ltb_spec (W - 1) n); [lia|]. destruct (Nat.ltb_spec (W - 1) W); [reflexivity|lia]. }
  assert (A : after t p <= n - p).
  { fold n. apply run_stops with None; [rewrite group_len; lia|]. rewrite nth_group by lia.
    replace (p + (n - p)) with n by lia. unfold g_byte. destruct (Nat.ltb_spec n W); [|lia].
    destruct (Nat.ltb_spec n n); [lia|]. reflexivity. }
  fold n in B, A |- *. lia.
Qed.

(** a mark is left exactly in a run of a group's length without EMPTY *)
Lemma erase_mark t p : pow2 (length t) -> p < length t -> nth p t Empty <> Empty ->
  (W <=? before t p + after t p) = true <->
  W <= length t /\ exists q, q < length t /\ (exists j, j < W /\ p = (q + j) mod length t) /\
    forall j, j < W -> nth ((q + j) mod length t) t Empty <> Empty.
Proof.
  intros P2 Hp Fu. pose proof (W_pos W2) as WP. split.
  - intros H. apply Nat.leb_le in H. destruct (Nat.lt_ge_cases (length t) W) as [Sm|La].
    { pose proof (@erase_small t p P2 Sm Hp). lia. }
    split; auto. set (n := length t) in *.
    assert (By : forall x, g_byte W n x = Some (x mod n)).
    { intros x. unfold g_byte. destruct (Nat.ltb_spec n W); [lia|auto]. }
    assert (A1 : 1 <= after t p).
    { apply run_prefix with None; [rewrite group_len; lia|]. intros j J. replace j with 0 by lia. fold n. rewrite nth_group by lia.
      rewrite By, Nat.add_0_r, Nat.mod_small by auto. apply negb_true_iff, empty_slot. exact Fu. }
    fold n in A1. set (a := run (full t) (g_group W n p)) in *. set (b := run (full t) (rev (g_group W n ((p + W * (n - 1)) mod n)))) in *.
    set (c := Nat.min b (W - 1)). exists ((p + (n - c)) mod n). split; [apply Nat.mod_upper_bound; lia|]. split.
    + exists c. split; [lia|]. rewrite Nat.add_mod_idemp_l by lia. replace (p + (n - c) + c) with (p + 1 * n) by lia.
      rewrite Nat.mod_add, Nat.mod_small; lia.
    + intros j J. apply empty_slot. rewrite Nat.add_mod_idemp_l by lia. destruct (Nat.le_gt_cases c j).
      * replace (p + (n - c) + j) with (p + (j - c) + 1 * n) by lia. rewrite Nat.mod_add by lia.
        assert (X : j - c < a) by lia. apply (run_holds _ _ None) in X. rewrite nth_group, By in X by lia.
        now apply negb_true_iff in X.
      * assert (X : c - 1 - j < b) by lia. apply (run_holds _ _ None) in X.
        rewrite rev_nth in X by (rewrite group_len; lia). rewrite group_len, nth_group, By in X by lia.
        rewrite Nat.add_mod_idemp_l in X by lia. apply negb_true_iff in X. rewrite <- X. f_equal. f_equal.
        replace (p + W * (n - 1) + (W - S (c - 1 - j))) with (p + (n - c) + j + (W - 1) * n) by nia.
        now rewrite Nat.mod_add by lia.
  - intros [La (q & Hq & (j & J & Ep) & F)]. destruct (W <=? _) eqn:X; auto. exfalso.
    destruct (@erase_safe K V W W2 t p q Hp Hq X) as (b & B1 & B2).
    { apply group_large; auto; [lia|]. eauto. }
    destruct b as [y|]; [|exact (@group_large_real W (length t) q La B1)].
    apply group_large in B1; auto; [|lia]. destruct B1 as (i & I & ->). specialize (F i I). apply empty_slot in F. congruence.
Qed.
End Erase.
