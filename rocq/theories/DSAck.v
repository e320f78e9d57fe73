(** The Ackermann-like functions of the amortised analysis of disjoint sets and
    the potential of one element (Cormen, Leiserson, Rivest, Stein, chapter
    "Data structures for disjoint sets").  Pure arithmetic. *)
From Coq Require Import Arith Lia List NArith.
Import ListNotations.
Set Implicit Arguments.

(** [A k j]: A_0(j) = j + 1, A_{k+1}(j) = A_k applied j + 1 times to j. *)
Fixpoint A (k j : nat) : nat :=
  match k with
  | 0 => S j
  | S k' => Nat.iter (S j) (A k') j
  end.

Lemma iter_mono (f : nat -> nat) n x y : (forall x y, x <= y -> f x <= f y) -> x <= y ->
  Nat.iter n f x <= Nat.iter n f y.
Proof. intros M H. induction n; simpl; auto. Qed.

Lemma iter_gt (f : nat -> nat) n x : (forall x, x < f x) -> x + n <= Nat.iter n f x.
Proof. intros M. induction n; simpl; [lia|]. specialize (M (Nat.iter n f x)). lia. Qed.

Lemma iter_le (f : nat -> nat) n m x : (forall x, x < f x) -> n <= m -> Nat.iter n f x <= Nat.iter m f x.
Proof.
  intros M H. induction H as [|m H IH]; auto. simpl. specialize (M (Nat.iter m f x)). lia.
Qed.

Lemma A_gt k j : j < A k j.
Proof.
  revert j. induction k as [|k IH]; intros j; [simpl; lia|].
  change (A (S k) j) with (Nat.iter (S j) (A k) j).
  pose proof (@iter_gt (A k) (S j) j IH). lia.
Qed.

Lemma A_mono k : forall x y, x <= y -> A k x <= A k y.
Proof.
  induction k as [|k IH]; intros x y H; [simpl; lia|].
  change (Nat.iter (S x) (A k) x <= Nat.iter (S y) (A k) y).
  transitivity (Nat.iter (S x) (A k) y); [now apply iter_mono|].
  apply iter_le; [apply A_gt|lia].
Qed.

Lemma A_step k j : A k j <= A (S k) j.
Proof.
  change (A k j <= Nat.iter (S j) (A k) j).
  apply (@iter_le (A k) 1 (S j) j); [apply A_gt|lia].
Qed.

Lemma A_mono_k k l j : k <= l -> A k j <= A l j.
Proof. induction 1 as [|l H IH]; auto. pose proof (A_step l j). lia. Qed.

(** [level a r R]: the largest k < a with A_k(r) <= R *)
Fixpoint level (a r R : nat) : nat :=
  match a with
  | 0 => 0
  | S k => if A k r <=? R then k else level k r R
  end.

(** [itr f r R n]: the largest i <= n with f^i(r) <= R *)
Fixpoint itr (f : nat -> nat) (r R n : nat) : nat :=
  match n with
  | 0 => 0
  | S m => if Nat.iter n f r <=? R then n else itr f r R m
  end.

Lemma level_spec a r R : r < R -> R < A a r ->
  level a r R < a /\ A (level a r R) r <= R /\ R < A (S (level a r R)) r.
Proof.
  intros H. induction a as [|k IH]; intros B; [simpl in B; lia|].
  cbn [level]. destruct (A k r <=? R) eqn:Q.
  - apply Nat.leb_le in Q. auto.
  - apply Nat.leb_gt in Q. destruct (IH Q) as (X & Y & Z). auto.
Qed.

Lemma level_ge a r R k : k < a -> A k r <= R -> k <= level a r R.
Proof.
  induction a as [|m IH]; intros L H; [lia|]. cbn [level].
  destruct (A m r <=? R) eqn:Q; [lia|]. apply Nat.leb_gt in Q.
  apply IH; auto. destruct (Nat.eq_dec k m); [subst; lia|lia].
Qed.

Lemma itr_le f r R n : itr f r R n <= n.
Proof. induction n as [|n IH]; simpl; auto. destruct (_ <=? _); lia. Qed.

Lemma itr_ok f r R n : r <= R -> Nat.iter (itr f r R n) f r <= R.
Proof.
  intros H. induction n as [|n IH]; [exact H|]. cbn [itr].
  destruct (Nat.iter (S n) f r <=? R) eqn:Q; auto. now apply Nat.leb_le in Q.
Qed.

Lemma itr_ge f r R n i : i <= n -> Nat.iter i f r <= R -> i <= itr f r R n.
Proof.
  induction n as [|n IH]; intros L H; [lia|]. cbn [itr].
  destruct (Nat.iter (S n) f r <=? R) eqn:Q; [lia|]. apply Nat.leb_gt in Q.
  apply IH; auto. destruct (Nat.eq_dec i (S n)); [subst; lia|lia].
Qed.

Section Potential.
Variable a : nat.

(** potential of an element of rank [r] whose parent has rank [R] *)
Definition phi (r R : nat) : nat :=
  match r with
  | 0 => 0
  | _ => (a - level a r R) * r - itr (A (level a r R)) r R r
  end.

Lemma bound_up r R : 1 <= r -> R < A a 1 -> R < A a r.
Proof. intros H B. pose proof (@A_mono a 1 r H). lia. Qed.

Lemma itr_pos r R l : 1 <= r -> A l r <= R -> 1 <= itr (A l) r R r.
Proof. intros H B. apply itr_ge; auto. Qed.

Lemma phi_le r R : phi r R <= a * r.
Proof.
  destruct r as [|r]; [simpl; lia|]. unfold phi.
  assert (X : (a - level a (S r) R) * S r <= a * S r) by (apply Nat.mul_le_mono_r; lia). lia.
Qed.

Lemma phi_mono r R R' : r < R -> R <= R' -> R' < A a 1 -> phi r R' <= phi r R.
Proof.
  intros H M B. destruct r as [|r]; [reflexivity|]. set (q := S r) in *.
  assert (P : 1 <= q) by (unfold q; lia).
  destruct (@level_spec a q R H) as (X & Y & Z). { apply bound_up; auto; lia. }
  destruct (@level_spec a q R') as (X' & Y' & Z'); [lia|apply bound_up; auto|].
  change (phi q R') with ((a - level a q R') * q - itr (A (level a q R')) q R' q).
  change (phi q R) with ((a - level a q R) * q - itr (A (level a q R)) q R q).
  set (l := level a q R) in *. set (l' := level a q R') in *.
  assert (Le : l <= l'). { apply level_ge; auto. lia. }
  pose proof (itr_le (A l) q R q) as I. pose proof (itr_le (A l') q R' q) as I'.
  destruct (Nat.eq_dec l l') as [<-|N].
  - assert (J : itr (A l) q R q <= itr (A l) q R' q).
    { apply itr_ge; [apply itr_le|]. pose proof (@itr_ok (A l) q R q). lia. }
    lia.
  - assert (J : 1 <= itr (A l') q R' q) by (apply itr_pos; auto).
    assert (S1 : (a - l') * q + q <= (a - l) * q).
    { replace ((a - l') * q + q) with ((a - l' + 1) * q) by lia. apply Nat.mul_le_mono_r. lia. }
    lia.
Qed.

(** pointing at a root so high that another step of the same level fits
    releases potential *)
Lemma phi_drop r R R' : 1 <= r -> r < R -> R <= R' -> R' < A a 1 ->
  A (level a r R) R <= R' -> phi r R' + 1 <= phi r R.
Proof.
  intros P H M B D. assert (E : exists q, r = S q) by (exists (r - 1); lia).
  destruct E as [q0 E].
  assert (F : forall x, phi r x = (a - level a r x) * r - itr (A (level a r x)) r x r) by (rewrite E; reflexivity).
  rewrite !F. clear F E q0.
  destruct (@level_spec a r R H) as (X & Y & Z). { apply bound_up; auto; lia. }
  destruct (@level_spec a r R') as (X' & Y' & Z'); [lia|apply bound_up; auto|].
  set (l := level a r R) in *. set (l' := level a r R') in *.
  assert (Le : l <= l'). { apply level_ge; auto. lia. }
  pose proof (itr_le (A l) r R r) as I. pose proof (itr_le (A l') r R' r) as I'.
  assert (S0 : r <= (a - l) * r) by (rewrite <- (Nat.mul_1_l r) at 1; apply Nat.mul_le_mono_r; lia).
  assert (S2 : r <= (a - l') * r) by (rewrite <- (Nat.mul_1_l r) at 1; apply Nat.mul_le_mono_r; lia).
  assert (N1 : Nat.iter (S (itr (A l) r R r)) (A l) r <= R').
  { simpl. transitivity (A l R); auto. apply A_mono. apply itr_ok. lia. }
  destruct (Nat.eq_dec l l') as [<-|N].
  - assert (J : S (itr (A l) r R r) <= r).
    { destruct (Nat.eq_dec (itr (A l) r R r) r) as [E|E]; [|lia]. exfalso.
      rewrite E in N1. change (Nat.iter (S r) (A l) r) with (A (S l) r) in N1. lia. }
    assert (J2 : S (itr (A l) r R r) <= itr (A l) r R' r) by (apply itr_ge; auto).
    lia.
  - assert (J : 1 <= itr (A l') r R' r) by (apply itr_pos; auto).
    assert (S1 : (a - l') * r + r <= (a - l) * r).
    { replace ((a - l') * r + r) with ((a - l' + 1) * r) by lia. apply Nat.mul_le_mono_r. lia. }
    lia.
Qed.

End Potential.
