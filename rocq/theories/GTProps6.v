(** Further theorems of C124: when a removal takes a place of the array for good. *)
From Coq Require Import Permutation NArith.
From Verif Require Import Base HMModel HMProofs HTModel HTProofs HTProps CTProps GTModel GTSpec GTRun GTProofs GTProofs2 GTProofs3 GTProofs4 GTProofs8 GTProps.
Local Open Scope outcome_scope.

(** A removal changes the slot of its key only. It leaves DELETED, which takes a place, exactly if the
    array has a whole group or more and the slot lies in a row of a group's length (round the end of the
    array) without EMPTY; otherwise it leaves EMPTY, and the place is free again. *)
Theorem c124_when_a_removal_leaves_a_mark : forall K V (eqb : K -> K -> bool) hash W E cap t0 (cs : list (call K V)) k p,
  eq_laws eqb -> consistent eqb hash -> power_of_two W -> g_with_capacity V hash W E cap = Ret t0 ->
  let t := fst (g_run eqb hash W E cs t0) in
  let n := length t in
  g_find eqb hash W k t = Some p ->
  let row := W <= n /\ exists q, q < n /\ (exists j, j < W /\ p = (q + j) mod n) /\
    forall j, j < W -> nth ((q + j) mod n) t Empty <> Empty in
  let t' := g_remove eqb hash W k t in
  length t' = n /\ (forall p', p' <> p -> nth p' t' Empty = nth p' t Empty) /\
  (row -> nth p t' Empty = Deleted) /\ (~ row -> nth p t' Empty = Empty).
Proof.
  intros K V eqb hash W E cap t0 cs k p L HH W2 C t n F row t'.
  pose proof (@Rg_with_capacity K V eqb hash W E L W2 cap) as R. rewrite C in R. destruct R as [R _].
  destruct (g_run eqb hash W E cs t0) as [t1 rs] eqn:T. cbn [fst] in t. subst t.
  destruct (rel_run E L HH W2 cs R T) as (m' & [O _] & _). pose proof O as (_ & _ & P2 & _).
  destruct (seek_some _ _ _ _ _ _ _ _ F) as (k' & v & N & _).
  assert (Hp : p < length t1) by (apply nth_error_Some; congruence).
  assert (Fu : nth p t1 Empty <> Empty) by (rewrite (nth_error_nth _ _ Empty N); discriminate).
  pose proof (@erase_mark K V W W2 t1 p P2 Hp Fu) as M. fold n in M.
  assert (Et : t' = g_erase W p t1) by (unfold t', g_remove; now rewrite F).
  clearbody t'. unfold g_erase in Et. fold n in Et. fold row in M.
  set (c := W <=? _) in *. assert (Le : length t' = n) by (rewrite Et; apply length_write).
  assert (At : forall p', p' < n -> nth_error t' p' = Some (nth p' t' Empty)).
  { intros p' H. apply nth_error_nth'. lia. }
  split; auto. split; [|split].
  - intros p' D. destruct (Nat.lt_ge_cases p' n) as [H|H]; [|now rewrite !nth_overflow by (rewrite ?Le; auto)].
    specialize (At p' H). rewrite Et in At at 1. apply nth_write in At. destruct At as [[X _]|[_ X]]; [congruence|].
    symmetry. now apply nth_error_nth.
  - intros H. apply M in H. specialize (At p Hp). rewrite Et in At at 1. rewrite H in At at 1. apply nth_write in At.
    destruct At as [[_ X]|[X _]]; congruence.
  - intros H. assert (Cf : c = false) by (destruct c; auto; exfalso; apply H, M; reflexivity).
    specialize (At p Hp). rewrite Et in At at 1. rewrite Cf in At at 1. apply nth_write in At.
    destruct At as [[_ X]|[X _]]; congruence.
Qed.
Print Assumptions c124_when_a_removal_leaves_a_mark.

(** groups of four: the second of seven keys in a row leaves DELETED, the second of three leaves EMPTY;
    an array of half a group never gets marks *)
Example c124_ex_marks :
  let t := fst (table_run all_collide 4 7 (c123_keys 7)) in
  let t3 := fst (table_run all_collide 4 7 (c123_keys 3)) in
  let t16 := fst (table_run all_collide 16 7 (c123_keys 7)) in
  g_find keq all_collide 4 (2, 0) t = Some 0 /\ nth 0 (g_remove keq all_collide 4 (2, 0) t) Empty = Deleted /\
  g_find keq all_collide 4 (2, 0) t3 = Some 0 /\ nth 0 (g_remove keq all_collide 4 (2, 0) t3) Empty = Empty /\
  length t16 = 8 /\ ht_marks (g_remove keq all_collide 16 (2, 0) t16) = 0.
Proof. vm_compute. auto 10. Qed.
