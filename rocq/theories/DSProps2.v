(** Property theorems C67-C69: the number of recursive calls made by the
    disjoint set. *)
From Coq Require Import Permutation NArith.
From Verif Require Import Base HMModel HMProofs DSModel DSSpec DSRun DSProofs DSProofs2 DSProofs3 DSProofs4.
From Verif Require Import DSAck DSCost DSAmort DSLower DSFlat DSProps.
Local Open Scope outcome_scope.

(** [alpha n a]: [a] is the value of the inverse Ackermann function at [n], the
    least level at which [A] exceeds [n] on the argument 1. *)
Definition alpha (n a : nat) : Prop := n <= A a 1 /\ forall b, b < a -> A b 1 < n.

Lemma len_bound K (eqb : K -> K -> bool) E ops s : eq_laws eqb -> ranks_fit E -> Forall (@op_ok K) ops ->
  valid eqb E s -> (exists g, shows eqb s g) -> ds_len (fst (ds_run eqb E ops s)) <= alloc_max E.
Proof.
  intros L U. revert s. induction ops as [|o ops IH]; intros s Ok V [g Sh]; simpl.
  - apply V.
  - inversion Ok as [|? ? O1 O2]; subst. destruct (ds_step eqb E o s) as [s1 r] eqn:Q.
    destruct (step_ok L U _ V Sh O1 Q) as (g1 & V1 & S1 & _).
    specialize (IH s1 O2 V1 (ex_intro _ g1 S1)). destruct (ds_run eqb E ops s1). exact IH.
Qed.

Lemma firstn_ok K (ops : list (op K)) n : Forall (@op_ok K) ops -> Forall (@op_ok K) (firstn n ops).
Proof. intros H. revert n. induction H; intros [|n]; simpl; constructor; auto. Qed.

Lemma A_1 j : A 1 j = 2 * j + 1.
Proof.
  assert (H : forall n x, Nat.iter n (A 0) x = n + x) by (induction n as [|n IH]; intros x; simpl; auto; now rewrite IH).
  change (A 1 j) with (Nat.iter (S j) (A 0) j). rewrite H. lia.
Qed.
Lemma A_2 j : 2 ^ S j <= A 2 j + 1.
Proof.
  assert (H : forall n x, 2 ^ n <= Nat.iter n (A 1) x + 1).
  { induction n as [|n IH]; intros x; [simpl; lia|]. cbn [Nat.iter nat_rect]. rewrite A_1.
    specialize (IH x). unfold Nat.iter in IH. rewrite Nat.pow_succ_r'. lia. }
  apply H.
Qed.
Lemma A_4_1 k : k <= 100 -> 2 ^ k <= A 4 1.
Proof.
  intros Hk.
  assert (X1 : 7 <= A 2 1) by (vm_compute; lia).
  assert (X2 : 100 <= A 3 1).
  { change (A 3 1) with (A 2 (A 2 1)). transitivity (A 2 7); [|now apply A_mono].
    pose proof (A_2 7) as Y. change (2 ^ 8) with 256 in Y. lia. }
  change (A 4 1) with (A 3 (A 3 1)).
  transitivity (A 2 100).
  - pose proof (A_2 100) as Y. pose proof (Nat.pow_le_mono_r 2 k 100 ltac:(lia) Hk) as Z.
    pose proof (Nat.pow_nonzero 2 100 ltac:(lia)) as W. rewrite Nat.pow_succ_r' in Y.
    set (q := 2 ^ 100) in *. clearbody q. lia.
  - transitivity (A 3 100); [apply A_step|]. now apply A_mono.
Qed.
Lemma fits_64 n : (N.of_nat n < 2 ^ 64)%N -> n <= A 4 1.
Proof.
  intros H. transitivity (2 ^ 64); [|apply A_4_1; lia].
  assert (X : (N.of_nat n < N.of_nat (2 ^ 64))%N) by (rewrite Nat2N.inj_pow; exact H).
  set (q := 2 ^ 64) in *. clearbody q. lia.
Qed.

Lemma new_pot a K : pot a (ds_data (ds_new K)) = 0.
Proof. reflexivity. Qed.

(** ** C67 *)
(** The counted calls are those of the recursion: with [calls_in i s] nested
    calls allowed the search ends, with fewer it does not. *)
Theorem c67_calls_are_those_of_the_recursion : forall K (eqb : K -> K -> bool) cl E s i fuel,
  eq_laws eqb -> ranks_fit E -> (forall k, eqb (cl k) k = true) -> reachable eqb E cl s ->
  i < ds_len s ->
  (snd (ds_find fuel (ds_data s) i) = NoFuel <-> fuel < calls_in i s) /\
  1 <= calls_in i s <= S (Nat.log2 (ds_len s)).
Proof.
  exact (fun K eqb cl E s i fuel L U CL R Li =>
    match reachable_valid L U CL R with
    | conj V _ => match calls_count V Li with conj B C => conj (C fuel) B end
    end).
Qed.
Print Assumptions c67_calls_are_those_of_the_recursion.

(** Amortised bound: over any history in which at most [A a 1] elements are
    held, the searches make at most [a + 2] calls each, and [a] more per
    [union]. *)
Theorem c67_searches_are_amortised_inverse_ackermann : forall K (eqb : K -> K -> bool) E ops a,
  eq_laws eqb -> ranks_fit E -> Forall (@op_ok K) ops ->
  (forall n b, alpha (ds_len (fst (ds_run eqb E (firstn n ops) (ds_new K)))) b -> b <= a) ->
  run_calls eqb E ops (ds_new K) <=
    (a + 2) * run_finds eqb E ops (ds_new K) + a * run_unions ops.
Proof.
  intros K eqb E ops a L U Ok B.
  assert (B' : forall n, ds_len (fst (ds_run eqb E (firstn n ops) (ds_new K))) <= A a 1).
  { intros n. set (m := ds_len _). specialize (B n). fold m in B. clearbody m. clear -B.
    destruct (le_gt_dec m (A a 1)) as [|G]; auto. exfalso.
    assert (X : exists b, a < b /\ alpha m b).
    { assert (Y : m <= A m 1).
      { assert (forall k, k <= A k 1) as Z; [|apply Z].
        induction k as [|k IH]; [lia|]. change (A (S k) 1) with (A k (A k 1)).
        pose proof (A_gt k (A k 1)). lia. }
      assert (W : forall d, m <= A (a + d) 1 -> exists b, a < b /\ alpha m b).
      { induction d as [|d IH]; intros Hd; [rewrite Nat.add_0_r in Hd; lia|].
        destruct (le_gt_dec m (A (a + d) 1)) as [Q|Q]; [auto|].
        exists (a + S d). split; [lia|]. split; [exact Hd|]. intros b Hb.
        apply Nat.le_lt_trans with (A (a + d) 1); [apply A_mono_k; lia|exact Q]. }
      apply (W m). transitivity (A m 1); [exact Y|apply A_mono_k; lia]. }
    destruct X as (b & X1 & X2). specialize (B b X2). lia. }
  pose proof (run_amortised a L U (new_valid eqb E) (ex_intro _ _ (new_shows eqb)) Ok B') as X.
  rewrite new_pot in X. simpl in X. lia.
Qed.
Print Assumptions c67_searches_are_amortised_inverse_ackermann.

(** On a machine holding fewer than 2^64 elements: at most 6 calls per search
    and 4 more per [union], on average. *)
Theorem c67_six_calls_per_search : forall K (eqb : K -> K -> bool) E ops,
  eq_laws eqb -> (N.of_nat (alloc_max E) < 2 ^ 64)%N -> Forall (@op_ok K) ops ->
  run_calls eqb E ops (ds_new K) <= 6 * run_finds eqb E ops (ds_new K) + 4 * run_unions ops.
Proof.
  intros K eqb E ops L S64 Ok.
  assert (U : ranks_fit E).
  { unfold ranks_fit. destruct (N.eq_dec (N.of_nat (alloc_max E)) 0) as [->|Z]; [reflexivity|].
    apply N.lt_trans with 64%N; [|reflexivity]. apply N.log2_lt_pow2; [lia|exact S64]. }
  assert (B : forall n, ds_len (fst (ds_run eqb E (firstn n ops) (ds_new K))) <= A 4 1).
  { intros n. eapply Nat.le_trans; [|apply fits_64, S64].
    apply (len_bound K eqb E (firstn n ops) (ds_new K) L U (firstn_ok K ops n Ok) (new_valid eqb E)
             (ex_intro _ _ (new_shows eqb))). }
  pose proof (run_amortised 4 L U (new_valid eqb E) (ex_intro _ _ (new_shows eqb)) Ok B) as X.
  rewrite new_pot in X. set (c := run_calls _ _ _ _) in *. clearbody c. lia.
Qed.
Print Assumptions c67_six_calls_per_search.

(** A history on 8 elements: a binomial tree is built, then searched. *)
Definition Eg : machine := Machine 255 100 true.
Definition ops_g : list (op nat) :=
  OExtend 0 (seq 0 8) :: build 3 0 ++
  [OInUnion 7 3; OInUnion 7 3; OIter (fun l => l) (fun l => l); OInUnion 5 6; OClear; OInUnion 5 6; OUnion 5 6].
Example c67_ex : Forall (@op_ok nat) ops_g /\ alpha 8 3 /\ run_calls Nat.eqb Eg ops_g (ds_new nat) = 47 /\
  run_finds Nat.eqb Eg ops_g (ds_new nat) = 32 /\ run_unions ops_g = 8 /\
  calls_in 7 (fst (ds_run Nat.eqb Eg (firstn 8 ops_g) (ds_new nat))) = 4.
Proof.
  split; [repeat constructor; intros; apply Permutation_refl|].
  split; [split; [change (A 3 1) with (A 2 (A 2 1)); change (A 2 1) with 7; pose proof (A_2 7); simpl in *; lia|]|].
  - intros b Hb. destruct b as [|[|[|b]]]; [vm_compute; lia|vm_compute; lia|vm_compute; lia|lia].
  - vm_compute. repeat split.
Qed.

(** ** C68 *)
(** No bound below the logarithm holds for single calls: for every [k] there
    is a history of [2^k] elements none of whose calls panics, after which one
    [in_union] makes more than [k] calls.  (The documentation states the bound
    of C67 for each call.) *)
Theorem c68_single_call_is_cheap_refuted : forall E k,
  2 ^ k <= alloc_max E -> (N.of_nat k <= u32_max)%N ->
  exists (ops : list (op nat)) s x y,
    Forall (@op_ok nat) ops /\
    ds_run Nat.eqb E ops (ds_new nat) = (s, map (fun _ => Ret RUnit) ops) /\
    ds_len s = 2 ^ k /\ Nat.log2 (ds_len s) < op_calls Nat.eqb E (OInUnion x y) s.
Proof.
  intros E k H B. destruct (@deep E k H B) as (T & Ln & _ & C).
  set (ops := OExtend 0 (seq 0 (2 ^ k)) :: build k 0) in *.
  destruct (ds_run Nat.eqb E ops (ds_new nat)) as [s tr] eqn:R. cbn [fst snd] in *.
  exists ops, s, (2 ^ k - 1), 0. split; [apply build_op_ok|]. split.
  - rewrite R. f_equal. pose proof (run_length _ _ _ R) as Lt. clearbody ops. clear -T Lt. revert ops Lt.
    induction T as [|r tr -> T IH]; intros [|o ops] Lt; try discriminate; auto.
    simpl. f_equal. apply IH. simpl in Lt. lia.
  - split; [exact Ln|]. rewrite Ln, Nat.log2_pow2 by lia. exact C.
Qed.
Print Assumptions c68_single_call_is_cheap_refuted.

Example c68_ex : let s := fst (ds_run Nat.eqb Eg (OExtend 0 (seq 0 8) :: build 3 0) (ds_new nat)) in
  ds_len s = 8 /\ op_calls Nat.eqb Eg (OInUnion 7 0) s = 5 /\ map parent (ds_data s) = [0; 0; 0; 2; 0; 4; 4; 6].
Proof. vm_compute. repeat split. Qed.

(** ** C69 *)
(** Asking never makes a later search longer. *)
Theorem c69_queries_only_shorten_searches : forall K (eqb : K -> K -> bool) cl E s o s' r i,
  eq_laws eqb -> ranks_fit E -> (forall k, eqb (cl k) k = true) -> reachable eqb E cl s ->
  op_ok o -> is_query o = true -> ds_step eqb E o s = (s', r) -> calls_in i s' <= calls_in i s.
Proof.
  exact (fun K eqb cl E s o s' r i L U CL R Ok Q H =>
    match reachable_valid L U CL R with
    | conj V _ => query_shorter o i V Ok Q H
    end).
Qed.
Print Assumptions c69_queries_only_shorten_searches.

(** The same question asked again takes at most two calls per search. *)
Theorem c69_repeated_in_union_is_constant : forall K (eqb : K -> K -> bool) cl E s a b s' r,
  eq_laws eqb -> ranks_fit E -> (forall k, eqb (cl k) k = true) -> reachable eqb E cl s ->
  ds_in_union eqb a b s = (s', r) -> op_calls eqb E (OInUnion a b) s' <= 4.
Proof.
  exact (fun K eqb cl E s a b s' r L U CL R H =>
    match reachable_valid L U CL R with conj V _ => in_union_again a b V H end).
Qed.
Print Assumptions c69_repeated_in_union_is_constant.

(** After an iteration every search takes at most two calls. *)
Theorem c69_iteration_flattens_the_forest : forall K (eqb : K -> K -> bool) cl E s order pick s' ss i,
  eq_laws eqb -> ranks_fit E -> (forall k, eqb (cl k) k = true) -> reachable eqb E cl s ->
  (forall l, Permutation l (order l)) ->
  ds_step eqb E (OIter order pick) s = (s', Ret (RSets ss)) -> i < ds_len s' -> calls_in i s' <= 2.
Proof.
  exact (fun K eqb cl E s order pick s' ss i L U CL R Po H Li =>
    match reachable_valid L U CL R with conj V _ => iter_flat order pick V Po H Li end).
Qed.
Print Assumptions c69_iteration_flattens_the_forest.

Example c69_ex : let s := fst (ds_run Nat.eqb Eg (firstn 8 ops_g) (ds_new nat)) in
  let s1 := fst (ds_in_union Nat.eqb 7 3 s) in
  let s2 := fst (ds_step Nat.eqb Eg (OIter (fun l => l) (fun l => l)) s) in
  (op_calls Nat.eqb Eg (OInUnion 7 3) s, op_calls Nat.eqb Eg (OInUnion 7 3) s1) = (7, 4) /\
  map (fun i => calls_in i s) (seq 0 8) = [1; 2; 2; 3; 2; 3; 3; 4] /\
  map (fun i => calls_in i s1) (seq 0 8) = [1; 2; 2; 2; 2; 3; 2; 2] /\
  map (fun i => calls_in i s2) (seq 0 8) = [1; 2; 2; 2; 2; 2; 2; 2].
Proof. vm_compute. repeat split. Qed.
