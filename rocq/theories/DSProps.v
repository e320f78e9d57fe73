(** Property theorems C52-C59 and C66: the disjoint set. *)
From Coq Require Import Permutation NArith.
From Verif Require Import Base HMModel HMProofs DSModel DSSpec DSRun DSProofs DSProofs2 DSProofs3 DSProofs4.
Local Open Scope outcome_scope.

(** The number of elements that fit into memory has fewer than 2^32 bits. *)
Definition ranks_fit (E : machine) : Prop := (N.log2 (N.of_nat (alloc_max E)) < u32_max)%N.

(** Two elements are near: equal, or answered [true] by [in_union]. *)
Definition close {K} (eqb : K -> K -> bool) (s : dset K) (x a : K) : Prop :=
  eqb x a = true \/ joined eqb s x a.

(** ** A concrete machine, element type and history used in the examples *)
Definition Ed : machine := Machine 255 6 true.
Lemma Ed_fit : ranks_fit Ed.
Proof. reflexivity. Qed.
(** elements carry a tag that equality ignores; cloning forgets the tag *)
Definition elt : Type := nat * nat.
Definition eeq (a b : elt) : bool := fst a =? fst b.
Definition ecl (a : elt) : elt := (fst a, 0).
Lemma eeq_laws : eq_laws eeq.
Proof. constructor; unfold eeq; intros; rewrite ?Nat.eqb_eq in *; congruence. Qed.
Lemma ecl_eq k : eeq (ecl k) k = true.
Proof. apply Nat.eqb_refl. Qed.
Definition e (n : nat) : elt := (n, 10 * n).
Definition e' (n : nat) : elt := (n, 10 * n + 1).

(** hash orders *)
Definition ord1 (l : list (elt * nat)) := l.
Definition ord2 (l : list (elt * nat)) := rev l.
Definition pk1 (l : list (nat * list elt)) := l.
Definition pk2 (l : list (nat * list elt)) := rev l.
Lemma ord2_ok l : Permutation l (ord2 l).
Proof. apply Permutation_rev. Qed.
Lemma pk2_ok l : Permutation l (pk2 l).
Proof. apply Permutation_rev. Qed.

Definition ops_a : list (op elt) :=
  [OMake (e 1); OUnion (e' 1) (e 2); OUnion (e 3) (e 4); OInUnion (e 1) (e 4); OUnion (e 4) (e 2);
   OInUnion (e 1) (e' 4); OExtend 1 [e' 4; e 5]; OInUnion (e 5) (e 1); OContains (e 5); OContains (e 6); OLen].
Definition ds_a : dset elt := fst (ds_run eeq Ed ops_a (ds_new elt)).

Lemma no_iter_ok (ops : list (op elt)) : forallb (fun o => match o with OIter _ _ => false | _ => true end) ops = true ->
  Forall (@op_ok elt) ops.
Proof.
  intros H. rewrite forallb_forall in H. rewrite Forall_forall. intros o I. specialize (H o I).
  destruct o; simpl; auto. discriminate.
Qed.

Lemma run_reach (ops : list (op elt)) s : reachable eeq Ed ecl s -> Forall (@op_ok elt) ops ->
  reachable eeq Ed ecl (fst (ds_run eeq Ed ops s)).
Proof.
  revert s. induction ops as [|o ops IH]; intros s R Ok; simpl; auto.
  inversion Ok as [|? ? O1 O2]; subst. destruct (ds_step eeq Ed o s) as [s1 r] eqn:H.
  specialize (IH s1 (r_step _ R O1 H) O2). destruct (ds_run eeq Ed ops s1). exact IH.
Qed.

(** ** C52 *)
(** Every history from the empty set: each answer is the one the log of added
    elements and united pairs demands; a call ends in a panic only for want of
    room. *)
Theorem c52_histories_follow_the_closure : forall K (eqb : K -> K -> bool) E ops s tr,
  eq_laws eqb -> ranks_fit E -> Forall (@op_ok K) ops ->
  ds_run eqb E ops (ds_new K) = (s, tr) ->
  exists g, history eqb E ops empty_log g tr /\
    forall x y, joined eqb s x y <-> together eqb g x y.
Proof.
  exact (fun K eqb E ops s tr L U Ok H =>
    match run_ok L U (new_valid eqb E) (new_shows eqb) Ok H with
    | ex_intro _ g (conj V (conj Sh Hi)) =>
        ex_intro _ g (conj Hi (fun x y => joined_together L x y V Sh))
    end).
Qed.
Print Assumptions c52_histories_follow_the_closure.

Theorem c52_in_union_is_the_closure : forall K (eqb : K -> K -> bool) E ops s tr,
  eq_laws eqb -> ranks_fit E -> Forall (@op_ok K) ops ->
  ds_run eqb E ops (ds_new K) = (s, tr) -> ~ In Panic tr ->
  forall x y, joined eqb s x y <-> together eqb (replay ops empty_log) x y.
Proof.
  intros K eqb E ops s tr L U Ok H N x y.
  destruct (c52_histories_follow_the_closure K eqb E ops s tr L U Ok H) as (g & Hi & J).
  rewrite (J x y). now rewrite (history_replay Hi N).
Qed.
Print Assumptions c52_in_union_is_the_closure.

Example c52_ex : snd (ds_run eeq Ed ops_a (ds_new elt)) =
  [Ret RUnit; Ret RUnit; Ret RUnit; Ret (RBool false); Ret RUnit; Ret (RBool true); Ret RUnit;
   Ret (RBool false); Ret (RBool true); Ret (RBool false); Ret (RNat 5)].
Proof. vm_compute. reflexivity. Qed.
Example c52_ex_joined : joined eeq ds_a (e 1) (e 3) /\ ~ joined eeq ds_a (e 5) (e 3) /\
  together eeq (replay ops_a empty_log) (e 1) (e 3).
Proof.
  assert (J : joined eeq ds_a (e 1) (e 3)) by (vm_compute; reflexivity).
  split; [exact J|]. split; [vm_compute; discriminate|].
  apply (c52_in_union_is_the_closure _ eeq Ed ops_a ds_a (snd (ds_run eeq Ed ops_a (ds_new elt)))
           eeq_laws Ed_fit (no_iter_ok ops_a eq_refl) (surjective_pairing _)); [|exact J].
  rewrite c52_ex. simpl. intuition discriminate.
Qed.
(** with panics: the seventh element does not fit, [e 6] is kept *)
Definition ops_p : list (op elt) := ops_a ++ [OUnion (e 6) (e 7); OContains (e 6); OContains (e 7);
  OInUnion (e 6) (e 6); OUnion (e 6) (e 1); OInUnion (e 6) (e 3); OReserve 1; OClear; OInUnion (e 1) (e 2)].
Example c52_ex_panic : skipn 11 (snd (ds_run eeq Ed ops_p (ds_new elt))) =
  [Panic; Ret (RBool true); Ret (RBool false); Ret (RBool true); Ret RUnit; Ret (RBool true); Panic;
   Ret RUnit; Ret (RBool false)].
Proof. reflexivity. Qed.

(** ** C53 *)
Theorem c53_membership_and_size : forall K (eqb : K -> K -> bool) E ops s tr,
  eq_laws eqb -> ranks_fit E -> Forall (@op_ok K) ops ->
  ds_run eqb E ops (ds_new K) = (s, tr) ->
  exists g, history eqb E ops empty_log g tr /\
    (forall x, ds_contains eqb x s = true <-> mem eqb x (added g)) /\
    ds_len s = length (firsts eqb (added g)) /\
    (ds_is_empty s = true <-> added g = []) /\
    (ds_is_empty s = true <-> ds_len s = 0).
Proof.
  exact (fun K eqb E ops s tr L U Ok H =>
    match run_ok L U (new_valid eqb E) (new_shows eqb) Ok H with
    | ex_intro _ g (conj V (conj Sh Hi)) =>
        ex_intro _ g (conj Hi (conj (fun x => contains_mem L x Sh)
          (conj (eq_sym (size_len Sh)) (conj (empty_added Sh) (Nat.eqb_eq _ _)))))
    end).
Qed.
Print Assumptions c53_membership_and_size.

(** without panics the log is that of the calls *)
Theorem c53_membership_without_panics : forall K (eqb : K -> K -> bool) E ops s tr,
  eq_laws eqb -> ranks_fit E -> Forall (@op_ok K) ops ->
  ds_run eqb E ops (ds_new K) = (s, tr) -> ~ In Panic tr ->
  (forall x, ds_contains eqb x s = true <-> mem eqb x (added (replay ops empty_log))) /\
  ds_len s = length (firsts eqb (added (replay ops empty_log))).
Proof.
  intros K eqb E ops s tr L U Ok H N.
  destruct (c53_membership_and_size K eqb E ops s tr L U Ok H) as (g & Hi & C & Ln & _).
  now rewrite <- (history_replay Hi N).
Qed.
Print Assumptions c53_membership_without_panics.

Example c53_ex : ds_contains eeq (e' 4) ds_a = true /\ ds_contains eeq (e 6) ds_a = false /\ ds_len ds_a = 5
  /\ firsts eeq (added (replay ops_a empty_log)) = [e 1; e 2; e 3; e 4; e 5].
Proof. repeat split. Qed.
Example c53_ex_clear : let s := fst (ds_run eeq Ed (ops_a ++ [OClear; OMake (e 9)]) (ds_new elt)) in
  ds_contains eeq (e 1) s = false /\ ds_contains eeq (e 9) s = true /\ ds_len s = 1 /\ ds_is_empty s = false.
Proof. repeat split. Qed.

(** ** C54 *)
(** [mops] is a history in which some queries are marked [false]: leaving them
    out changes no other answer. *)
Theorem c54_queries_are_invisible : forall K (eqb : K -> K -> bool) cl E s mops,
  eq_laws eqb -> ranks_fit E -> (forall k, eqb (cl k) k = true) -> reachable eqb E cl s ->
  Forall (fun p => op_ok (snd p)) mops ->
  Forall (fun p => fst p = false -> is_query (snd p) = true) mops ->
  snd (ds_run eqb E (map snd (filter (fun p => fst p) mops)) s) =
  map snd (filter (fun p => fst p) (combine (map fst mops) (snd (ds_run eqb E (map snd mops) s)))).
Proof.
  exact (fun K eqb cl E s mops L U CL R Ok Q =>
    match reachable_valid L U CL R with
    | conj V Sh => drop_queries L U V Sh (twin_refl V) Ok Q
    end).
Qed.
Print Assumptions c54_queries_are_invisible.

Theorem c54_one_query_is_invisible : forall K (eqb : K -> K -> bool) cl E s q ops,
  eq_laws eqb -> ranks_fit E -> (forall k, eqb (cl k) k = true) -> reachable eqb E cl s ->
  op_ok q -> is_query q = true -> Forall (@op_ok K) ops ->
  snd (ds_run eqb E ops (fst (ds_step eqb E q s))) = snd (ds_run eqb E ops s).
Proof.
  intros K eqb cl E s q ops L U CL R Oq Iq Ok.
  destruct (reachable_valid L U CL R) as [V Sh].
  destruct (ds_step eqb E q s) as [s' r] eqn:H.
  destruct (twin_step U q V (twin_refl V) Oq H) as (t' & _ & _ & T).
  exact (twin_run L U V Sh (T Iq) Ok).
Qed.
Print Assumptions c54_one_query_is_invisible.

(** a chain of depth two, compressed by a query *)
Definition ops_c : list (op elt) := [OUnion (e 1) (e 2); OUnion (e 3) (e 4); OUnion (e 1) (e 3)].
Definition ds_c : dset elt := fst (ds_run eeq Ed ops_c (ds_new elt)).
Lemma ds_c_reach : reachable eeq Ed ecl ds_c.
Proof. exact (run_reach ops_c (ds_new elt) (@r_new _ _ _ _) (no_iter_ok ops_c eq_refl)). Qed.
Example c54_ex : fst (ds_step eeq Ed (OInUnion (e 4) (e 2)) ds_c) <> ds_c /\
  op_ok (OInUnion (e 4) (e 2)) /\ is_query (OInUnion (e 4) (e 2)) = true.
Proof. split; [vm_compute; discriminate|]. split; reflexivity. Qed.
Example c54_ex_marked :
  let mops := [(true, OUnion (e 5) (e 4)); (false, OIter ord2 pk2); (true, OInUnion (e 5) (e 2)); (false, OLen);
               (false, OInUnion (e 1) (e 6)); (true, OIter ord1 pk1)] in
  snd (ds_run eeq Ed (map snd (filter (fun p => fst p) mops)) ds_c) =
    [Ret RUnit; Ret (RBool true); Ret (RSets [[e 5; e 4; e 3; e 2; e 1]])].
Proof. vm_compute. reflexivity. Qed.

(** ** C55 *)
Theorem c55_iteration_yields_the_partition : forall K (eqb : K -> K -> bool) cl E s order pick,
  eq_laws eqb -> ranks_fit E -> (forall k, eqb (cl k) k = true) -> reachable eqb E cl s ->
  (forall l, Permutation l (order l)) -> (forall l, Permutation l (pick l)) ->
  exists s' ss, ds_step eqb E (OIter order pick) s = (s', Ret (RSets ss)) /\
    Forall (fun q => q <> []) ss /\
    ForallOrdPairs (fun a b => eqb a b = false) (concat ss) /\
    (forall x, ds_contains eqb x s = true <-> mem eqb x (concat ss)) /\
    length (concat ss) = ds_len s /\
    (forall x y, joined eqb s x y <-> exists q, In q ss /\ mem eqb x q /\ mem eqb y q).
Proof.
  exact (fun K eqb cl E s order pick L U CL R Po Pp =>
    match reachable_valid L U CL R with
    | conj V Sh => @iter_partition K eqb L E U s order pick V Sh Po Pp
    end).
Qed.
Print Assumptions c55_iteration_yields_the_partition.

Lemma ds_a_reach : reachable eeq Ed ecl ds_a.
Proof. exact (run_reach ops_a (ds_new elt) (@r_new _ _ _ _) (no_iter_ok ops_a eq_refl)). Qed.
Example c55_ex : snd (ds_step eeq Ed (OIter ord1 pk1) ds_a) = Ret (RSets [[e 4; e 3; e 2; e 1]; [e 5]]) /\
  snd (ds_step eeq Ed (OIter ord2 pk2) ds_a) = Ret (RSets [[e 1; e 2; e 3; e 4]; [e 5]]).
Proof. vm_compute. split; reflexivity. Qed.

(** ** C56 *)
(** at most log2(n) recursive calls below the first one *)
Theorem c56_recursion_depth_is_logarithmic : forall K (eqb : K -> K -> bool) cl E s i,
  eq_laws eqb -> ranks_fit E -> (forall k, eqb (cl k) k = true) -> reachable eqb E cl s ->
  i < ds_len s ->
  exists v r, ds_find (S (Nat.log2 (ds_len s))) (ds_data s) i = (v, Ret r).
Proof.
  exact (fun K eqb cl E s i L U CL R Li =>
    match reachable_valid L U CL R with conj V _ => find_depth V Li end).
Qed.
Print Assumptions c56_recursion_depth_is_logarithmic.

Theorem c56_ranks_never_overflow : forall K (eqb : K -> K -> bool) cl E s d,
  eq_laws eqb -> ranks_fit E -> (forall k, eqb (cl k) k = true) -> reachable eqb E cl s ->
  In d (ds_data s) -> (2 ^ rank d <= N.of_nat (ds_len s))%N /\ (rank d < u32_max)%N.
Proof.
  exact (fun K eqb cl E s d L U CL R I =>
    match reachable_valid L U CL R with conj V _ => rank_size U d V I end).
Qed.
Print Assumptions c56_ranks_never_overflow.

(** every call returns or runs out of room *)
Theorem c56_every_call_returns : forall K (eqb : K -> K -> bool) cl E s o s' r,
  eq_laws eqb -> ranks_fit E -> (forall k, eqb (cl k) k = true) -> reachable eqb E cl s ->
  op_ok o -> ds_step eqb E o s = (s', r) ->
  (r = Panic \/ exists v, r = Ret v) /\
  (ds_len s + demand o <= alloc_max E -> exists v, r = Ret v).
Proof.
  exact (fun K eqb cl E s o s' r L U CL R Ok H =>
    match reachable_valid L U CL R with conj V Sh => step_returns L U o V Sh Ok H end).
Qed.
Print Assumptions c56_every_call_returns.

(** the depth log2(n) is needed: with one call less the recursion cannot end *)
Example c56_ex : Nat.log2 (ds_len ds_c) = 2 /\ snd (ds_find 3 (ds_data ds_c) 3) = Ret 0 /\
  snd (ds_find 2 (ds_data ds_c) 3) = NoFuel /\ map rank (ds_data ds_c) = [2; 0; 1; 0]%N.
Proof. vm_compute. repeat split. Qed.
Example c56_ex_room : ds_len ds_a + demand (OMake (e 8)) <= alloc_max Ed /\
  snd (ds_step eeq Ed (OUnion (e 8) (e 9)) ds_a) = Panic.
Proof. split; [apply Nat.leb_le; reflexivity|vm_compute; reflexivity]. Qed.

(** ** C57 *)
(** a set created with a capacity holds nothing; the capacity must be allocatable *)
Theorem c57_with_capacity_is_empty : forall K (eqb : K -> K -> bool) E n,
  if n <=? alloc_max E
  then exists s, ds_with_capacity K E n = Ret s /\ ds_len s = 0 /\ ds_is_empty s = true /\
         forall k, ds_contains eqb k s = false
  else ds_with_capacity K E n = Panic.
Proof.
  intros K eqb E n. rewrite with_capacity_iff. destruct (n <=? alloc_max E); [|reflexivity].
  exists (ds_new K). repeat split.
Qed.
Print Assumptions c57_with_capacity_is_empty.
Example c57_ex_capacity : ds_with_capacity elt (Machine 100 10 true) 10 = Ret (ds_new elt) /\
  ds_with_capacity elt (Machine 100 10 true) 11 = Panic.
Proof. split; reflexivity. Qed.

Theorem c57_make_set_adds_a_singleton : forall K (eqb : K -> K -> bool) cl E s s' k x y,
  eq_laws eqb -> ranks_fit E -> (forall k, eqb (cl k) k = true) -> reachable eqb E cl s ->
  ds_make_set eqb E k s = (s', Ret tt) ->
  (joined eqb s' x y <-> joined eqb s x y \/ (eqb x k = true /\ eqb y k = true)) /\
  (ds_contains eqb x s' = true <-> ds_contains eqb x s = true \/ eqb x k = true).
Proof.
  exact (fun K eqb cl E s s' k x y L U CL R H =>
    match reachable_valid L U CL R with conj V Sh => make_joined L k x y V Sh H end).
Qed.
Print Assumptions c57_make_set_adds_a_singleton.

Theorem c57_adding_again_changes_nothing : forall K (eqb : K -> K -> bool) E s k,
  ds_contains eqb k s = true -> ds_make_set eqb E k s = (s, Ret tt).
Proof. exact make_again. Qed.
Print Assumptions c57_adding_again_changes_nothing.

Theorem c57_extend_adds_singletons : forall K (eqb : K -> K -> bool) cl E hint xs s s' x y,
  eq_laws eqb -> ranks_fit E -> (forall k, eqb (cl k) k = true) -> reachable eqb E cl s ->
  ds_extend eqb E hint xs s = (s', Ret tt) ->
  (joined eqb s' x y <-> joined eqb s x y \/ (mem eqb x xs /\ eqb x y = true)) /\
  (ds_contains eqb x s' = true <-> ds_contains eqb x s = true \/ mem eqb x xs).
Proof.
  exact (fun K eqb cl E h xs s s' x y L U CL R H =>
    match reachable_valid L U CL R with conj V Sh => extend_joined L h xs x y V Sh H end).
Qed.
Print Assumptions c57_extend_adds_singletons.

Theorem c57_from_iter_gives_singletons : forall K (eqb : K -> K -> bool) E hint xs s,
  eq_laws eqb -> ds_from_iter eqb E hint xs = Ret s ->
  (forall x y, joined eqb s x y <-> mem eqb x xs /\ eqb x y = true) /\
  (forall x, ds_contains eqb x s = true <-> mem eqb x xs) /\
  ds_len s = length (firsts eqb xs).
Proof.
  exact (fun K eqb E h xs s L => @from_iter_obs K eqb L E h xs s).
Qed.
Print Assumptions c57_from_iter_gives_singletons.

Theorem c57_from_iter_iterates_singletons : forall K (eqb : K -> K -> bool) E hint xs s order pick,
  eq_laws eqb -> ranks_fit E -> ds_from_iter eqb E hint xs = Ret s ->
  (forall l, Permutation l (order l)) -> (forall l, Permutation l (pick l)) ->
  exists s' ss, ds_step eqb E (OIter order pick) s = (s', Ret (RSets ss)) /\
    Permutation (map (fun x => [x]) (firsts eqb xs)) ss.
Proof. exact (fun K eqb E h xs s order pick L U => @from_iter_sets K eqb L E U h xs s order pick). Qed.
Print Assumptions c57_from_iter_iterates_singletons.

(** by reference: as by value, on clones *)
Theorem c57_from_iter_by_reference : forall K (eqb : K -> K -> bool) cl E hint xs s,
  eq_laws eqb -> (forall k, eqb (cl k) k = true) -> ds_from_iter_ref eqb cl E hint xs = Ret s ->
  (forall x y, joined eqb s x y <-> mem eqb x xs /\ eqb x y = true) /\
  (forall x, ds_contains eqb x s = true <-> mem eqb x xs) /\
  ds_len s = length (firsts eqb xs).
Proof. exact (fun K eqb cl E h xs s L => @from_iter_ref_obs K eqb L E cl h xs s). Qed.
Print Assumptions c57_from_iter_by_reference.

Definition seq_f : list elt := [e 1; e 2; e' 1; e 3; e' 2].
Example c57_ex : exists s, ds_from_iter eeq Ed 5 seq_f = Ret s /\ ds_len s = 3 /\
  snd (ds_step eeq Ed (OIter ord1 pk2) s) = Ret (RSets [[e 3]; [e 2]; [e 1]]) /\
  ds_make_set eeq Ed (e' 3) s = (s, Ret tt).
Proof. eexists. split; [vm_compute; reflexivity|]. vm_compute. repeat split. Qed.
Example c57_ex_extend : snd (ds_extend eeq Ed 1 [e 9; e' 1] ds_a) = Ret tt /\
  snd (ds_make_set eeq Ed (e 9) ds_a) = Ret tt.
Proof. vm_compute. split; reflexivity. Qed.

(** ** C58 *)
Theorem c58_order_of_unions_is_irrelevant : forall K (eqb : K -> K -> bool) E ops1 s1 tr1 ops2 s2 tr2,
  eq_laws eqb -> ranks_fit E -> Forall (@op_ok K) ops1 -> Forall (@op_ok K) ops2 ->
  ds_run eqb E ops1 (ds_new K) = (s1, tr1) -> ~ In Panic tr1 ->
  ds_run eqb E ops2 (ds_new K) = (s2, tr2) -> ~ In Panic tr2 ->
  same_facts eqb (replay ops1 empty_log) (replay ops2 empty_log) ->
  (forall x y, joined eqb s1 x y <-> joined eqb s2 x y) /\
  (forall x, ds_contains eqb x s1 = ds_contains eqb x s2) /\ ds_len s1 = ds_len s2.
Proof.
  intros K eqb E ops1 s1 tr1 ops2 s2 tr2 L U Ok1 Ok2 H1 N1 H2 N2 F.
  destruct (run_ok L U (new_valid eqb E) (new_shows eqb) Ok1 H1) as (g1 & V1 & S1 & Hi1).
  destruct (run_ok L U (new_valid eqb E) (new_shows eqb) Ok2 H2) as (g2 & V2 & S2 & Hi2).
  rewrite <- (history_replay Hi1 N1), <- (history_replay Hi2 N2) in F.
  exact (same_facts_obs L U V1 S1 V2 S2 F).
Qed.
Print Assumptions c58_order_of_unions_is_irrelevant.

(** in particular for a permutation of the calls *)
Theorem c58_permuted_calls : forall K (eqb : K -> K -> bool) E ops1 s1 tr1 ops2 s2 tr2,
  eq_laws eqb -> ranks_fit E -> Forall (@op_ok K) ops1 -> Permutation ops1 ops2 -> ~ In OClear ops1 ->
  ds_run eqb E ops1 (ds_new K) = (s1, tr1) -> ~ In Panic tr1 ->
  ds_run eqb E ops2 (ds_new K) = (s2, tr2) -> ~ In Panic tr2 ->
  (forall x y, joined eqb s1 x y <-> joined eqb s2 x y) /\
  (forall x, ds_contains eqb x s1 = ds_contains eqb x s2) /\ ds_len s1 = ds_len s2.
Proof.
  exact (fun K eqb E ops1 s1 tr1 ops2 s2 tr2 L U Ok P N H1 N1 H2 N2 =>
    c58_order_of_unions_is_irrelevant K eqb E ops1 s1 tr1 ops2 s2 tr2 L U Ok
      (Permutation_Forall P Ok) H1 N1 H2 N2 (permuted_facts L P N)).
Qed.
Print Assumptions c58_permuted_calls.

Definition ops_d : list (op elt) :=
  [OUnion (e 4) (e 3); OUnion (e 2) (e 4); OExtend 0 [e 5; e 5]; OUnion (e 4) (e 2); OUnion (e 2) (e 1)].
Example c58_ex : same_facts eeq (replay ops_a empty_log) (replay ops_d empty_log) /\
  ~ In Panic (snd (ds_run eeq Ed ops_d (ds_new elt))).
Proof.
  split.
  - split; [|split].
    + intros x. rewrite <- !memb_mem. unfold memb, eeq. simpl.
      destruct x as [[|[|[|[|[|[|n]]]]]] m]; simpl; tauto.
    + intros p I. simpl in I. destruct I as [<-|[<-|[<-|[]]]]; unfold has_pair; simpl.
      * exists (e 2, e 1). auto 10.
      * exists (e 4, e 3). auto 10.
      * exists (e 2, e 4). auto 10.
    + intros p I. simpl in I. destruct I as [<-|[<-|[<-|[<-|[]]]]]; unfold has_pair; simpl.
      * exists (e 3, e 4). auto 10.
      * exists (e 4, e 2). auto 10.
      * exists (e 4, e 2). auto 10.
      * exists (e' 1, e 2). auto 10.
  - vm_compute. intuition discriminate.
Qed.
Example c58_ex_perm : Permutation ops_c (rev ops_c) /\ ~ In OClear ops_c /\
  ~ In Panic (snd (ds_run eeq Ed ops_c (ds_new elt))) /\
  ~ In Panic (snd (ds_run eeq Ed (rev ops_c) (ds_new elt))) /\
  ds_c <> fst (ds_run eeq Ed (rev ops_c) (ds_new elt)).
Proof.
  split; [apply Permutation_rev|]. repeat split; vm_compute; intuition discriminate.
Qed.

(** ** C59 *)
Theorem c59_union_merges_exactly_two_sets : forall K (eqb : K -> K -> bool) cl E s s' a b x y,
  eq_laws eqb -> ranks_fit E -> (forall k, eqb (cl k) k = true) -> reachable eqb E cl s ->
  ds_union eqb E a b s = (s', Ret tt) ->
  (joined eqb s' x y <->
   joined eqb s x y \/
   ((close eqb s x a \/ close eqb s x b) /\ (close eqb s y a \/ close eqb s y b))).
Proof.
  exact (fun K eqb cl E s s' a b x y L U CL R H =>
    match reachable_valid L U CL R with conj V Sh => union_joined L U a b x y V Sh H end).
Qed.
Print Assumptions c59_union_merges_exactly_two_sets.

Example c59_ex : snd (ds_union eeq Ed (e 5) (e 3) ds_a) = Ret tt /\
  let s' := fst (ds_union eeq Ed (e 5) (e 6) ds_a) in
  joined eeq s' (e 6) (e 5) /\ ~ joined eeq s' (e 6) (e 1) /\ joined eeq s' (e 1) (e 4) /\
  close eeq ds_a (e 1) (e 3).
Proof. vm_compute. repeat split; try discriminate. right. reflexivity. Qed.

(** ** C66 *)
(** A clone answers every later history without iteration as the original
    would (iteration returns the clones of the elements, see C55). *)
Theorem c66_clone_behaves_like_the_original : forall K (eqb : K -> K -> bool) cl E s ops,
  eq_laws eqb -> (forall k, eqb (cl k) k = true) -> (forall p q, ~ In (OIter p q) ops) ->
  snd (ds_run eqb E ops (ds_clone cl s)) = snd (ds_run eqb E ops s).
Proof.
  exact (fun K eqb cl E s ops L CL N => copies_run L E ops (clone_copies L cl s CL) N).
Qed.
Print Assumptions c66_clone_behaves_like_the_original.

(** iterating over a clone yields the clones of the sets, for hash orders that
    treat both maps alike *)
Theorem c66_clone_iterates_clones : forall K (eqb : K -> K -> bool) cl E s order pick order' pick' s' ss,
  (forall l, order' (map (fun p => (cl (fst p), snd p)) l) = map (fun p => (cl (fst p), snd p)) (order l)) ->
  (forall l, pick' (map (fun p => (fst p, map cl (snd p))) l) = map (fun p => (fst p, map cl (snd p))) (pick l)) ->
  ds_step eqb E (OIter order pick) s = (s', Ret (RSets ss)) ->
  ds_step eqb E (OIter order' pick') (ds_clone cl s) = (ds_clone cl s', Ret (RSets (map (map cl) ss))).
Proof. exact clone_iter. Qed.
Print Assumptions c66_clone_iterates_clones.

Example c66_ex : ds_clone ecl ds_a <> ds_a /\
  snd (ds_step eeq Ed (OIter (@rev _) (@rev _)) (ds_clone ecl ds_a)) =
    Ret (RSets [[(1, 0); (2, 0); (3, 0); (4, 0)]; [(5, 0)]]).
Proof. vm_compute. split; [discriminate|reflexivity]. Qed.
Example c66_ex_orders : forall l : list (elt * nat),
  rev (map (fun p => (ecl (fst p), snd p)) l) = map (fun p => (ecl (fst p), snd p)) (rev l).
Proof. intros l. now rewrite map_rev. Qed.
