(** Property theorem C85: the disjoint set and elements whose [Hash], [Eq] or
    destructor panics. *)
From Coq Require Import Permutation NArith.
From Verif Require Import Base HMModel HMProofs UserSpec2 DSModel DSModel3 DSSpec DSRun DSProofs DSProofs2 DSProofs3 DSProofs4 DSProofs5 DSProofs6 DSProps.
Local Open Scope outcome_scope.

(** ** C85 *)
(** whether there is room for one more element *)
Definition is_full {K} (E : machine) (s : dset K) : bool := ds_len s =? alloc_max E.

(** [make_set] returns, panics or aborts exactly as [adding] says; it either
    does what it does for well-behaved elements or nothing *)
Theorem c85_make_set : forall K (eqb : K -> K -> bool) hp dp cl E x s s' r,
  eq_laws eqb -> ranks_fit E -> (forall k, eqb (cl k) k = true) -> reachable eqb E cl s ->
  ds_make_set_u eqb hp dp E x s = (s', r) ->
  reachable eqb E cl s' /\ r = adding (hp (ds_ids s)) dp (ds_contains eqb x s) (is_full E s) x /\
  ((r = Ret tt /\ ds_make_set eqb E x s = (s', Ret tt)) \/ (r <> Ret tt /\ s' = s)).
Proof.
  intros K eqb hp dp cl E x s s' r L U CL R H. destruct (reachable_valid L U CL R) as [V S].
  split; [exact (make_set_u_reach _ _ _ V R H)|exact (make_set_u_end _ _ x V H)].
Qed.
Print Assumptions c85_make_set.

(** [union]: nothing, only the first element added, or all of it; a panic with
    the first element drops the second *)
Theorem c85_union : forall K (eqb : K -> K -> bool) hp dp cl E a b s s' r,
  eq_laws eqb -> ranks_fit E -> (forall k, eqb (cl k) k = true) -> reachable eqb E cl s ->
  ds_union_u eqb hp dp E a b s = (s', r) ->
  reachable eqb E cl s' /\
  ((s' = s /\ adding (hp (ds_ids s)) dp (ds_contains eqb a s) (is_full E s) a = Panic /\ r = dropping dp [b]) \/
   (s' = s /\ adding (hp (ds_ids s)) dp (ds_contains eqb a s) (is_full E s) a = Abort /\ r = Abort) \/
   (adding (hp (ds_ids s)) dp (ds_contains eqb a s) (is_full E s) a = Ret tt /\
    ds_make_set eqb E a s = (s', Ret tt) /\ r <> Ret tt /\
    r = adding (hp (ds_ids s')) dp (ds_contains eqb b s') (is_full E s') b) \/
   (r = Ret tt /\ ds_union eqb E a b s = (s', Ret tt))).
Proof.
  intros K eqb hp dp cl E a b s s' r L U CL R H. destruct (reachable_valid L U CL R) as [V S].
  split; [exact (union_u_reach L _ _ _ _ V S R H)|exact (union_u_exact L _ _ U _ _ V S H)].
Qed.
Print Assumptions c85_union.

(** [extend] stops at the first element that panics *)
Theorem c85_extend : forall K (eqb : K -> K -> bool) hp rp dp cl E hint xs s s' r,
  eq_laws eqb -> ranks_fit E -> (forall k, eqb (cl k) k = true) -> reachable eqb E cl s ->
  ds_extend_u eqb hp rp dp E hint xs s = (s', r) ->
  reachable eqb E cl s' /\
  ((r = Ret tt /\ ds_extend eqb E hint xs s = (s', Ret tt)) \/
   (s' = s /\ r = Panic /\ (rp (ds_ids s) hint = true \/ alloc_max E < ds_len s + hint)) \/
   (r <> Ret tt /\ rp (ds_ids s) hint = false /\ ds_len s + hint <= alloc_max E /\ exists ys z zs, xs = ys ++ z :: zs /\
     r = adding (hp (ds_ids s')) dp (ds_contains eqb z s') (is_full E s') z /\ grown eqb s ys s')).
Proof.
  intros K eqb hp rp dp cl E hint xs s s' r L U CL R H. destruct (reachable_valid L U CL R) as [V S].
  exact (extend_u_end L _ _ _ hint xs V S R H).
Qed.
Print Assumptions c85_extend.

(** [in_union] panics exactly when an element that is looked up panics, and then
    changes nothing; the second is only looked up when the first is found *)
Theorem c85_questions : forall K (eqb : K -> K -> bool) hp a b s,
  ds_in_union_u eqb hp a b s =
    (if hp (ds_ids s) a || (ds_contains eqb a s && hp (ds_ids s) b) then (s, Panic) else ds_in_union eqb a b s).
Proof. exact in_union_u_end. Qed.
Print Assumptions c85_questions.

(** [clear] when no destructor panics *)
Theorem c85_clear_partial : forall K (dp : K -> bool) (left : hmap K nat) s,
  (forall k n, In (k, n) (ds_ids s) -> dp k = false) ->
  ds_clear_u dp left s = (ds_new K, Ret tt).
Proof.
  intros K dp left s H. unfold ds_clear_u. destruct (existsb (fun e => dp (fst e)) (ds_ids s)) eqn:Q; auto.
  apply existsb_exists in Q. destruct Q as ([k n] & I & Q). cbn in Q. rewrite (H k n I) in Q. discriminate.
Qed.
Print Assumptions c85_clear_partial.

(** destructor of element 4 panics; looking up element 7 panics, and element 8
    when it is compared with element 6; making room for many panics when element
    4 is stored *)
Definition edp (a : elt) : bool := fst a =? 4.
Definition ehp (m : hmap elt nat) (a : elt) : bool :=
  (fst a =? 7) || ((fst a =? 8) && existsb (fun e => fst (fst e) =? 6) m).
Definition erp (m : hmap elt nat) (n : nat) : bool := (4 <? n) && existsb (fun e => fst (fst e) =? 4) m.

Example c85_ex : reachable eeq Ed ecl ds_a /\
  (** a redundant element with a panicking destructor *)
  ds_make_set_u eeq ehp edp Ed (e' 4) ds_a = (ds_a, Panic) /\
  snd (ds_make_set_u eeq ehp edp Ed (e 6) ds_a) = Ret tt /\
  ds_union_u eeq ehp edp Ed (e 7) (e 4) ds_a = (ds_a, Abort) /\
  ds_union_u eeq ehp edp Ed (e 7) (e 1) ds_a = (ds_a, Panic) /\
  ds_len (fst (ds_union_u eeq ehp edp Ed (e 6) (e 7) ds_a)) = S (ds_len ds_a) /\
  snd (ds_union_u eeq ehp edp Ed (e 6) (e 7) ds_a) = Panic /\
  snd (ds_extend_u eeq ehp erp edp Ed 1 [e 1; e 6; e' 4; e 8] ds_a) = Panic /\
  ds_contains eeq (e 6) (fst (ds_extend_u eeq ehp erp edp Ed 1 [e 1; e 6; e' 4; e 8] ds_a)) = true /\
  snd (ds_extend_u eeq ehp erp edp (Machine 255 9 true) 1 [e 1; e 6; e 8; e 9] ds_a) = Panic /\
  snd (ds_extend_u eeq ehp erp edp (Machine 255 9 true) 1 [e 1; e 8; e 9; e 6] ds_a) = Ret tt /\
  ds_extend_u eeq ehp erp edp (Machine 255 20 true) 5 [e 1] ds_a = (ds_a, Panic) /\
  snd (ds_in_union_u eeq ehp (e 1) (e 7) ds_a) = Panic /\
  snd (ds_in_union_u eeq ehp (e 9) (e 7) ds_a) = Ret false.
Proof. split; [apply run_reach; [apply r_new|apply no_iter_ok; reflexivity]|]. repeat split. Qed.

(** A [clear] interrupted by a destructor does not forget the unions: elements
    added afterwards are in one set without ever having been united. *)
Theorem c85_clear_refuted : ~ (forall K (eqb : K -> K -> bool) dp cl E s s1 r,
  eq_laws eqb -> ranks_fit E -> (forall k, eqb (cl k) k = true) -> reachable eqb E cl s ->
  ds_clear_u dp [] s = (s1, r) ->
  forall x y s2, for_each (ds_make_set eqb E) [x; y] s1 = (s2, Ret tt) -> joined eqb s2 x y -> eqb x y = true).
Proof.
  intros H.
  assert (R : reachable eeq Ed ecl (fst (ds_run eeq Ed [OUnion (e 3) (e 4)] (ds_new elt)))).
  { apply run_reach; [apply r_new|apply no_iter_ok; reflexivity]. }
  specialize (H elt eeq edp ecl Ed _ _ _ eeq_laws Ed_fit ecl_eq R eq_refl (e 1) (e 2) _ eq_refl eq_refl).
  discriminate.
Qed.
Print Assumptions c85_clear_refuted.

(** Exactly what happens then, when the map is left empty as in today's std:
    the elements of the new set behave like those of the old one in the order
    of addition, again and again: the [i]th and [j]th new elements are in one
    set iff the old elements number [i] and [j] modulo the old size were. *)
Theorem c85_failed_clear_revives_the_unions : forall K (eqb : K -> K -> bool) hp dp E ops s tr,
  eq_laws eqb -> ranks_fit E -> Forall (@op_ok K) ops ->
  ds_run eqb E ops (ds_new K) = (s, tr) ->
  exists g, history eqb E ops empty_log g tr /\
    (forall x y, joined eqb s x y <-> together eqb g x y) /\
    forall s1 xs s2, ds_clear_u dp [] s = (s1, Panic) ->
      for_each (ds_make_set_u eqb hp dp E) xs s1 = (s2, Ret tt) ->
      ds_len s2 = length (firsts eqb xs) /\ (forall x, ds_contains eqb x s2 = true <-> mem eqb x xs) /\
      forall i j x y, nth_error (firsts eqb xs) i = Some x -> nth_error (firsts eqb xs) j = Some y ->
        exists a b, nth_error (firsts eqb (added g)) (i mod size eqb g) = Some a /\
          nth_error (firsts eqb (added g)) (j mod size eqb g) = Some b /\
          (joined eqb s2 x y <-> together eqb g a b).
Proof.
  exact (fun K eqb hp dp E ops s tr L U Ok H => failed_clear_exact L E hp dp U Ok H).
Qed.
Print Assumptions c85_failed_clear_revives_the_unions.

(** old sets {1,5}, {4}; new elements 11, 12, 13, 14: the first and third were
    united before, and the fourth takes the place of the first *)
Definition ops_c : list (op elt) := [OMake (e 1); OMake (e 4); OUnion (e 1) (e 5)].
Definition ds_c : dset elt := fst (ds_run eeq (Machine 255 9 true) ops_c (ds_new elt)).
Definition ds_c2 : dset elt :=
  fst (for_each (ds_make_set_u eeq ehp edp (Machine 255 9 true)) [e 11; e 12; e 13; e 14]
    (fst (ds_clear_u edp [] ds_c))).
Example c85_failed_clear_ex : snd (ds_clear_u edp [] ds_c) = Panic /\
  snd (for_each (ds_make_set_u eeq ehp edp (Machine 255 9 true)) [e 11; e 12; e 13; e 14]
    (fst (ds_clear_u edp [] ds_c))) = Ret tt /\
  joined eeq ds_c2 (e 11) (e 13) /\ ~ joined eeq ds_c2 (e 11) (e 12) /\ joined eeq ds_c2 (e 14) (e 11) /\
  (** with an old std that leaves the entry of 5 in the map *)
  (let s1 := fst (ds_clear_u edp [(e 5, 2)] ds_c) in
   let s2 := fst (for_each (ds_make_set eeq (Machine 255 9 true)) [e 11; e 12] s1) in
   joined eeq s2 (e 12) (e 5)).
Proof. repeat split. discriminate. Qed.
