(** Property theorem C79: the disjoint set and panicking user code. *)
From Coq Require Import Permutation NArith.
From Verif Require Import Base HMModel HMProofs UserSpec DSModel DSModel2 DSSpec DSRun DSProofs DSProofs2 DSProofs3 DSProofs4 DSProofs5 DSProps.
Local Open Scope outcome_scope.

(** ** C79 *)
(** [extend] with any iterator leaves a set all properties of reachable sets
    apply to; it holds the elements delivered before the panic, or those before
    the first one for which there is no room *)
Theorem c79_extend_with_panicking_iterator : forall K (eqb : K -> K -> bool) cl E hint evs s s' r,
  eq_laws eqb -> ranks_fit E -> (forall k, eqb (cl k) k = true) -> reachable eqb E cl s ->
  ds_extend_from eqb E hint evs s = (s', r) ->
  reachable eqb E cl s' /\
  ((s' = s /\ r = Panic /\ (hint = None \/ exists h, hint = Some h /\ alloc_max E < ds_len s + h)) \/
   (exists h, hint = Some h /\ ds_len s + h <= alloc_max E /\
     (grown eqb s (fst (delivered evs)) s' /\ r = (if snd (delivered evs) then Panic else Ret tt) \/
      exists ys z zs, fst (delivered evs) = ys ++ z :: zs /\ grown eqb s ys s' /\ r = Panic /\
        ds_contains eqb z s' = false /\ ds_len s' = alloc_max E))).
Proof.
  intros K eqb cl E hint evs s s' r L U CL R H. destruct (reachable_valid L U CL R) as [V S].
  split; [exact (extend_from_reach hint evs V S R H)|exact (extend_from_end L hint evs V S H)].
Qed.
Print Assumptions c79_extend_with_panicking_iterator.

Theorem c79_extend_by_reference : forall K (eqb : K -> K -> bool) E hint evs s,
  ds_extend_refs eqb E hint evs s = ds_extend_from eqb E hint evs s.
Proof. exact extend_refs_from. Qed.
Print Assumptions c79_extend_by_reference.

(** [from_iter] gives a set exactly when nothing panics and the different
    elements and the hint fit *)
Theorem c79_from_iter_with_panicking_iterator : forall K (eqb : K -> K -> bool) E hint evs,
  eq_laws eqb ->
  ((exists s, ds_from_iter_from eqb E hint evs = Ret s) <->
   (exists h, hint = Some h /\ h <= alloc_max E) /\ snd (delivered evs) = false /\
   length (firsts eqb (fst (delivered evs))) <= alloc_max E) /\
  (forall s, ds_from_iter_from eqb E hint evs = Ret s ->
    (forall x y, joined eqb s x y <-> mem eqb x (fst (delivered evs)) /\ eqb x y = true) /\
    (forall x, ds_contains eqb x s = true <-> mem eqb x (fst (delivered evs))) /\
    ds_len s = length (firsts eqb (fst (delivered evs)))).
Proof.
  exact (fun K eqb E hint evs L =>
    conj (@from_iter_from_iff K eqb L E hint evs) (fun s H => @from_iter_from_obs K eqb L E hint evs s H)).
Qed.
Print Assumptions c79_from_iter_with_panicking_iterator.

Theorem c79_from_iter_with_panicking_clone : forall K (eqb : K -> K -> bool) clone E hint evs,
  eq_laws eqb -> (forall k k', clone k = Some k' -> eqb k' k = true) ->
  ((exists s, ds_from_iter_refs eqb clone E hint evs = Ret s) <->
   (exists h, hint = Some h /\ h <= alloc_max E) /\ snd (delivered_clones clone evs) = false /\
   length (firsts eqb (fst (delivered_clones clone evs))) <= alloc_max E) /\
  (forall s, ds_from_iter_refs eqb clone E hint evs = Ret s ->
    (forall x y, joined eqb s x y <-> mem eqb x (fst (delivered_clones clone evs)) /\ eqb x y = true) /\
    (forall x, ds_contains eqb x s = true <-> mem eqb x (fst (delivered_clones clone evs))) /\
    ds_len s = length (firsts eqb (fst (delivered_clones clone evs)))).
Proof.
  exact (fun K eqb clone E hint evs L CL =>
    conj (@from_iter_refs_iff K eqb L E clone CL hint evs)
         (fun s H => @from_iter_refs_obs K eqb L E clone CL hint evs s H)).
Qed.
Print Assumptions c79_from_iter_with_panicking_clone.

(** clones of element 3 panic *)
Definition eclp (a : elt) : option elt := if fst a =? 3 then None else Some (ecl a).
Lemma eclp_eq k k' : eclp k = Some k' -> eeq k' k = true.
Proof. unfold eclp. destruct (fst k =? 3); [discriminate|]. intros [= <-]. apply ecl_eq. Qed.

Definition evs_p : list (option elt) := [Some (e 1); Some (e 9); None; Some (e 8)].
Example c79_ex : reachable eeq Ed ecl ds_a /\
  snd (ds_extend_from eeq Ed (Some 1) evs_p ds_a) = Panic /\
  ds_contains eeq (e 9) (fst (ds_extend_from eeq Ed (Some 1) evs_p ds_a)) = true /\
  ds_contains eeq (e 8) (fst (ds_extend_from eeq Ed (Some 1) evs_p ds_a)) = false /\
  ds_from_iter_from eeq Ed (Some 3) evs_p = Panic /\
  ds_from_iter_refs eeq eclp Ed (Some 3) [Some (e 1); Some (e 3)] = Panic /\
  exists s, ds_from_iter_refs eeq eclp Ed (Some 3) [Some (e 1); Some (e 2); Some (e' 1)] = Ret s /\ ds_len s = 2.
Proof.
  split; [apply run_reach; [apply r_new|apply no_iter_ok; reflexivity]|].
  repeat split. exists (DSet [((2, 0), 1); ((1, 0), 0)] [Data 0 0%N; Data 1 0%N]). split; reflexivity.
Qed.
