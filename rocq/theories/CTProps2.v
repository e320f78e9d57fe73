(** Property theorems C78 and C80 (the counter and panicking user code) and
    exact conditions for C47, C49 and C65. *)
From Coq Require Import Permutation.
From Verif Require Import Base HMModel UserSpec CTModel CTModel2 CTSpec CTSpec2 CTRun CTProofs CTProofs2 CTProofs3 CTProofs4 CTProofs5 CTProofs6 CTProps.
Local Open Scope outcome_scope.

(** ** C47 *)
(** the first element returned is a most common one; nothing is left out *)
Theorem c47_first_is_most_common : forall K (eqb : K -> K -> bool) cl E c,
  eq_laws eqb -> ct_valid eqb E c ->
  (forall k n r, ct_into_most_common E c ((k, n) :: r) ->
     ct_get eqb c k = Some n /\ forall x, opt_count (ct_get eqb c x) <= n) /\
  (forall r1 r2, ct_into_most_common E c r1 -> ct_most_common cl E c r2 ->
     length r1 = ct_len c /\ length r2 = ct_len c).
Proof.
  exact (fun K eqb cl E c L V =>
    conj (fun k n r H => @most_common_front K eqb L E c k n r V H)
         (fun r1 r2 H1 H2 => @most_common_length K eqb L E cl c r1 r2 V H1 H2)).
Qed.
Print Assumptions c47_first_is_most_common.

(** ** C49 *)
(** release builds in full: [push] adds one, a count at [usize::MAX] becoming 0;
    it panics exactly for a new key when the table is full *)
Theorem c49_release_counts_wrap_partial : forall K (eqb : K -> K -> bool) E k c,
  eq_laws eqb -> 1 <= usize_max E -> debug_build E = false -> ct_valid eqb E c ->
  (ct_push eqb E k c = (c, Panic) /\ ct_get eqb c k = None /\ ct_len c = alloc_max E) \/
  (exists c', ct_push eqb E k c = (c', Ret tt) /\ ct_valid eqb E c' /\
     ct_get eqb c' k = Some (if opt_count (ct_get eqb c k) =? usize_max E then 0
                             else S (opt_count (ct_get eqb c k))) /\
     forall x, eqb x k = false -> ct_get eqb c' x = ct_get eqb c x).
Proof. exact (fun K eqb E k c L U => @push_release K eqb L E U k c). Qed.
Print Assumptions c49_release_counts_wrap_partial.

Example c49_ex_release : ct_valid keq Ecr (Counter [((1, 10), 255); ((2, 0), 4)]) /\
  ct_push keq Ecr (1, 0) (Counter [((1, 10), 255); ((2, 0), 4)]) = (Counter [((1, 10), 0); ((2, 0), 4)], Ret tt) /\
  ct_push keq Ecr (2, 9) (Counter [((1, 10), 255); ((2, 0), 4)]) = (Counter [((1, 10), 255); ((2, 0), 5)], Ret tt).
Proof.
  split; [|split; reflexivity].
  split; [split; repeat constructor|]; apply Nat.leb_le; reflexivity.
Qed.

(** ** C65 *)
(** when counting succeeds: the size hint fits, the different elements fit, and
    in debug builds no count exceeds [usize::MAX] *)
Theorem c65_from_iter_succeeds_exactly_partial : forall K (eqb : K -> K -> bool) E hint xs,
  eq_laws eqb -> 1 <= usize_max E ->
  ((exists c, ct_from_iter eqb E hint xs = Ret c) <->
   hint <= alloc_max E /\ (exists n, has_distinct eqb xs n /\ n <= alloc_max E) /\
   (debug_build E = true -> forall x, occ eqb x xs <= usize_max E)).
Proof. exact (fun K eqb E h xs L U => @from_iter_exact K eqb L E U h xs). Qed.
Print Assumptions c65_from_iter_succeeds_exactly_partial.

Theorem c65_extend_succeeds_exactly_partial : forall K (eqb : K -> K -> bool) E hint xs c,
  eq_laws eqb -> 1 <= usize_max E -> ct_valid eqb E c ->
  ((exists c', ct_extend eqb E hint xs c = (c', Ret tt)) <->
   ct_len c + hint <= alloc_max E /\
   (exists n, has_distinct eqb (map fst (ct_map c) ++ xs) n /\ n <= alloc_max E) /\
   (debug_build E = true -> forall x, opt_count (ct_get eqb c x) + occ eqb x xs <= usize_max E)).
Proof. exact (fun K eqb E h xs c L U => @extend_exact K eqb L E U h xs c). Qed.
Print Assumptions c65_extend_succeeds_exactly_partial.

Example c65_ex_exact : ct_from_iter keq Ec 2 word = Ret (Counter [((3, 30), 1); ((2, 20), 2); ((1, 10), 3)]) /\
  has_distinct keq word 3 /\ ct_from_iter keq (Machine 2 16 true) 2 word = Panic /\
  ct_from_iter keq (Machine 2 16 false) 2 word = Ret (Counter [((3, 30), 1); ((2, 20), 2); ((1, 10), 0)]) /\
  ct_from_iter keq (Machine 255 2 true) 2 word = Panic.
Proof.
  split; [reflexivity|]. split.
  - exists [(1, 0); (2, 0); (3, 0)]. split; [repeat constructor|]. split; [reflexivity|].
    intros x. unfold keq, word; cbn. split.
    + intros (k & [<-|[<-|[<-|[]]]] & H); [exists (1, 10)|exists (2, 20)|exists (3, 30)]; cbn; auto 10.
    + intros (k & [<-|[<-|[<-|[<-|[<-|[<-|[]]]]]]] & H);
        [exists (1, 0)|exists (2, 0)|exists (1, 0)|exists (3, 0)|exists (1, 0)|exists (2, 0)]; cbn; auto.
  - repeat split; reflexivity.
Qed.

(** ** C78: a panic of the user's iterator or clone *)
(** [extend] with any iterator: the counter stays usable; the items counted are
    those delivered before the panic, or a prefix of them ending at an item that
    cannot be counted *)
Theorem c78_extend_with_panicking_iterator : forall K (eqb : K -> K -> bool) E hint evs c c' r,
  eq_laws eqb -> 1 <= usize_max E -> ct_valid eqb E c ->
  ct_extend_from eqb E hint evs c = (c', r) ->
  ct_valid eqb E c' /\
  extension eqb E hint (fst (delivered evs)) (snd (delivered evs))
    (ct_get eqb c) (ct_len c) (ct_get eqb c') (ct_len c') r.
Proof. exact (fun K eqb E h evs c c' r L U => @extend_from_end K eqb L E U h evs c c' r). Qed.
Print Assumptions c78_extend_with_panicking_iterator.

(** by reference (the items are copied) it is the same function *)
Theorem c78_extend_by_reference : forall K (eqb : K -> K -> bool) E hint evs c,
  ct_extend_refs eqb E hint evs c = ct_extend_from eqb E hint evs c.
Proof. exact extend_refs_from. Qed.
Print Assumptions c78_extend_by_reference.

(** [from_iter] gives a counter exactly when neither iterator nor size hint
    panics and the items can be counted; no half-filled counter is seen *)
Theorem c78_from_iter_with_panicking_iterator : forall K (eqb : K -> K -> bool) E hint evs,
  eq_laws eqb -> 1 <= usize_max E ->
  ((exists c, ct_from_iter_from eqb E hint evs = Ret c) <->
   (exists h, hint = Some h /\ h <= alloc_max E) /\ snd (delivered evs) = false /\
   (exists n, has_distinct eqb (fst (delivered evs)) n /\ n <= alloc_max E) /\
   (debug_build E = true -> forall x, occ eqb x (fst (delivered evs)) <= usize_max E)).
Proof.
  intros K eqb E hint evs L U. rewrite (@from_iter_from_exact K eqb E hint evs).
  rewrite (@from_iter_exact K eqb L E U 0 (fst (delivered evs))).
  split; [intros (A & B & _ & C & D)|intros (A & B & C & D)]; repeat split; auto. lia.
Qed.
Print Assumptions c78_from_iter_with_panicking_iterator.

(** by reference, with clones that may panic *)
Theorem c78_from_iter_with_panicking_clone : forall K (eqb : K -> K -> bool) clone E hint evs,
  eq_laws eqb -> 1 <= usize_max E -> (forall k k', clone k = Some k' -> eqb k' k = true) ->
  ((exists c, ct_from_iter_refs eqb clone E hint evs = Ret c) <->
   (exists h, hint = Some h /\ h <= alloc_max E) /\ snd (delivered_clones clone evs) = false /\
   (exists n, has_distinct eqb (fst (delivered_clones clone evs)) n /\ n <= alloc_max E) /\
   (debug_build E = true -> forall x, occ eqb x (fst (delivered_clones clone evs)) <= usize_max E)) /\
  (forall c, ct_from_iter_refs eqb clone E hint evs = Ret c ->
     ct_valid eqb E c /\
     forall x, ct_get eqb c x = counted_on eqb E (fun _ => None) (fst (delivered_clones clone evs)) x).
Proof.
  intros K eqb clone E hint evs L U CL. split.
  - rewrite (@from_iter_refs_exact K eqb L E U clone CL hint evs).
    rewrite (@from_iter_exact K eqb L E U 0 (fst (delivered_clones clone evs))).
    split; [intros (A & B & _ & C & D)|intros (A & B & C & D)]; repeat split; auto. lia.
  - intros c H. exact (@from_iter_refs_counts K eqb L E U clone CL hint evs c H).
Qed.
Print Assumptions c78_from_iter_with_panicking_clone.

(** clones of key 3 panic *)
Definition kclp (a : key) : option key := if fst a =? 3 then None else Some (kcl a).
Lemma kclp_eq k k' : kclp k = Some k' -> keq k' k = true.
Proof. unfold kclp. destruct (fst k =? 3); [discriminate|]. intros [= <-]. apply kcl_eq. Qed.

Example c78_ex : ct_extend_from keq Ec (Some 4) [Some (1, 5); Some (7, 7); None; Some (2, 0)] ca =
    (Counter [((7, 7), 1); ((3, 30), 1); ((2, 20), 2); ((1, 10), 4)], Panic) /\
  delivered [Some (1, 5); Some (7, 7); None; Some (2, 0)] = ([(1, 5); (7, 7)], true) /\
  ct_from_iter_from keq Ec (Some 4) [Some (1, 5); Some (7, 7); None; Some (2, 0)] = Panic /\
  ct_from_iter_refs keq kclp Ec (Some 4) [Some (1, 5); Some (7, 7); Some (3, 3); Some (2, 0)] = Panic /\
  ct_from_iter_refs keq kclp Ec (Some 4) [Some (1, 5); Some (7, 7); Some (1, 3)] =
    Ret (Counter [((7, 0), 1); ((1, 0), 2)]).
Proof. repeat split; reflexivity. Qed.

(** ** C80: a panicking clone during [+=] and [-=] by reference *)
(** [l]: the entries of the right operand in the order met.  All entries before
    the one whose clone panics (or which finds no room, or overflows in a debug
    build) are added completely, the others not at all. *)
Theorem c80_add_with_panicking_clone : forall K (eqb : K -> K -> bool) clone E a b l c r,
  eq_laws eqb -> (forall k k', clone k = Some k' -> eqb k' k = true) ->
  ct_valid eqb E a -> ct_valid eqb E b -> ct_into_iter b l ->
  ct_add_assign_refs eqb clone E l a = (c, r) ->
  ct_valid eqb E c /\
  ((forall e, In e l -> clone (fst e) <> None) /\ r = Ret tt /\
     (forall x, ct_get eqb c x = added_on eqb E (ct_get eqb a) l x) \/
   exists l1 e l2, l = l1 ++ e :: l2 /\ r = Panic /\
     (forall x, ct_get eqb c x = added_on eqb E (ct_get eqb a) l1 x) /\
     (forall e, In e l1 -> clone (fst e) <> None) /\
     (clone (fst e) = None \/
      debug_build E = true /\ usize_max E < opt_count (ct_get eqb c (fst e)) + snd e \/
      ct_get eqb c (fst e) = None /\ ct_len c = alloc_max E)).
Proof.
  intros K eqb clone E a b l c r L CL Va Vb P H.
  destruct (iterates_content L Vb P) as [D F].
  destruct (@add_refs_end K eqb L E clone CL l a Va F) as (c' & r' & H' & V' & A).
  rewrite H in H'. injection H' as <- <-. split; auto.
  destruct A as [(A1 & A2 & A3)|(l1 & e & l2 & A1 & A2 & A3 & A4 & A5)]; [left; auto|].
  right. exists l1, e, l2. auto.
Qed.
Print Assumptions c80_add_with_panicking_clone.

(** the same for subtraction; the only other panic is that of an absent key
    looked up in a completely full table *)
Theorem c80_sub_with_panicking_clone : forall K (eqb : K -> K -> bool) clone E a b l c r,
  eq_laws eqb -> (forall k k', clone k = Some k' -> eqb k' k = true) ->
  ct_valid eqb E a -> ct_valid eqb E b -> ct_into_iter b l ->
  ct_sub_assign_refs eqb clone E l a = (c, r) ->
  ct_valid eqb E c /\
  ((forall e, In e l -> clone (fst e) <> None) /\ r = Ret tt /\
     (forall x, ct_get eqb c x = taken_off eqb (ct_get eqb a) l x) \/
   exists l1 e l2, l = l1 ++ e :: l2 /\ r = Panic /\
     (forall x, ct_get eqb c x = taken_off eqb (ct_get eqb a) l1 x) /\
     (forall e, In e l1 -> clone (fst e) <> None) /\
     (clone (fst e) = None \/ ct_get eqb a (fst e) = None /\ ct_len c = alloc_max E)).
Proof.
  intros K eqb clone E a b l c r L CL Va Vb P H.
  destruct (iterates_content L Vb P) as [D F].
  destruct (@sub_refs_end K eqb L E clone CL l a Va D) as (c' & r' & H' & V' & A).
  rewrite H in H'. injection H' as <- <-. split; auto.
  destruct A as [(A1 & A2 & A3)|(l1 & e & l2 & A1 & A2 & A3 & A4 & A5)]; [left; auto|].
  right. exists l1, e, l2. auto.
Qed.
Print Assumptions c80_sub_with_panicking_clone.

(** [+] and [-] by reference: they give the pointwise result, or panic because of
    a key that cannot be cloned, a count that overflows or want of room *)
Theorem c80_operators_with_panicking_clone : forall K (eqb : K -> K -> bool) clone E a b l,
  eq_laws eqb -> (forall k k', clone k = Some k' -> eqb k' k = true) ->
  ct_valid eqb E a -> ct_valid eqb E b -> ct_into_iter b l ->
  match ct_add_refs eqb clone E a l with
  | Ret c => ct_valid eqb E c /\ (forall e, In e l -> clone (fst e) <> None) /\
      (forall x, ct_get eqb c x = added_on eqb E (ct_get eqb a) l x)
  | Panic => exists l1 e l2, l = l1 ++ e :: l2 /\
      (clone (fst e) = None \/
       debug_build E = true /\ usize_max E < opt_count (added_on eqb E (ct_get eqb a) l1 (fst e)) + snd e \/
       added_on eqb E (ct_get eqb a) l1 (fst e) = None)
  | _ => False
  end /\
  match ct_sub_refs eqb clone E a l with
  | Ret c => ct_valid eqb E c /\ (forall e, In e l -> clone (fst e) <> None) /\
      (forall x, ct_get eqb c x = taken_off eqb (ct_get eqb a) l x)
  | Panic => exists e, In e l /\ (clone (fst e) = None \/ ct_get eqb a (fst e) = None)
  | _ => False
  end.
Proof.
  intros K eqb clone E a b l L CL Va Vb P. change (ct_add_refs eqb clone E a l) with (finish (ct_add_assign_refs eqb clone E l a)).
  change (ct_sub_refs eqb clone E a l) with (finish (ct_sub_assign_refs eqb clone E l a)). split.
  - destruct (ct_add_assign_refs eqb clone E l a) as [c r] eqn:H.
    destruct (c80_add_with_panicking_clone _ _ _ _ _ _ _ _ _ L CL Va Vb P H) as [V [(A & -> & B)|(l1 & e & l2 & -> & -> & A & _ & B)]]; cbn.
    + auto.
    + exists l1, e, l2. split; auto. rewrite <- A. destruct B as [B|[B|[B _]]]; auto.
  - destruct (ct_sub_assign_refs eqb clone E l a) as [c r] eqn:H.
    destruct (c80_sub_with_panicking_clone _ _ _ _ _ _ _ _ _ L CL Va Vb P H) as [V [(A & -> & B)|(l1 & e & l2 & -> & -> & _ & _ & B)]]; cbn.
    + auto.
    + exists e. split; [apply in_elt|]. destruct B as [B|[B _]]; auto.
Qed.
Print Assumptions c80_operators_with_panicking_clone.

Example c80_ex : ct_add_assign_refs keq kclp Ec [((4, 40), 5); ((1, 13), 7); ((3, 0), 1); ((2, 0), 1)] ca =
    (Counter [((4, 0), 5); ((3, 30), 1); ((2, 20), 2); ((1, 10), 10)], Panic) /\
  ct_sub_assign_refs keq kclp Ec [((1, 13), 2); ((2, 40), 5); ((3, 0), 1)] ca =
    (Counter [((3, 30), 1); ((1, 10), 1)], Panic) /\
  ct_add_refs keq kclp Ec ca [((3, 0), 1)] = Panic.
Proof. repeat split; reflexivity. Qed.
