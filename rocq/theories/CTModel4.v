(** Model of the calls of src/counter/counter.rs that look up several keys, for
    key types whose [Eq] and [Hash] may answer otherwise at every lookup: each
    item comes with the relation by which its lookup is answered
    ([asks k k' = true]: the stored key [k'] answers to [k]).  One lookup finds
    one entry or none, so nothing more general can happen.  Calls with a single
    lookup are those of [CTModel], under the relation of that lookup. *)
From Coq Require Import Permutation.
From Verif Require Import Base HMModel CTModel.
Local Open Scope outcome_scope.
Set Implicit Arguments.

Section Model.
Variable K : Type.
(** [T: Clone] of the key type *)
Variable cl : K -> K.
Variable E : machine.

(** the answers to one lookup *)
Definition asks : Type := K -> K -> bool.

(** counter.rs:246-248, 262-264, 317 and 332, the body of the loops:
    [push] of one item. *)
Definition ct_push_q (x : asks * K) (c : counter K) : counter K * outcome unit :=
  ct_push (fst x) E (snd x) c.

(** counter.rs:262-264, the clone of a borrowed item; which entry answers to it
    is decided when it is looked up. *)
Definition clone_item (x : asks * K) : asks * K := (fst x, cl (snd x)).

(** counter.rs:242-249 [FromIterator<T>::from_iter]. *)
Definition ct_from_iter_q (hint : nat) (xs : list (asks * K)) : outcome (counter K) :=
  let* c := ct_with_capacity K E hint in
  finish (for_each ct_push_q xs c).

(** counter.rs:258-265 [FromIterator<&T>::from_iter]. *)
Definition ct_from_iter_ref_q (hint : nat) (xs : list (asks * K)) : outcome (counter K) :=
  let* c := ct_with_capacity K E hint in
  finish (for_each ct_push_q (map clone_item xs) c).

(** counter.rs:313-319 [Extend<T>::extend]. *)
Definition ct_extend_q (hint : nat) (xs : list (asks * K)) (c : counter K) : counter K * outcome unit :=
  match hm_reserve E hint (ct_map c) with
  | Ret _ => for_each ct_push_q xs c
  | _ => (c, Panic)
  end.

(** counter.rs:328-334 [Extend<&T>::extend] ([T: Copy]). *)
Definition ct_extend_ref_q (hint : nat) (xs : list (asks * K)) (c : counter K) : counter K * outcome unit :=
  match hm_reserve E hint (ct_map c) with
  | Ret _ => for_each ct_push_q (map (fun x => x) xs) c
  | _ => (c, Panic)
  end.

(** counter.rs:365-369 [AddAssign<Counter>]; [rhs]: the entries of the right
    operand in the order of the iteration, each with the answers to its lookup
    (likewise below). *)
Definition ct_add_assign_q (rhs : list (asks * (K * nat))) (c : counter K) : counter K * outcome unit :=
  for_each (fun e => ct_bump (fst e) E (fst (snd e)) (snd (snd e))) rhs c.

(** counter.rs:378-382 [AddAssign<&Counter>]. *)
Definition ct_add_assign_ref_q (rhs : list (asks * (K * nat))) (c : counter K) : counter K * outcome unit :=
  for_each (fun e => ct_bump (fst e) E (cl (fst (snd e))) (snd (snd e))) rhs c.

(** counter.rs:392-395 [Add<Counter>]. *)
Definition ct_add_q (c : counter K) (rhs : list (asks * (K * nat))) : outcome (counter K) :=
  finish (ct_add_assign_q rhs c).

(** counter.rs:405-410 [Add<&Counter>]. *)
Definition ct_add_ref_q (c : counter K) (rhs : list (asks * (K * nat))) : outcome (counter K) :=
  finish (for_each (fun e => ct_bump (fst e) E (cl (fst (snd e))) (snd (snd e))) rhs c).

(** counter.rs:419-435 [SubAssign<Counter>]. *)
Definition ct_sub_assign_q (rhs : list (asks * (K * nat))) (c : counter K) : counter K * outcome unit :=
  for_each (fun e => ct_lower (fst e) E (fst (snd e)) (snd (snd e))) rhs c.

(** counter.rs:444-460 [SubAssign<&Counter>]. *)
Definition ct_sub_assign_ref_q (rhs : list (asks * (K * nat))) (c : counter K) : counter K * outcome unit :=
  for_each (fun e => ct_lower (fst e) E (cl (fst (snd e))) (snd (snd e))) rhs c.

(** counter.rs:470-473 [Sub<Counter>]. *)
Definition ct_sub_q (c : counter K) (rhs : list (asks * (K * nat))) : outcome (counter K) :=
  finish (ct_sub_assign_q rhs c).

(** counter.rs:483-500 [Sub<&Counter>]. *)
Definition ct_sub_ref_q (c : counter K) (rhs : list (asks * (K * nat))) : outcome (counter K) :=
  finish (for_each (fun e => ct_lower (fst e) E (cl (fst (snd e))) (snd (snd e))) rhs c).

(** std [HashMap::from_iter], as [hm_collect] of [CTModel]. *)
Definition hm_collect_q (l : list (asks * (K * nat))) : hmap K nat * outcome unit :=
  match hm_reserve E (length l) (@nil (K * nat)) with
  | Ret _ => for_each (fun e m => match hm_insert (fst e) E (fst (snd e)) (snd (snd e)) m with
                                  | (m', Ret _) => (m', Ret tt)
                                  | (m', _) => (m', Panic)
                                  end) l []
  | _ => ([], Panic)
  end.

(** counter.rs:516-520 [From<HashMap>]; [rhs] in iteration order. *)
Definition ct_from_q (rhs : list (asks * (K * nat))) : outcome (counter K) :=
  match hm_collect_q rhs with (m, o) => let* _ := o in Ret (Counter m) end.

(** counter.rs:529-533 [From<&HashMap>]; [rhs] in iteration order. *)
Definition ct_from_ref_q (rhs : list (asks * (K * nat))) : outcome (counter K) :=
  match hm_collect_q (map (fun e => (fst e, (cl (fst (snd e)), snd (snd e)))) rhs) with
  | (m, o) => let* _ := o in Ret (Counter m)
  end.

End Model.
