(** More of src/counter/counter.rs: iterators and clones that panic.

    What the user's code does is given by data: the lower bound of
    [size_hint()] is [Some hint], or [None] for a panic; each call of [next]
    is an element of a list, [Some k] yielding [k] and [None] panicking, the
    iterator being exhausted at the end of the list; a clone is [Some k'] or,
    for a panic, [None]. *)
From Verif Require Import Base HMModel CTModel.
Local Open Scope outcome_scope.
Set Implicit Arguments.

Section Model.
Variable K : Type.
(** [T: Eq] of the key type *)
Variable eqb : K -> K -> bool.
(** [T: Clone] of the key type *)
Variable clone : K -> option K.
Variable E : machine.

(** [for key in iter { self.push(key); }], counter.rs:245-247 and 316-318. *)
Fixpoint ct_push_from (evs : list (option K)) (c : counter K) : counter K * outcome unit :=
  match evs with
  | [] => (c, Ret tt)
  | None :: _ => (c, Panic)
  | Some key :: evs' =>
      match ct_push eqb E key c with
      | (c', Ret _) => ct_push_from evs' c'
      | (c', o) => (c', o)
      end
  end.

(** the iterator [iter.map(|ref key| key.clone())], counter.rs:261. *)
Definition cloned (evs : list (option K)) : list (option K) :=
  map (fun ev => match ev with Some key => clone key | None => None end) evs.

(** counter.rs:242-249 [FromIterator<T>::from_iter] from any iterator. *)
Definition ct_from_iter_from (hint : option nat) (evs : list (option K)) : outcome (counter K) :=
  match hint with
  | Some h => let* c := ct_with_capacity K E h in finish (ct_push_from evs c)
  | None => Panic
  end.

(** counter.rs:258-265 [FromIterator<&T>::from_iter] from any iterator. *)
Definition ct_from_iter_refs (hint : option nat) (evs : list (option K)) : outcome (counter K) :=
  match hint with
  | Some h => let* c := ct_with_capacity K E h in finish (ct_push_from (cloned evs) c)
  | None => Panic
  end.

(** counter.rs:313-319 [Extend<T>::extend] from any iterator. *)
Definition ct_extend_from (hint : option nat) (evs : list (option K)) (c : counter K)
  : counter K * outcome unit :=
  match hint with
  | Some h =>
      match hm_reserve E h (ct_map c) with
      | Ret _ => ct_push_from evs c
      | _ => (c, Panic)
      end
  | None => (c, Panic)
  end.

(** counter.rs:328-334 [Extend<&T>::extend] from any iterator; the copy
    [|&key| key] cannot panic. *)
Definition ct_extend_refs (hint : option nat) (evs : list (option K)) (c : counter K)
  : counter K * outcome unit :=
  match hint with
  | Some h =>
      match hm_reserve E h (ct_map c) with
      | Ret _ => ct_push_from (map (option_map (fun key => key)) evs) c
      | _ => (c, Panic)
      end
  | None => (c, Panic)
  end.

(** the body of the loop of counter.rs:379-381 and 406-408 *)
Definition ct_bump_clone (e : K * nat) (c : counter K) : counter K * outcome unit :=
  match clone (fst e) with
  | Some key => ct_bump eqb E key (snd e) c
  | None => (c, Panic)
  end.

(** counter.rs:378-382 [AddAssign<&Counter>]; [rhs] as in [CTModel]. *)
Definition ct_add_assign_refs (rhs : hmap K nat) (c : counter K) : counter K * outcome unit :=
  for_each ct_bump_clone rhs c.

(** counter.rs:405-410 [Add<&Counter>]. *)
Definition ct_add_refs (c : counter K) (rhs : hmap K nat) : outcome (counter K) :=
  finish (for_each ct_bump_clone rhs c).

(** the body of the loop of counter.rs:445-459 and 484-498 *)
Definition ct_lower_clone (e : K * nat) (c : counter K) : counter K * outcome unit :=
  match clone (fst e) with
  | Some key => ct_lower eqb E key (snd e) c
  | None => (c, Panic)
  end.

(** counter.rs:444-460 [SubAssign<&Counter>]. *)
Definition ct_sub_assign_refs (rhs : hmap K nat) (c : counter K) : counter K * outcome unit :=
  for_each ct_lower_clone rhs c.

(** counter.rs:483-500 [Sub<&Counter>]. *)
Definition ct_sub_refs (c : counter K) (rhs : hmap K nat) : outcome (counter K) :=
  finish (for_each ct_lower_clone rhs c).

End Model.
