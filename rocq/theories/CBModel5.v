(** More of src/circular_buffer: the comparisons of buffers as the questions they
    ask about elements.  A comparison of elements is user code: it may panic, and
    nothing makes it answer the same twice.  Nothing is assumed about the answers.

    Simplifications: the elements of both buffers are looked at before the first
    question (the iterators of the source read them one by one; nothing else looks
    at the buffers meanwhile); what is inside a [Cell] of an element is part of how
    it answers. *)
From Verif Require Import Base CBModel.
Local Open Scope outcome_scope.
Set Implicit Arguments.

Section Model.
Variable T : Type.

(** A comparison in progress (circular.rs:870-917): it is over, or asks the
    elements for one comparison ([==], [partial_cmp] or [cmp], answered by an [A])
    and goes on with the answer *)
Inductive talk (A R : Type) : Type :=
| Over (r : outcome R)
| Query (x y : T) (next : A -> talk A R).
Arguments Over {A R} r.
Arguments Query {A R} x y next.

(** applying a function to the result (the operators [!=], [<], ... of std, from
    circular.rs:870-904) *)
Fixpoint talk_map {A R S} (f : R -> S) (d : talk A R) : talk A S :=
  match d with
  | Over o => Over (omap f o)
  | Query x y next => Query x y (fun a => talk_map f (next a))
  end.

(** [Iterator::eq] of std (used at circular.rs:875, 884, 893).  Newer versions
    compare the lengths first if both are known ([early]). *)
Fixpoint iter_eq_from (a b : list T) : talk bool bool :=
  match a, b with
  | [], [] => Over (Ret true)
  | x :: a', y :: b' => Query x y (fun r : bool => if r then iter_eq_from a' b' else Over (Ret false))
  | _, _ => Over (Ret false)
  end.
(** the same (circular.rs:875, 884, 893) with the lengths compared before, or not *)
Definition iter_eq_d (early : bool) (a b : list T) : talk bool bool :=
  if early && negb (length a =? length b) then Over (Ret false) else iter_eq_from a b.

(** [Iterator::cmp] of std (used at circular.rs:915). *)
Fixpoint iter_cmp_d (a b : list T) : talk comparison comparison :=
  match a, b with
  | [], [] => Over (Ret Eq)
  | [], _ :: _ => Over (Ret Lt)
  | _ :: _, [] => Over (Ret Gt)
  | x :: a', y :: b' => Query x y (fun r : comparison => match r with Eq => iter_cmp_d a' b' | r => Over (Ret r) end)
  end.

(** [Iterator::partial_cmp] of std (used at circular.rs:902). *)
Fixpoint iter_partial_cmp_d (a b : list T) : talk (option comparison) (option comparison) :=
  match a, b with
  | [], [] => Over (Ret (Some Eq))
  | [], _ :: _ => Over (Ret (Some Lt))
  | _ :: _, [] => Over (Ret (Some Gt))
  | x :: a', y :: b' =>
      Query x y (fun r : option comparison => match r with Some Eq => iter_partial_cmp_d a' b' | r => Over (Ret r) end)
  end.

(** the elements of both buffers (circular.rs:388-392 [iter]), then [f] *)
Definition on_both {A R} (f : list T -> list T -> talk A R) (c d : cb T) : talk A R :=
  match (let* a := iter c in let* b := iter d in Ret (a, b)) with
  | Ret (a, b) => f a b
  | Panic => Over Panic
  | Abort => Over Abort
  | UB => Over UB
  | NoFuel => Over NoFuel
  end.

(** circular.rs:870-877 [PartialEq]. *)
Definition cb_eq_d (early : bool) (c d : cb T) : talk bool bool := on_both (iter_eq_d early) c d.
(** std: provided method [ne] of [PartialEq], from circular.rs:870-877 *)
Definition cb_ne_d (early : bool) (c d : cb T) : talk bool bool := talk_map negb (cb_eq_d early c d).

(** circular.rs:879-895 [PartialEq<[T]>] and [PartialEq<&[T]>]. *)
Definition cb_eq_slice_d (early : bool) (c : cb T) (s : list T) : talk bool bool :=
  match iter c with
  | Ret a => iter_eq_d early a s
  | Panic => Over Panic
  | Abort => Over Abort
  | UB => Over UB
  | NoFuel => Over NoFuel
  end.

(** circular.rs:897-904 [PartialOrd]. *)
Definition cb_partial_cmp_d (c d : cb T) : talk (option comparison) (option comparison) := on_both iter_partial_cmp_d c d.
(** std: provided method [lt] of [PartialOrd], from circular.rs:897-904 *)
Definition cb_lt_d (c d : cb T) : talk (option comparison) bool :=
  talk_map (fun r => match r with Some Lt => true | _ => false end) (cb_partial_cmp_d c d).
(** std: provided method [le] of [PartialOrd], from circular.rs:897-904 *)
Definition cb_le_d (c d : cb T) : talk (option comparison) bool :=
  talk_map (fun r => match r with Some Lt | Some Eq => true | _ => false end) (cb_partial_cmp_d c d).
(** std: provided method [gt] of [PartialOrd], from circular.rs:897-904 *)
Definition cb_gt_d (c d : cb T) : talk (option comparison) bool :=
  talk_map (fun r => match r with Some Gt => true | _ => false end) (cb_partial_cmp_d c d).
(** std: provided method [ge] of [PartialOrd], from circular.rs:897-904 *)
Definition cb_ge_d (c d : cb T) : talk (option comparison) bool :=
  talk_map (fun r => match r with Some Gt | Some Eq => true | _ => false end) (cb_partial_cmp_d c d).

(** circular.rs:911-917 [Ord]. *)
Definition cb_cmp_d (c d : cb T) : talk comparison comparison := on_both iter_cmp_d c d.
(** std: provided method [max] of [Ord], from circular.rs:911-917: which of the
    two is returned ([true]: the second) *)
Definition cb_max_d (c d : cb T) : talk comparison bool :=
  talk_map (fun r => match r with Gt => false | _ => true end) (cb_cmp_d c d).
(** std: provided method [min] of [Ord], from circular.rs:911-917: likewise *)
Definition cb_min_d (c d : cb T) : talk comparison bool :=
  talk_map (fun r => match r with Gt => true | _ => false end) (cb_cmp_d c d).

(** Letting a comparison (circular.rs:870-917) happen: the elements answer as they
    like, depending on what they have been asked before, or panic ([None]).  The
    result, and every question with its answer. *)
Fixpoint held {A R} (elems : list (T * T * option A) -> T -> T -> option A) (before : list (T * T * option A)) (d : talk A R)
  : outcome R * list (T * T * option A) :=
  match d with
  | Over r => (r, [])
  | Query x y next =>
      match elems before x y with
      | Some a =>
          match held elems (before ++ [(x, y, Some a)]) (next a) with
          | (r, tr) => (r, (x, y, Some a) :: tr)
          end
      | None => (Panic, [(x, y, None)])
      end
  end.
End Model.

Arguments Over {T A R} r.
Arguments Query {T A R} x y next.
