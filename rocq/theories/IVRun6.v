(** How the trace of a call of [IVModel6] is read. *)
From Coq Require Import Permutation.
From Verif Require Import Base OwnSpec IVModel IVModel5 IVModel6 IVRun5.
Set Implicit Arguments.

(** what an act means for the values in the hands of the intervals: an operator
    gets its operands for good, and [op=] changes a value in place *)
Definition booked {T U} (e : act T U) : list (ev (thing T U)) :=
  match e with
  | Asked _ _ _ _ => []
  | ClonedEl _ r => match r with Some x => [Got (El x)] | None => [] end
  | ClonedArg _ r => match r with Some k => [Got (Arg k)] | None => [] end
  | Combined x k r => Gone (El x) :: Gone (Arg k) :: match r with Some y => [Got (El y)] | None => [] end
  | Changed x k x' _ => [Gone (Arg k); Gone (El x); Got (El x')]
  | Negated x r => Gone (El x) :: match r with Some y => [Got (El y)] | None => [] end
  | Dropped v => [Gone v]
  end.
Definition bookings {T U} (t : list (act T U)) : list (ev (thing T U)) := flat_map booked t.

(** A call that gets [ins]: whatever happened before and whatever the user's code
    does, the books are in order.  [left] is what its receiver owns in the end and
    [res] what its result owns; if it panics nothing but [left] is owned. *)
Definition keeps {T U S A} (ins : list (thing T U)) (m : call T U S A)
  (left : S -> list (thing T U)) (res : A -> list (thing T U)) : Prop :=
  forall h, match m h with
  | (t, s, Ret a) => books ins (bookings t) (left s ++ res a)
  | (t, s, Panic) => books ins (bookings t) (left s)
  | _ => False
  end.
(** no receiver *)
Definition none {T U} (_ : unit) : list (thing T U) := [].
(** nothing owned in the result *)
Definition nil_of {A T U} (_ : A) : list (thing T U) := [].

(** what the result of [into_merged] owns *)
Definition merged_things {T U} (r : interval T + interval T * interval T) : list (thing T U) :=
  match r with inl i => things U i | inr (x, y) => things U x ++ things U y end.
(** what the result of [merge] owns *)
Definition refused_things {T U} (r : unit + interval T) : list (thing T U) := match r with inl _ => [] | inr b => things U b end.
(** the comparisons in a trace *)
Definition asked {T U} (t : list (act T U)) : list (event T) :=
  flat_map (fun e => match e with
    | Asked k x y (Some a) => [Answered k x y a]
    | Asked k x y None => [Panicked k x y]
    | _ => []
    end) t.
(** nothing but comparisons and destructors *)
Definition only_looks {T U} (e : act T U) : Prop :=
  match e with Asked _ _ _ _ | Dropped _ => True | _ => False end.
(** the values whose destructor was called, in order *)
Definition dropped {T U} (t : list (act T U)) : list (thing T U) :=
  flat_map (fun e => match e with Dropped v => [v] | _ => [] end) t.
(** the values that operators got for good *)
Definition handed {T U} (t : list (act T U)) : list (thing T U) :=
  flat_map (fun e => match e with Combined x k _ => [El x; Arg k] | Changed _ k _ _ => [Arg k] | Negated x _ => [El x] | _ => [] end) t.
(** the values that clones and operators made *)
Definition made {T U} (t : list (act T U)) : list (thing T U) :=
  flat_map (fun e => match e with
    | ClonedEl _ (Some x) => [El x] | ClonedArg _ (Some k) => [Arg k]
    | Combined _ _ (Some x) => [El x] | Negated _ (Some x) => [El x]
    | _ => [] end) t.
(** the values changed in place: as they were, and as they are *)
Definition changed_from {T U} (t : list (act T U)) : list (thing T U) :=
  flat_map (fun e => match e with Changed x _ _ _ => [El x] | _ => [] end) t.
Definition changed_to {T U} (t : list (act T U)) : list (thing T U) :=
  flat_map (fun e => match e with Changed _ _ x _ => [El x] | _ => [] end) t.
(** the values with which a program supplies its intervals *)
Definition supplied {T U} (d : deal T U) : list (thing T U) :=
  match d with
  | DNew _ l _ u _ => [El l; El u]
  | DSingle _ v => [El v]
  | DArith _ k | DAssign _ k => [Arg k]
  | _ => []
  end.
(** the values that intervals own *)
Definition all_things {T U} (is : list (interval T)) : list (thing T U) := flat_map (@things T U) is.
(** a call follows a dialog of [IVModel5]: it asks the same questions, leaves the
    same in its receiver and ends in the same way *)
Definition follows {T U S A} (d : dialog T S A) (m : call T U S A) : Prop :=
  forall h, let '(t, s, o) := m h in
  exists e, runs d (asked t) s e /\ o = match e with Some r => r | None => Panic end.
(** comparisons that follow one order, clones that are equal, operators that are
    functions and panic where these give no value *)
Definition plain_user {T U} (cmp : T -> T -> comparison) (op : T -> U -> option T) (opa : T -> U -> T * bool) (neg : T -> option T) : user T U :=
  {| u_ask := fun _ k x y => Some (answers (of_cmp cmp) k x y);
     u_clone_el := fun _ x => Some x;
     u_clone_arg := fun _ k => Some k;
     u_combine := fun _ => op;
     u_change := fun _ => opa;
     u_negate := fun _ => neg |}.
