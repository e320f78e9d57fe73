(** Specification of the circular buffer, second part: traversals, moving
    elements between two buffers, extension from an iterator that may panic.
    Independent of the model. *)
From Verif Require Import Base CBSpec.
Set Implicit Arguments.

(** ** Double-ended traversals *)

(** a call of [next] or of [next_back] *)
Inductive side : Type := Front | Back.

Section Walk.
Variables S A : Type.
Variables next next_back : S -> S * option A.

(** the calls are made one after the other; gives what each of them returned *)
Fixpoint walk (calls : list side) (s : S) : S * list (side * option A) :=
  match calls with
  | [] => (s, [])
  | Front :: r =>
      let '(s1, x) := next s in
      let '(s2, tr) := walk r s1 in (s2, (Front, x) :: tr)
  | Back :: r =>
      let '(s1, x) := next_back s in
      let '(s2, tr) := walk r s1 in (s2, (Back, x) :: tr)
  end.
End Walk.

(** the items that came out at the front, in order *)
Definition from_front {A} (tr : list (side * option A)) : list A :=
  flat_map (fun p => match p with (Front, Some x) => [x] | _ => [] end) tr.

(** the items that came out at the back, in order *)
Definition from_back {A} (tr : list (side * option A)) : list A :=
  flat_map (fun p => match p with (Back, Some x) => [x] | _ => [] end) tr.

Section Spec.
Variable T : Type.
(** which elements have a panicking destructor *)
Variable dp : T -> bool.

(** moving the elements [ys] of another sequence to the back of this one, one
    by one; gives also what is left of [ys] when a destructor panics *)
Fixpoint s_append (ys : list T) (d : deque T) : deque T * list T * list T * outcome unit :=
  match ys with
  | [] => (d, [], [], Ret tt)
  | y :: ys' =>
      match s_push_back dp y d with
      | (d1, dr, Ret _) => match s_append ys' d1 with (d2, rest, dr2, o) => (d2, rest, dr ++ dr2, o) end
      | (d1, dr, o) => (d1, ys', dr, o)
      end
  end.

(** appending [xs] one by one, then panicking if [crash] (because the iterator
    that yields them does); a destructor may panic before *)
Fixpoint s_extend_then (crash : bool) (xs : list T) (d : deque T) : deque T * list T * outcome unit :=
  match xs with
  | [] => (d, [], if crash then Panic else Ret tt)
  | x :: xs' =>
      match s_push_back dp x d with
      | (d1, dr, Ret _) => match s_extend_then crash xs' d1 with (d2, dr2, o) => (d2, dr ++ dr2, o) end
      | r => r
      end
  end.
End Spec.

(** the elements the iterator yields before its first panic ([None]), and
    whether there is one *)
Fixpoint before_panic {T} (evs : list (option T)) : list T * bool :=
  match evs with
  | [] => ([], false)
  | None :: _ => ([], true)
  | Some v :: r => let '(xs, b) := before_panic r in (v :: xs, b)
  end.

(** writing to positions of a sequence, one write after the other; writes to
    positions the sequence does not have do nothing *)
Fixpoint write_all {T} (ws : list (nat * (T -> T))) (l : list T) : list T :=
  match ws with
  | [] => l
  | (i, f) :: ws' =>
      write_all ws' (match nth_error l i with Some x => replace i (f x) l | None => l end)
  end.

(** ** Small capacities: calls asking for a capacity of at most half of the
    index range, as is always the case for elements of non-zero size *)
Definition op_small {T} (E : machine) (o : op T) : Prop :=
  op_ok E o /\ match o with OResize c => 2 * c <= usize_max E | _ => True end.
