(** Specification of the circular buffer: a plain bounded sequence.
    Independent of the model: mentions neither storage, nor indices into it,
    nor uninitialised slots. *)
From Coq Require Import Permutation.
From Verif Require Import Base.
Set Implicit Arguments.

(** What a user sees of a circular buffer. *)
Record deque (T : Type) := Deque { cap : nat; items : list T }.

(** The calls a user can make on one buffer.  [OExtend xs]: extend from an
    owned iterator over [xs].  [ODrain n]: take [n] elements from a [drain()]
    and drop the drain.  [OIterMut g]/[OLinearizeMut g]: the user rewrites the
    elements reached through [iter_mut()]/[linearize()] with [g]. *)
Inductive op (T : Type) : Type :=
| OPushBack (v : T) | OPushFront (v : T)
| OPopBack | OPopFront
| OClear | OResize (c : nat)
| OLen | OCapacity | OIsEmpty | OIsFull
| OIndex (i : nat) | OIndexMut (i : nat) (f : T -> T)
| OFirst | OFirstMut (f : T -> T)
| OLast | OLastMut (f : T -> T)
| OIter | OIterMut (g : list T -> list T)
| OLinearize | OLinearizeMut (g : list T -> list T)
| OSwap (a b : nat) | OReverse
| OExtend (xs : list T) | ODrain (n : nat).

(** What a call returns. *)
Inductive out (T : Type) : Type :=
| RUnit | RNat (n : nat) | RBool (b : bool) | RElem (v : T)
| ROpt (o : option T) | RList (l : list T).

Arguments OPopBack {T}. Arguments OPopFront {T}. Arguments OClear {T}.
Arguments OResize {T} c. Arguments OLen {T}. Arguments OCapacity {T}.
Arguments OIsEmpty {T}. Arguments OIsFull {T}. Arguments OIndex {T} i.
Arguments OFirst {T}. Arguments OLast {T}. Arguments OIter {T}.
Arguments OLinearize {T}. Arguments OSwap {T} a b. Arguments OReverse {T}.
Arguments ODrain {T} n.
Arguments RUnit {T}. Arguments RNat {T} n. Arguments RBool {T} b.

(** the last [n] elements of a sequence *)
Definition lastn {A} (n : nat) (l : list A) : list A := skipn (length l - n) l.

(** [l] with position [i] set to [x] *)
Definition replace {A} (i : nat) (x : A) (l : list A) : list A :=
  firstn i l ++ x :: skipn (S i) l.

Section Spec.
Variable T : Type.
(** which elements have a panicking destructor *)
Variable dp : T -> bool.

(** the process state after a destructor panicked and the values [vs] are
    dropped while unwinding *)
Definition unwind (vs : list T) {A} : outcome A := if existsb dp vs then Abort else Panic.

(** Dropping elements one by one from the head until one destructor panics:
    what is left, what was dropped, how it ended. *)
Fixpoint drop_each (l : list T) : list T * list T * outcome unit :=
  match l with
  | [] => ([], [], Ret tt)
  | x :: t =>
      if dp x then (t, [x], Panic)
      else match drop_each t with (r, d, o) => (r, x :: d, o) end
  end.

(** what a call leaves behind, drops and returns *)
Definition result : Type := deque T * list T * outcome (out T).

(** appending, dropping the oldest element of a full sequence first *)
Definition s_push_back (v : T) (d : deque T) : deque T * list T * outcome unit :=
  match cap d with
  | 0 => (d, [v], if dp v then Panic else Ret tt)
  | S _ =>
      if length (items d) <? cap d then (Deque (cap d) (items d ++ [v]), [], Ret tt)
      else match items d with
           | [] => (d, [], Ret tt)
           | oldest :: rest =>
               if dp oldest then (Deque (cap d) rest, [oldest; v], unwind [v])
               else (Deque (cap d) (rest ++ [v]), [oldest], Ret tt)
           end
  end.

(** prepending, dropping the last element of a full sequence first *)
Definition s_push_front (v : T) (d : deque T) : deque T * list T * outcome unit :=
  match cap d with
  | 0 => (d, [v], if dp v then Panic else Ret tt)
  | S _ =>
      if length (items d) <? cap d then (Deque (cap d) (v :: items d), [], Ret tt)
      else match rev (items d) with
           | [] => (d, [], Ret tt)
           | newest :: rest =>
               if dp newest then (Deque (cap d) (rev rest), [newest; v], unwind [v])
               else (Deque (cap d) (v :: rev rest), [newest], Ret tt)
           end
  end.

(** appending one by one; the elements not yet reached are dropped if a
    destructor panics *)
Fixpoint s_extend (xs : list T) (d : deque T) : deque T * list T * outcome unit :=
  match xs with
  | [] => (d, [], Ret tt)
  | x :: xs' =>
      match s_push_back x d with
      | (d1, dr, Ret _) => match s_extend xs' d1 with (d2, dr2, o) => (d2, dr ++ dr2, o) end
      | (d1, dr, Panic) => (d1, dr ++ xs', unwind xs')
      | r => r
      end
  end.

(** dropping all elements from the back *)
Definition s_clear (d : deque T) : deque T * list T * outcome unit :=
  match drop_each (rev (items d)) with (r, dr, o) => (Deque (cap d) (rev r), dr, o) end.

(** changing the capacity, dropping the oldest elements that do not fit *)
Definition s_resize (c : nat) (d : deque T) : deque T * list T * outcome unit :=
  let k := length (items d) - c in
  match drop_each (firstn k (items d)) with
  | (r, dr, Ret _) => (Deque c (skipn k (items d)), dr, Ret tt)
  | (r, dr, o) => (Deque (cap d) (r ++ skipn k (items d)), dr, o)
  end.

(** the call returns nothing *)
Definition with_unit (r : deque T * list T * outcome unit) : result :=
  match r with (d, dr, o) => (d, dr, omap (fun _ => RUnit) o) end.

(** the call changes nothing and returns [o] *)
Definition answer (d : deque T) (o : out T) : result := (d, [], Ret o).

(** the effect of one call *)
Definition spec_step (o : op T) (d : deque T) : result :=
  let l := items d in
  let set l' := Deque (cap d) l' in
  match o with
  | OPushBack v => with_unit (s_push_back v d)
  | OPushFront v => with_unit (s_push_front v d)
  | OPopBack =>
      match rev l with [] => answer d (ROpt None) | x :: r => answer (set (rev r)) (ROpt (Some x)) end
  | OPopFront =>
      match l with [] => answer d (ROpt None) | x :: r => answer (set r) (ROpt (Some x)) end
  | OClear => with_unit (s_clear d)
  | OResize c => with_unit (s_resize c d)
  | OLen => answer d (RNat (length l))
  | OCapacity => answer d (RNat (cap d))
  | OIsEmpty => answer d (RBool (length l =? 0))
  | OIsFull => answer d (RBool (length l =? cap d))
  | OIndex i => match nth_error l i with Some x => answer d (RElem x) | None => (d, [], Panic) end
  | OIndexMut i f =>
      match nth_error l i with
      | Some x => answer (set (replace i (f x) l)) RUnit
      | None => (d, [], Panic)
      end
  | OFirst => answer d (ROpt (hd_error l))
  | OFirstMut f =>
      match l with [] => answer d (RBool false) | x :: t => answer (set (f x :: t)) (RBool true) end
  | OLast => answer d (ROpt (hd_error (rev l)))
  | OLastMut f =>
      match rev l with
      | [] => answer d (RBool false)
      | x :: t => answer (set (rev t ++ [f x])) (RBool true)
      end
  | OIter => answer d (RList l)
  | OIterMut g => answer (set (g l)) RUnit
  | OLinearize => answer d (RList l)
  | OLinearizeMut g => answer (set (g l)) RUnit
  | OSwap a b =>
      match nth_error l a, nth_error l b with
      | Some x, Some y => answer (set (replace b x (replace a y l))) RUnit
      | _, _ => (d, [], Panic)
      end
  | OReverse => answer (set (rev l)) RUnit
  | OExtend xs => with_unit (s_extend xs d)
  | ODrain n => answer (set (skipn n l)) (RList (firstn n l))
  end.

(** A history: the calls are made one after the other; a panic is caught by
    the caller and the history goes on, an abort ends it.  Gives the final
    state and, per call made, what was dropped and how the call ended. *)
Section Run.
Variable St : Type.
Variable step : op T -> St -> St * list T * outcome (out T).
(** the calls of a history, one after the other *)
Fixpoint run (ops : list (op T)) (s : St) : St * list (list T * outcome (out T)) :=
  match ops with
  | [] => (s, [])
  | o :: ops' =>
      match step o s with
      | (s1, dr, Ret r) => match run ops' s1 with (s2, tr) => (s2, (dr, Ret r) :: tr) end
      | (s1, dr, Panic) => match run ops' s1 with (s2, tr) => (s2, (dr, Panic) :: tr) end
      | (s1, dr, r) => (s1, [(dr, r)])
      end
  end.
End Run.

(** a history of calls on the bounded sequence *)
Definition spec_run : list (op T) -> deque T -> deque T * list (list T * outcome (out T)) :=
  run spec_step.

(** Calls within the resource limits of the machine; rewriting elements in
    place does not change how many there are. *)
Definition op_ok (E : machine) (o : op T) : Prop :=
  match o with
  | OResize c => c + 1 <= alloc_max E
  | OIterMut g | OLinearizeMut g => forall l, length (g l) = length l
  | _ => True
  end.

(** calls naming a position the sequence does not have *)
Definition out_of_range (o : op T) (l : list T) : Prop :=
  match o with
  | OIndex i | OIndexMut i _ => length l <= i
  | OSwap a b => length l <= a \/ length l <= b
  | _ => False
  end.

End Spec.

(** ** Ownership ledger: which elements a call takes in and hands back *)
Section Ledger.
Variable T : Type.

(** the elements a call is given *)
Definition taken_in (o : op T) : list T :=
  match o with
  | OPushBack v | OPushFront v => [v]
  | OExtend xs => xs
  | _ => []
  end.

(** the elements a call gives back *)
Definition handed_back (o : op T) (r : outcome (out T)) : list T :=
  match o, r with
  | (OPopBack | OPopFront), Ret (ROpt (Some x)) => [x]
  | ODrain _, Ret (RList l) => l
  | _, _ => []
  end.

(** calls through which the caller does not replace stored values by new ones *)
Definition moves_only (o : op T) : Prop :=
  match o with
  | OIndexMut _ _ | OFirstMut _ | OLastMut _ => False
  | OIterMut g | OLinearizeMut g => forall l, Permutation (g l) l
  | _ => True
  end.

(** everything dropped during a history *)
Definition dropped (tr : list (list T * outcome (out T))) : list T := flat_map fst tr.

(** everything handed back during a history *)
Definition returned (ops : list (op T)) (tr : list (list T * outcome (out T))) : list T :=
  flat_map (fun p => handed_back (fst p) (snd (snd p))) (combine ops tr).

(** everything taken in by the calls actually made *)
Definition received (ops : list (op T)) (tr : list (list T * outcome (out T))) : list T :=
  flat_map taken_in (firstn (length tr) ops).

End Ledger.

(** ** Lexicographic order *)
Section Lex.
Variable T : Type.
Variable eqv lt : T -> T -> Prop.

(** [a] comes before [b]: after element-wise equivalent prefixes either [a]
    ends while [b] goes on, or the next element of [a] is less *)
Definition lex_before (a b : list T) : Prop :=
  exists p q u v, a = p ++ u /\ b = q ++ v /\ Forall2 eqv p q /\
    match u, v with
    | [], _ :: _ => True
    | x :: _, y :: _ => lt x y
    | _, _ => False
    end.
End Lex.
