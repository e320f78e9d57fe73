(** How many storage slots a call on a circular buffer may touch, in terms of the
    capacity and the elements only. *)
From Verif Require Import Base CBSpec.
Set Implicit Arguments.

Section Spec.
Variable T : Type.
(** which elements have a panicking destructor *)
Variable dp : T -> bool.

(** a push: the free slot, and that of the element making room unless its
    destructor panics, which ends the call *)
Definition s_push_touches (leaving : option T) (d : deque T) : nat :=
  match cap d with
  | 0 => 0
  | S _ =>
      if length (items d) <? cap d then 1
      else match leaving with None => 0 | Some x => if dp x then 1 else 2 end
  end.

(** appending one by one until a call panics *)
Fixpoint s_extend_touches (xs : list T) (d : deque T) : nat :=
  match xs with
  | [] => 0
  | x :: xs' =>
      s_push_touches (hd_error (items d)) d +
      match s_push_back dp x d with
      | (d1, _, Ret _) => s_extend_touches xs' d1
      | _ => 0
      end
  end.

(** dropping elements one by one: one slot each *)
Definition s_drop_touches (l : list T) : nat :=
  match drop_each dp l with (_, dr, _) => length dr end.

(** the slots touched by one call, counted with repetitions; for [OResize]
    those of the old storage *)
Definition s_touches (o : op T) (d : deque T) : nat :=
  let l := items d in
  match o with
  | OPushBack _ => s_push_touches (hd_error l) d
  | OPushFront _ => s_push_touches (hd_error (rev l)) d
  | OPopBack | OPopFront | OFirst | OFirstMut _ | OLast | OLastMut _ => Nat.min 1 (length l)
  | OClear => s_drop_touches (rev l)
  | OResize k =>
      if existsb dp (firstn (length l - k) l) then s_drop_touches (firstn (length l - k) l) else length l
  | OLen | OCapacity | OIsEmpty | OIsFull => 0
  | OIndex i | OIndexMut i _ => if i <? length l then 1 else 0
  | OIter | OIterMut _ => length l
  | OLinearize | OLinearizeMut _ => S (cap d) + length l
  | OSwap a b => if (a <? length l) && (b <? length l) then 2 else 0
  | OReverse => 2 * Nat.div2 (length l)
  | OExtend xs => s_extend_touches xs d
  | ODrain n => Nat.min n (length l)
  end.

(** moving the elements [l2] of another buffer to the end, one by one: the slots
    of the receiver and those of the other buffer *)
Fixpoint s_append_touches (l2 : list T) (d : deque T) : nat * nat :=
  match l2 with
  | [] => (0, 0)
  | x :: xs =>
      let p := s_push_touches (hd_error (items d)) d in
      match s_push_back dp x d with
      | (d1, _, Ret _) => match s_append_touches xs d1 with (a, b) => (p + a, S b) end
      | _ => (p, 1)
      end
  end.

End Spec.
