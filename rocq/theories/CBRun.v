(** Dispatch of the calls of [CBSpec.op] to the model's methods. *)
From Verif Require Import Base CBSpec CBModel.
Set Implicit Arguments.

Section Run.
Variable T : Type.
Variable E : machine.
Variable dp : T -> bool.

(** wrapping the value a call returns *)
Definition mmap {S A B} (f : A -> B) (m : M T S A) : M T S B :=
  bind m (fun a => ret (f a)).

(** one call on one buffer; models no code *)
Definition cb_step (o : op T) : M T (cb T) (out T) :=
  match o with
  | OPushBack v => mmap (fun _ => RUnit) (push_back E dp v)
  | OPushFront v => mmap (fun _ => RUnit) (push_front E dp v)
  | OPopBack => mmap (@ROpt T) (pop_back E)
  | OPopFront => mmap (@ROpt T) (pop_front E dp)
  | OClear => mmap (fun _ => RUnit) (clear E dp)
  | OResize c => mmap (fun _ => RUnit) (resize E dp c)
  | OLen => gets (fun c => omap RNat (len E c))
  | OCapacity => gets (fun c => omap RNat (capacity E c))
  | OIsEmpty => gets (fun c => Ret (RBool (is_empty c)))
  | OIsFull => gets (fun c => omap RBool (is_full E c))
  | OIndex i => gets (fun c => omap (@RElem T) (index E c i))
  | OIndexMut i f => mmap (fun _ => RUnit) (index_mut E i f)
  | OFirst => gets (fun c => omap (@ROpt T) (first E c))
  | OFirstMut f => mmap RBool (first_mut E f)
  | OLast => gets (fun c => omap (@ROpt T) (last E c))
  | OLastMut f => mmap RBool (last_mut E f)
  | OIter => gets (fun c => omap (@RList T) (iter c))
  | OIterMut g => mmap (fun _ => RUnit) (iter_mut_with g)
  | OLinearize => mmap (@RList T) (linearize E)
  | OLinearizeMut g => mmap (fun _ => RUnit) (linearize_with E g)
  | OSwap a b => mmap (fun _ => RUnit) (swap E a b)
  | OReverse => mmap (fun _ => RUnit) (reverse E)
  | OExtend xs => mmap (fun _ => RUnit) (extend E dp xs)
  | ODrain n => mmap (@RList T) (drain_take E dp n)
  end.

(** a history of calls on one buffer (see [CBSpec.run]) *)
Definition cb_run : list (op T) -> cb T -> cb T * list (list T * outcome (out T)) :=
  run cb_step.

(** What the public API shows of a buffer: its capacity and its elements from
    front to back. *)
Definition shows (c : cb T) (k : nat) (l : list T) : Prop :=
  capacity E c = Ret k /\ iter c = Ret l.

(** all storage slots except those listed are unchanged *)
Definition frame (touched : list nat) (c c' : cb T) : Prop :=
  forall i, ~ In i touched -> nth_error (buffer c') i = nth_error (buffer c) i.

End Run.

(** Buffers a program can get hold of: any constructor within the allocation
    limit, then any calls (with any set of panicking destructors, panics being
    caught), including [append], [slices_mut] and [clone]. *)
Inductive reachable (T : Type) (E : machine) : cb T -> Prop :=
| r_new k c : k + 1 <= alloc_max E -> new T E k = Ret c -> reachable E c
| r_from_iter xs c : from_iter E xs = Ret c -> reachable E c
| r_from_vec d xs c : from_vec E d xs = Ret c -> reachable E c
| r_call dp o c c' dr r : reachable E c -> op_ok E o ->
    cb_step E dp o c = (c', dr, r) -> reachable E c'
| r_append_to dp c1 c2 c1' c2' dr r : reachable E c1 -> reachable E c2 ->
    append E dp (c1, c2) = ((c1', c2'), dr, r) -> reachable E c1'
| r_append_from dp c1 c2 c1' c2' dr r : reachable E c1 -> reachable E c2 ->
    append E dp (c1, c2) = ((c1', c2'), dr, r) -> reachable E c2'
| r_slices_mut g c c' dr r : reachable E c ->
    (forall a b, length (fst (g a b)) = length a /\ length (snd (g a b)) = length b) ->
    slices_mut_with g c = (c', dr, r) -> reachable E c'
| r_clone bw cl c c' : reachable E c -> clone_cb bw cl c = Ret c' -> reachable E c'.
