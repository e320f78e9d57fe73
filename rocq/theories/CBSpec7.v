(** Circular buffers read from the other end.  Independent of the model. *)
From Verif Require Import Base CBSpec.
Set Implicit Arguments.

Section Mirror.
Variable T : Type.

(** The call that does at the other end what the given one does at its own; [None]
    for the calls that have no such counterpart: [clear] and [resize] drop from one
    end, [extend] and [drain] work at one end, positions count from one end. *)
Definition dual (o : op T) : option (op T) :=
  match o with
  | OPushBack v => Some (OPushFront v) | OPushFront v => Some (OPushBack v)
  | OPopBack => Some OPopFront | OPopFront => Some OPopBack
  | OFirst => Some OLast | OLast => Some OFirst
  | OFirstMut f => Some (OLastMut f) | OLastMut f => Some (OFirstMut f)
  | OIterMut g => Some (OIterMut (fun l => rev (g (rev l))))
  | OLinearizeMut g => Some (OLinearizeMut (fun l => rev (g (rev l))))
  | OLen => Some OLen | OCapacity => Some OCapacity | OIsEmpty => Some OIsEmpty | OIsFull => Some OIsFull
  | OIter => Some OIter | OLinearize => Some OLinearize | OReverse => Some OReverse
  | OClear | OResize _ | OIndex _ | OIndexMut _ _ | OSwap _ _ | OExtend _ | ODrain _ => None
  end.
(** the same for a history *)
Fixpoint duals (ops : list (op T)) : option (list (op T)) :=
  match ops with
  | [] => Some []
  | o :: os => match dual o, duals os with Some o', Some os' => Some (o' :: os') | _, _ => None end
  end.

(** a sequence handed out reads the other way round, everything else is the same *)
Definition mirror (r : out T) : out T := match r with RList l => RList (rev l) | _ => r end.
(** the same for a call: dropped elements and outcome *)
Definition mirror_call (x : list T * outcome (out T)) : list T * outcome (out T) := (fst x, omap mirror (snd x)).
End Mirror.
