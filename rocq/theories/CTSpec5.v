(** What a hash table has room for after a series of demands, and how much room
    the calls of a counter may demand. *)
From Verif Require Import Base CTSpec.
Set Implicit Arguments.

(** A table with room for [h] entries meets the demands [ds] one by one: each
    grows it to at least the demand, and to at most [g] of it; it never shrinks.
    A demand beyond [limit] is refused. *)
Inductive granted (limit : nat) (g : nat -> nat) : nat -> list nat -> nat -> Prop :=
| gr_done h : granted limit g h [] h
| gr_meet h d r ds h' : d <= r -> h <= r -> r <= h \/ r <= g d ->
    granted limit g r ds h' -> granted limit g h (d :: ds) h'
| gr_refuse h d ds h' : limit < d -> granted limit g h ds h' -> granted limit g h (d :: ds) h'.

(** the room announced by the caller: a size hint or an argument *)
Definition announced {K} (o : op K) : option nat :=
  match o with
  | OExtend h _ | OExtendRef h _ | OReserve h => Some h
  | _ => None
  end.

(** the keys a call handles one by one *)
Definition handled {K} (cl : K -> K) (o : op K) : list K :=
  match o with
  | OPush k | OGet k | OGetKeyValue k | OIndex k | OContains k | OInsert k _ | ORemove k | OGetMut k _ => [k]
  | OExtend _ xs | OExtendRef _ xs => xs
  | OAdd l | OSub l => map fst l
  | OAddRef l | OSubRef l => map (fun e => cl (fst e)) l
  | OLen | OIsEmpty | OIter _ | OClear | ORetain _ | OIterMut _ | OReserve _ => []
  end.
