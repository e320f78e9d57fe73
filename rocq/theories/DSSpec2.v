(** The keys a call of a disjoint set is about, the room its caller announces and
    the number of elements it goes through. *)
From Verif Require Import Base DSSpec.
Set Implicit Arguments.

(** the keys a call handles one by one *)
Definition handled {K} (o : op K) : list K :=
  match o with
  | OMake x | OContains x => [x]
  | OUnion a b | OInUnion a b => [a; b]
  | OExtend _ xs | OExtendRef _ xs => xs
  | OClear | OReserve _ | OIsEmpty | OLen | OIter _ _ => []
  end.

(** the room announced by the caller: a size hint or an argument *)
Definition announced {K} (o : op K) : option nat :=
  match o with
  | OExtend h _ | OExtendRef h _ | OReserve h => Some h
  | _ => None
  end.

(** the elements a call goes through, if [n] are held: those it is given or, when
    iterating, all *)
Definition visited {K} (o : op K) (n : nat) : nat :=
  match o with
  | OExtend _ xs | OExtendRef _ xs => length xs
  | OIter _ _ => n
  | _ => 0
  end.

(** climbing from [i] along the parents [par], through [p], up to [r], its own
    parent *)
Inductive climbs (par : nat -> option nat) : nat -> list nat -> nat -> Prop :=
| cl_top i : par i = Some i -> climbs par i [i] i
| cl_up i j p r : par i = Some j -> j <> i -> climbs par j p r -> climbs par i (i :: p) r.
