(** User code that takes elements from an iterator, in whatever way. *)
From Verif Require Import Base.
Set Implicit Arguments.

Section Use.
Variable T : Type.
(** which elements have a panicking destructor *)
Variable dp : T -> bool.

(** It has ended; asks for the next element; or drops one that it has, and learns
    whether that panicked (it may catch the panic or not). *)
Inductive use (R : Type) : Type :=
| Done (o : outcome R)
| Next (k : option T -> use R)
| Discard (v : T) (k : bool -> use R).
Arguments Done {R} o.
Arguments Next {R} k.
Arguments Discard {R} v k.

(** what it drops and how it ends, given the answers to all of its requests *)
Fixpoint replay {R} (u : use R) (answers : list (option T)) : option (list T * outcome R) :=
  match u with
  | Done o => match answers with [] => Some ([], o) | _ => None end
  | Next k => match answers with [] => None | a :: r => replay (k a) r end
  | Discard v k => option_map (fun x => (v :: fst x, snd x)) (replay (k (dp v)) answers)
  end.

(** the first [n] elements of [l] in order, then, if these are all, nothing any more *)
Definition delivered (l : list T) (n : nat) (answers : list (option T)) : Prop :=
  n <= length l /\
  exists m, answers = map Some (firstn n l) ++ repeat None m /\ (0 < m -> n = length l).
End Use.
Arguments Done {T R} o.
Arguments Next {T R} k.
Arguments Discard {T R} v k.
