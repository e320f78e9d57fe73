(** When a table or vector is not reallocated. *)
From Verif Require Import Base CTSpec.
Set Implicit Arguments.

(** With room for [room] entries none of the demands [ds] makes the table grow:
    each is met by what is there, or is beyond [limit] and refused. *)
Definition enough (limit room : nat) (ds : list nat) : Prop :=
  Forall (fun d => d <= room \/ limit < d) ds.

(** the calls that take counts away *)
Definition subtracts {K} (o : op K) : bool :=
  match o with OSub _ | OSubRef _ => true | _ => false end.
