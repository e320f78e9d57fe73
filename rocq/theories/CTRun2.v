(** Histories of counters whose keys break the contracts of [Eq] and [Hash]. *)
From Verif Require Import Base HMModel CTModel CTSpec CTRun.
Set Implicit Arguments.

Section Run.
Variable K : Type.
Variable cl : K -> K.
Variable E : machine.

(** As [ct_run]; the lookups of every call are answered by a relation of its own
    that obeys no law. *)
Fixpoint ct_run_l (ops : list ((K -> K -> bool) * op K)) (c : counter K) : counter K * list (outcome (out K)) :=
  match ops with
  | [] => (c, [])
  | (eqb, o) :: ops' =>
      match ct_step eqb cl E o c with
      | (c1, r) => match ct_run_l ops' c1 with (c2, tr) => (c2, r :: tr) end
      end
  end.
End Run.
