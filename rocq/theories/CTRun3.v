(** Dispatch of the calls of [CTSpec4.qop] to the methods of [CTModel4] and
    [CTModel], and histories of them. *)
From Verif Require Import Base HMModel CTModel CTModel4 CTSpec CTSpec4 CTRun.
Set Implicit Arguments.

Section Run.
Variable K : Type.
Variable cl : K -> K.
Variable E : machine.

(** one call (each method cites its lines in src/counter/counter.rs) *)
Definition ct_step_q (o : qop K) (c : counter K) : counter K * outcome (out K) :=
  match o with
  | QExtend h xs => unit_out (ct_extend_q E h xs c)
  | QExtendRef h xs => unit_out (ct_extend_ref_q E h xs c)
  | QAdd l => unit_out (ct_add_assign_q E l c)
  | QAddRef l => unit_out (ct_add_assign_ref_q cl E l c)
  | QSub l => unit_out (ct_sub_assign_q E l c)
  | QSubRef l => unit_out (ct_sub_assign_ref_q cl E l c)
  | QCall q o => ct_step q cl E o c
  end.

(** a history; panics are caught *)
Fixpoint ct_run_q (ops : list (qop K)) (c : counter K) : counter K * list (outcome (out K)) :=
  match ops with
  | [] => (c, [])
  | o :: ops' =>
      match ct_step_q o c with
      | (c1, r) => match ct_run_q ops' c1 with (c2, tr) => (c2, r :: tr) end
      end
  end.
End Run.
