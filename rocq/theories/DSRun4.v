(** Calls on disjoint sets whose elements answer otherwise at every lookup, the
    disjoint sets such a program can hold, and the calls on slots they are
    compared with. *)
From Coq Require Import Permutation.
From Verif Require Import Base HMModel DSModel CTModel4 DSModel4 DSSpec DSRun DSRun3.
Set Implicit Arguments.

Section Run.
Variable K : Type.
Variable E : machine.

(** calls: those with several lookups, in which every element comes with the
    answers to its lookup, and those with one *)
Inductive qop : Type :=
| QUnion (a b : (K -> K -> bool) * K) | QInUnion (a b : (K -> K -> bool) * K)
| QExtend (hint : nat) (xs : list ((K -> K -> bool) * K)) | QExtendRef (hint : nat) (xs : list ((K -> K -> bool) * K))
| QCall (q : K -> K -> bool) (o : op K).

(** one call (each method cites its lines in src/disjoint_set/disjoint_set.rs) *)
Definition ds_step_q (o : qop) (s : dset K) : dset K * outcome (out K) :=
  match o with
  | QUnion a b => unit_out (ds_union_q E a b s)
  | QInUnion a b => match ds_in_union_q a b s with (s', r) => (s', omap RBool r) end
  | QExtend h xs => unit_out (ds_extend_q E h xs s)
  | QExtendRef h xs => unit_out (ds_extend_ref_q E h xs s)
  | QCall q o => ds_step q E o s
  end.

(** a history; panics are caught *)
Fixpoint ds_run_q (ops : list qop) (s : dset K) : dset K * list (outcome (out K)) :=
  match ops with
  | [] => (s, [])
  | o :: ops' =>
      match ds_step_q o s with
      | (s1, r) => match ds_run_q ops' s1 with (s2, tr) => (s2, r :: tr) end
      end
  end.

(** hash maps are traversed in some order *)
Definition qop_ok (o : qop) : Prop := match o with QCall _ o => op_ok o | _ => True end.

(** the number of elements a call may need room for *)
Definition q_demand (o : qop) : nat :=
  match o with
  | QUnion _ _ => 2
  | QInUnion _ _ => 0
  | QExtend hint xs | QExtendRef hint xs => Nat.max hint (length xs)
  | QCall _ o => demand o
  end.

(** as [lawless], with the answers changing at every lookup *)
Inductive fickle : dset K -> Prop :=
| k_new : fickle (ds_new K)
| k_with_capacity n s : ds_with_capacity K E n = Ret s -> fickle s
| k_from_iter h xs s : ds_from_iter_q E h xs = Ret s -> fickle s
| k_from_iter_ref cl h xs s : ds_from_iter_ref_q cl E h xs = Ret s -> fickle s
| k_clone cl s : fickle s -> fickle (ds_clone cl s)
| k_order s ids : fickle s -> Permutation (ds_ids s) ids -> fickle (DSet ids (ds_data s))
| k_step o s s' r : fickle s -> qop_ok o -> ds_step_q o s = (s', r) -> fickle s'.

(** the slots found or given when [xs] are added one after the other *)
Fixpoint slots_q (s : dset K) (xs : list ((K -> K -> bool) * K)) : list nat :=
  match xs with
  | [] => []
  | (q, x) :: r => slot q s x :: slots_q (fst (ds_make_set q E x s)) r
  end.

(** the call with slots in place of elements *)
Inductive on_slots_q (s : dset K) : qop -> op nat -> Prop :=
| m_union q a q' b : on_slots_q s (QUnion (q, a) (q', b)) (OUnion (slot q s a) (slot q' (fst (ds_make_set q E a s)) b))
| m_in_union q a q' b : on_slots_q s (QInUnion (q, a) (q', b)) (OInUnion (slot q s a) (slot q' s b))
| m_extend h xs : on_slots_q s (QExtend h xs) (OExtend h (slots_q s xs))
| m_extend_ref h xs : on_slots_q s (QExtendRef h xs) (OExtendRef h (slots_q s xs))
| m_call q o o' : on_slots E q s o o' -> on_slots_q s (QCall q o) o'.

End Run.
