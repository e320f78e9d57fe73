(** The disjoint sets a program can hold when [Hash] and [Eq] of the elements
    break their contracts, and the lawful disjoint sets of slot numbers they are
    compared with. *)
From Coq Require Import Permutation.
From Verif Require Import Base HMModel DSModel DSSpec DSRun.
Set Implicit Arguments.

Section Run.
Variable K : Type.
Variable E : machine.

(** As [reachable], but the lookups of every call are answered by a relation of
    its own that need not be an equivalence, clones need not be equal to the
    original, and the entries of the map may be met in another order each time. *)
Inductive lawless : dset K -> Prop :=
| w_new : lawless (ds_new K)
| w_with_capacity n s : ds_with_capacity K E n = Ret s -> lawless s
| w_from_iter eqb h xs s : ds_from_iter eqb E h xs = Ret s -> lawless s
| w_from_iter_ref eqb cl h xs s : ds_from_iter_ref eqb cl E h xs = Ret s -> lawless s
| w_clone cl s : lawless s -> lawless (ds_clone cl s)
| w_order s ids : lawless s -> Permutation (ds_ids s) ids -> lawless (DSet ids (ds_data s))
| w_step eqb o s s' r : lawless s -> op_ok o -> ds_step eqb E o s = (s', r) -> lawless s'.

(** [t] has the slots of [s] as elements *)
Definition slots_of (s : dset K) (t : dset nat) : Prop :=
  ds_data t = ds_data s /\ Permutation (map (fun e => (snd e, snd e)) (ds_ids s)) (ds_ids t).

Variable eqb : K -> K -> bool.

(** the slot a lookup of [x] finds, or else the slot the next element gets *)
Definition slot (s : dset K) (x : K) : nat :=
  match hm_get eqb x (ds_ids s) with Some i => i | None => length (ds_ids s) end.

(** the slots found or given when [xs] are added one after the other *)
Fixpoint slots (s : dset K) (xs : list K) : list nat :=
  match xs with
  | [] => []
  | x :: r => slot s x :: slots (fst (ds_make_set eqb E x s)) r
  end.

(** the call with slots in place of elements (iteration: in some order) *)
Inductive on_slots (s : dset K) : op K -> op nat -> Prop :=
| n_make x : on_slots s (OMake x) (OMake (slot s x))
| n_union a b : on_slots s (OUnion a b) (OUnion (slot s a) (slot (fst (ds_make_set eqb E a s)) b))
| n_extend h xs : on_slots s (OExtend h xs) (OExtend h (slots s xs))
| n_extend_ref h xs : on_slots s (OExtendRef h xs) (OExtendRef h (slots s xs))
| n_clear : on_slots s (@OClear K) (@OClear nat)
| n_reserve n : on_slots s (@OReserve K n) (@OReserve nat n)
| n_contains x : on_slots s (OContains x) (OContains (slot s x))
| n_in_union a b : on_slots s (OInUnion a b) (OInUnion (slot s a) (slot s b))
| n_is_empty : on_slots s (@OIsEmpty K) (@OIsEmpty nat)
| n_len : on_slots s (@OLen K) (@OLen nat)
| n_iter order pick order' pick' : on_slots s (OIter order pick) (OIter order' pick').

(** the same answer; sets: of the same entries of [s], by element and by slot *)
Definition same_answer (s : dset K) (r : outcome (out K)) (r' : outcome (out nat)) : Prop :=
  match r, r' with
  | Ret RUnit, Ret RUnit => True
  | Ret (RBool b), Ret (RBool b') => b = b'
  | Ret (RNat n), Ret (RNat n') => n = n'
  | Ret (RSets ss), Ret (RSets ts) =>
      exists G, ss = map (map fst) G /\ ts = map (map snd) G /\ Permutation (ds_ids s) (concat G)
  | Panic, Panic => True
  | _, _ => False
  end.

End Run.
