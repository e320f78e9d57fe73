(** Dispatch of the calls of [CTSpec.op] to the model's methods. *)
From Verif Require Import Base HMModel CTModel CTSpec.
Set Implicit Arguments.

Section Run.
Variable K : Type.
Variable eqb : K -> K -> bool.
Variable cl : K -> K.
Variable E : machine.

(** a method of result type [()] *)
Definition unit_out (r : counter K * outcome unit) : counter K * outcome (out K) :=
  (fst r, omap (fun _ => RUnit) (snd r)).

(** one call: the method of [CTModel] each call stands for (each cites its
    lines in src/counter/counter.rs there) *)
Definition ct_step (o : op K) (c : counter K) : counter K * outcome (out K) :=
  match o with
  | OPush k => unit_out (ct_push eqb E k c)
  | OExtend h xs => unit_out (ct_extend eqb E h xs c)
  | OExtendRef h xs => unit_out (ct_extend_ref eqb E h xs c)
  | OAdd l => unit_out (ct_add_assign eqb E l c)
  | OAddRef l => unit_out (ct_add_assign_ref eqb cl E l c)
  | OSub l => unit_out (ct_sub_assign eqb E l c)
  | OSubRef l => unit_out (ct_sub_assign_ref eqb cl E l c)
  | OGet k => (c, Ret (ROpt (ct_get eqb c k)))
  | OGetKeyValue k => (c, Ret (REntry (ct_get_key_value eqb c k)))
  | OIndex k => (c, omap RNat (ct_index eqb c k))
  | OContains k => (c, Ret (RBool (ct_contains_key eqb c k)))
  | OLen => (c, Ret (RNat (ct_len c)))
  | OIsEmpty => (c, Ret (RBool (ct_is_empty c)))
  | OIter pick => (c, Ret (RList (pick (ct_map c))))
  | OInsert k n => match ct_insert eqb E k n c with (c', r) => (c', omap ROpt r) end
  | ORemove k => match ct_remove eqb k c with (c', r) => (c', Ret (ROpt r)) end
  | OGetMut k g => match ct_get_mut eqb k g c with (c', b) => (c', Ret (RBool b)) end
  | OClear => (ct_clear c, Ret RUnit)
  | ORetain p => (ct_retain p c, Ret RUnit)
  | OIterMut g => (ct_iter_mut g c, Ret RUnit)
  | OReserve n => unit_out (ct_reserve E n c)
  end.

(** a history; panics are caught *)
Fixpoint ct_run (ops : list (op K)) (c : counter K) : counter K * list (outcome (out K)) :=
  match ops with
  | [] => (c, [])
  | o :: ops' =>
      match ct_step o c with
      | (c1, r) => match ct_run ops' c1 with (c2, tr) => (c2, r :: tr) end
      end
  end.

(** Any counter of a Rust program: its map has no two equal keys, its counts
    are [usize] values and it is within the allocation limit. *)
Definition ct_valid (c : counter K) : Prop :=
  map_content eqb E (ct_map c) /\ ct_len c <= alloc_max E.

(** the finite map a counter shows through [get_key_value] *)
Definition shown (c : counter K) : fm K := ct_get_key_value eqb c.

(** two computations of counters end alike: both panic or give equal ([==]) counters *)
Definition agree (r1 r2 : outcome (counter K)) : Prop :=
  match r1, r2 with
  | Ret a, Ret b => ct_eq eqb a b = true
  | Panic, Panic => True
  | _, _ => False
  end.

End Run.
