(** Dispatch of the calls of [DSSpec.op] to the model's methods. *)
From Coq Require Import Permutation.
From Verif Require Import Base HMModel DSModel DSSpec.
Set Implicit Arguments.

Section Run.
Variable K : Type.
Variable eqb : K -> K -> bool.
Variable E : machine.

(** a method of result type [()] *)
Definition unit_out (r : dset K * outcome unit) : dset K * outcome (out K) :=
  (fst r, omap (fun _ => RUnit) (snd r)).

(** Calls [next] until it gives [None] (at most [n] times). *)
Fixpoint drain (n : nat) (it : set_iter K) : list (list K) :=
  match n with
  | 0 => []
  | S n' => match si_next it with (it', Some s) => s :: drain n' it' | (_, None) => [] end
  end.

(** one call: the method of [DSModel] each call stands for (each cites its
    lines in src/disjoint_set there) *)
Definition ds_step (o : op K) (s : dset K) : dset K * outcome (out K) :=
  match o with
  | OMake x => unit_out (ds_make_set eqb E x s)
  | OUnion a b => unit_out (ds_union eqb E a b s)
  | OExtend h xs => unit_out (ds_extend eqb E h xs s)
  | OExtendRef h xs => unit_out (ds_extend_ref eqb E h xs s)
  | OClear => (ds_clear s, Ret RUnit)
  | OReserve n => unit_out (ds_reserve E n s)
  | OContains x => (s, Ret (RBool (ds_contains eqb x s)))
  | OInUnion a b => match ds_in_union eqb a b s with (s', r) => (s', omap RBool r) end
  | OIsEmpty => (s, Ret (RBool (ds_is_empty s)))
  | OLen => (s, Ret (RNat (ds_len s)))
  | OIter order pick =>
      match ds_into_iter E (order (ds_ids s)) pick s with
      | (s', r) => (s', omap (fun it => RSets (drain (S (length it)) it)) r)
      end
  end.

(** a history; panics are caught *)
Fixpoint ds_run (ops : list (op K)) (s : dset K) : dset K * list (outcome (out K)) :=
  match ops with
  | [] => (s, [])
  | o :: ops' =>
      match ds_step o s with
      | (s1, r) => match ds_run ops' s1 with (s2, tr) => (s2, r :: tr) end
      end
  end.

(** the answer of [in_union] *)
Definition joined (s : dset K) (x y : K) : Prop := snd (ds_in_union eqb x y s) = Ret true.

(** [s'] holds the sets of [s] and the elements [ys], new ones as singletons *)
Definition grown (s : dset K) (ys : list K) (s' : dset K) : Prop :=
  (forall x y, joined s' x y <-> joined s x y \/ (mem eqb x ys /\ eqb x y = true)) /\
  (forall x, ds_contains eqb x s' = true <-> ds_contains eqb x s = true \/ mem eqb x ys).

Variable cl : K -> K.

(** The disjoint sets a program can obtain: built by a constructor, cloned,
    or left behind by any call (also one that panicked). *)
Inductive reachable : dset K -> Prop :=
| r_new : reachable (ds_new K)
| r_with_capacity n s : ds_with_capacity K E n = Ret s -> reachable s
| r_from_iter h xs s : ds_from_iter eqb E h xs = Ret s -> reachable s
| r_from_iter_ref h xs s : ds_from_iter_ref eqb cl E h xs = Ret s -> reachable s
| r_clone s : reachable s -> reachable (ds_clone cl s)
| r_step o s s' r : reachable s -> op_ok o -> ds_step o s = (s', r) -> reachable s'.

End Run.
