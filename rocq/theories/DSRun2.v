(** The disjoint sets a program can hold when destructors, [Hash] and [Eq] of
    elements may panic. *)
From Coq Require Import Permutation.
From Verif Require Import Base HMModel DSModel DSModel3 DSSpec DSRun.
Set Implicit Arguments.

Section Run.
Variable K : Type.
Variable eqb : K -> K -> bool.
Variable E : machine.
Variable cl : K -> K.

(** As [reachable], and also left behind by a call during which elements
    panicked; [clear] (disjoint_set.rs:232-235) may then be interrupted with
    some entries [gone] and others [left] in the map. *)
Inductive survivor : dset K -> Prop :=
| v_reachable s : reachable eqb E cl s -> survivor s
| v_clone s : survivor s -> survivor (ds_clone cl s)
| v_step o s s' r : survivor s -> op_ok o -> ds_step eqb E o s = (s', r) -> survivor s'
| v_make hp dp x s s' r : survivor s -> ds_make_set_u eqb hp dp E x s = (s', r) -> survivor s'
| v_union hp dp a b s s' r : survivor s -> ds_union_u eqb hp dp E a b s = (s', r) -> survivor s'
| v_extend hp rp dp h xs s s' r : survivor s -> ds_extend_u eqb hp rp dp E h xs s = (s', r) -> survivor s'
| v_clear dp gone left s s' r : survivor s -> Permutation (gone ++ left) (ds_ids s) ->
    ds_clear_u dp left s = (s', r) -> survivor s'.

(** [ss] lists the sets of [s]: every element once, no empty set, elements in
    one set together and others apart *)
Definition sets_of (s : dset K) (ss : list (list K)) : Prop :=
  (forall x, ds_contains eqb x s = true <-> mem eqb x (concat ss)) /\
  ForallOrdPairs (fun x y => eqb x y = false) (concat ss) /\
  Forall (fun t => t <> []) ss /\
  Forall (fun t => forall x y, In x t -> In y t -> joined eqb s x y) ss /\
  ForallOrdPairs (fun t u => forall x y, In x t -> In y u -> ~ joined eqb s x y) ss.

(** nothing a caller can ask differs *)
Definition alike (s s' : dset K) : Prop :=
  ds_len s' = ds_len s /\ (forall x, ds_contains eqb x s' = ds_contains eqb x s) /\
  (forall x y, joined eqb s' x y <-> joined eqb s x y).

(** [s'] has the elements of [s] and [x], related as in [s]; how [x] is related
    to others is left open *)
Definition with_element (x : K) (s s' : dset K) : Prop :=
  (forall y, ds_contains eqb y s' = true <-> ds_contains eqb y s = true \/ eqb x y = true) /\
  (forall y z, ds_contains eqb y s = true -> ds_contains eqb z s = true ->
     (joined eqb s' y z <-> joined eqb s y z)).

(** [s'] is [s] with the sets of [a] and [b] merged *)
Definition merged (a b : K) (s s' : dset K) : Prop :=
  (forall y, ds_contains eqb y s' = ds_contains eqb y s) /\
  (forall y z, joined eqb s' y z <-> joined eqb s y z \/
     (joined eqb s y a /\ joined eqb s b z) \/ (joined eqb s y b /\ joined eqb s a z)).

End Run.
