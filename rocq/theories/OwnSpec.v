(** Ownership of values as bookkeeping. *)
From Coq Require Import Permutation.
From Verif Require Import Base.
Set Implicit Arguments.

(** a value comes into the hands of a collection (handed over, cloned or taken from
    an iterator); the destructor of a value is called (or the value is given away
    for good, to an operator of the user) *)
Inductive ev (K : Type) : Type := Got (k : K) | Gone (k : K).
Arguments Got {K} k.
Arguments Gone {K} k.

(** From the values [l] owned before, through the events [t], to those [l'] owned
    afterwards: only what is owned can be dropped, and it is not owned any longer. *)
Inductive books (K : Type) : list K -> list (ev K) -> list K -> Prop :=
| bk_done l l' : Permutation l l' -> books l [] l'
| bk_got l k t l' : books (k :: l) t l' -> books l (Got k :: t) l'
| bk_gone l k l1 t l' : Permutation l (k :: l1) -> books l1 t l' -> books l (Gone k :: t) l'.

(** the values obtained *)
Definition got {K} (t : list (ev K)) : list K := flat_map (fun e => match e with Got k => [k] | Gone _ => [] end) t.
(** the values dropped *)
Definition gone {K} (t : list (ev K)) : list K := flat_map (fun e => match e with Got _ => [] | Gone k => [k] end) t.
