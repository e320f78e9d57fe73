(** Sorting by comparisons: what any function that sorts the elements of a vector
    by a key, and looks at the keys only by comparing two of them, can do. *)
From Coq Require Import Permutation.
From Verif Require Import Base.
Set Implicit Arguments.

(** A way to sort: the positions of the vector in their new order, or the question
    whether the key at position [i] is less than the one at [j], and how to go on. *)
Inductive sorting : Type :=
| Result (r : list nat)
| Compare (i j : nat) (less not_less : sorting).

(** the order found for given keys *)
Fixpoint result (t : sorting) (key : nat -> nat) : list nat :=
  match t with
  | Result r => r
  | Compare i j a b => if key i <? key j then result a key else result b key
  end.

(** the number of comparisons made *)
Fixpoint asked (t : sorting) (key : nat -> nat) : nat :=
  match t with
  | Result _ => 0
  | Compare i j a b => S (if key i <? key j then asked a key else asked b key)
  end.

(** the elements at the given positions *)
Definition pick {A} (l : list A) (r : list nat) : list A :=
  flat_map (fun i => match nth_error l i with Some x => [x] | None => [] end) r.
