(** Answers that cannot be told apart, given that hash maps are traversed in any order.
    Independent of the model. *)
From Verif Require Import Base DSSpec.
Set Implicit Arguments.

Section Same.
Variable K : Type.
Variable eqb : K -> K -> bool.

(** the same sets: the same elements (up to equality) together, as many in all *)
Definition same_sets (ss ts : list (list K)) : Prop :=
  (forall x y, (exists q, In q ss /\ mem eqb x q /\ mem eqb y q) <-> (exists q, In q ts /\ mem eqb x q /\ mem eqb y q)) /\
  length (concat ss) = length (concat ts).

(** the same outcome, where sets are handed out the same sets *)
Definition same_answer (r r' : outcome (out K)) : Prop :=
  match r, r' with
  | Ret (RSets ss), Ret (RSets ts) => same_sets ss ts
  | _, _ => r = r'
  end.

(** logs with the same elements and the same partition *)
Definition alike (g h : log K) : Prop :=
  (forall x, mem eqb x (added g) <-> mem eqb x (added h)) /\
  (forall x y, together eqb g x y <-> together eqb h x y).
End Same.
