(** Functions that carry an order over, as it is or turned round.  Independent of the
    model. *)
From Verif Require Import Base.
Set Implicit Arguments.

Section Carry.
Variable T : Type.
Variable cmp : T -> T -> comparison.
Implicit Types f : T -> outcome T.

(** the values of [f], where it has one, are ordered as the arguments *)
Definition keeps_order f : Prop :=
  forall x y x' y', f x = Ret x' -> f y = Ret y' -> cmp x' y' = cmp x y.
(** ... the other way round *)
Definition turns_order f : Prop :=
  forall x y x' y', f x = Ret x' -> f y = Ret y' -> cmp x' y' = cmp y x.
End Carry.
