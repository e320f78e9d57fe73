(** Specification of the counter when user code panics and counts wrap around. *)
From Verif Require Import Base CTSpec.
Set Implicit Arguments.

Section Spec.
Variable K : Type.
Variable eqb : K -> K -> bool.
Variable E : machine.

(** the counts [a] with the items [ys] counted on top *)
Definition counted_on (a : K -> option nat) (ys : list K) : K -> option nat := fun x =>
  if occ eqb x ys =? 0 then a x else Some (wrap E (opt_count (a x) + occ eqb x ys)).

(** the counts [a] with the numbers of [l] added *)
Definition added_on (a : K -> option nat) (l : list (K * nat)) : K -> option nat := fun x =>
  match entry_in eqb l x with
  | None => a x
  | Some _ => Some (wrap E (opt_count (a x) + amount eqb x l))
  end.

(** the counts [a] with the numbers of [l] (at most one per key) taken away *)
Definition taken_off (a : K -> option nat) (l : list (K * nat)) : K -> option nat := fun x =>
  opt_minus (a x) (option_map snd (entry_in eqb l x)).

(** How counting items on top of the counts [a] of [n] keys may end: the size
    hint does not fit or panics and nothing is counted; or all the items [xs]
    are counted and the iterator ends or panics; or an item cannot be counted
    and exactly those before it are. *)
Definition extension (hint : option nat) (xs : list K) (stop : bool)
  (a : K -> option nat) (n : nat) (a' : K -> option nat) (n' : nat) (r : outcome unit) : Prop :=
  ((hint = None \/ exists h, hint = Some h /\ alloc_max E < n + h) /\
     (forall x, a' x = a x) /\ r = Panic) \/
  (exists h, hint = Some h /\ n + h <= alloc_max E /\
     ((forall x, a' x = counted_on a xs x) /\ r = (if stop then Panic else Ret tt) \/
      exists ys z zs, xs = ys ++ z :: zs /\ (forall x, a' x = counted_on a ys x) /\ r = Panic /\
        (debug_build E = true /\ a' z = Some (usize_max E) \/ a' z = None /\ n' = alloc_max E))).

End Spec.
