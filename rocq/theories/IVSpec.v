(** Specification for intervals: an interval is seen only through the tuple it
    converts to, and that tuple denotes a set of points. *)
From Verif Require Import Base.
Set Implicit Arguments.

Section Spec.
Variable T : Type.
Variable cmp : T -> T -> comparison.

(** The contract of [T: Ord]: a total order, up to its own equality. *)
Record ord_laws : Prop := {
  ord_opp : forall x y, cmp y x = CompOpp (cmp x y);
  ord_eq : forall x y z, cmp x y = Eq -> cmp x z = cmp y z;
  ord_lt : forall x y z, cmp x y = Lt -> cmp y z = Lt -> cmp x z = Lt
}.

(** the order's strict part *)
Definition lt x y : Prop := cmp x y = Lt.
(** its reflexive part *)
Definition le x y : Prop := cmp x y <> Gt.
(** its equality *)
Definition eqv x y : Prop := cmp x y = Eq.

(** between any two different values there is a third *)
Definition dense : Prop := forall x y, lt x y -> exists z, lt x z /\ lt z y.

(** the values a lower end lets through *)
Definition admits_above (v : T) (closed : bool) (x : T) : Prop := if closed then le v x else lt v x.
(** the values an upper end lets through *)
Definition admits_below (v : T) (closed : bool) (x : T) : Prop := if closed then le x v else lt x v.

(** what [into_tuple] gives: lower value, closed?, upper value, closed?; [None] for empty *)
Definition ends : Type := option (T * bool * T * bool).

(** the set of points *)
Definition mem (t : ends) (x : T) : Prop :=
  match t with
  | None => False
  | Some (l, lc, u, uc) => admits_above l lc x /\ admits_below u uc x
  end.

(** lower value below upper value, or one closed point, or empty *)
Definition well_formed (t : ends) : Prop :=
  match t with
  | None => True
  | Some (l, lc, u, uc) => lt l u \/ eqv l u /\ lc = true /\ uc = true
  end.

(** same ends, up to the element equality *)
Definition same (s t : ends) : Prop :=
  match s, t with
  | None, None => True
  | Some (l, lc, u, uc), Some (l', lc', u', uc') => eqv l l' /\ lc = lc' /\ eqv u u' /\ uc = uc'
  | _, _ => False
  end.

(** a set without gaps *)
Definition convex (P : T -> Prop) : Prop := forall x y z, P x -> P y -> le x z -> le z y -> P z.
End Spec.
