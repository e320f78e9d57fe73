(** Programs on a store of intervals, and when two of them cannot be told apart.
    Independent of the model: an interval is seen through its ends. *)
From Verif Require Import Base.
Set Implicit Arguments.

(** what an interval shows: nothing, or lower end and whether it is closed, upper
    end and whether it is closed *)
Definition ends (T : Type) : Type := option (T * bool * T * bool).

(** ways to make an interval *)
Inductive make (T : Type) : Type :=
| MEmpty | MSingle (v : T) | MNew (l : T) (lc : bool) (u : T) (uc : bool)
| MOpen (l u : T) | MClosed (l u : T) | MLowerClosed (l u : T) | MUpperClosed (l u : T).
Arguments MEmpty {T}.

(** the four operators *)
Inductive oper : Type := Plus | Minus | Times | Over.

(** Calls; numbers are the places of the store the intervals are in.  The first is the
    place of the result or, in calls that change an interval in place, of the receiver.  [KIntoMerged d e a b]: merged into [d], or
    handed back in [d] and [e]. *)
Inductive call (T U : Type) : Type :=
| KMake (d : nat) (m : make T)
| KMerge (d a : nat) | KIntoMerged (d e a b : nat)
| KIntersection (d a : nat) | KIntoIntersection (d a b : nat)
| KSpan (d a : nat) | KIntoSpan (d a b : nat)
| KOper (o : oper) (d a : nat) (k : U) | KAssign (o : oper) (d : nat) (k : U) | KNeg (d a : nat)
| KCompare (a b : nat) | KCompareVal (a : nat) (v : T) | KEnds (a : nat).
Arguments KMerge {T U} d a. Arguments KIntoMerged {T U} d e a b.
Arguments KIntersection {T U} d a. Arguments KIntoIntersection {T U} d a b.
Arguments KSpan {T U} d a. Arguments KIntoSpan {T U} d a b.
Arguments KNeg {T U} d a. Arguments KCompare {T U} a b. Arguments KEnds {T U} a.
Arguments KMake {T U} d m. Arguments KOper {T U} o d a k. Arguments KAssign {T U} o d k. Arguments KCompareVal {T U} a v.

(** what calls tell *)
Inductive answer (T : Type) : Type :=
| AUnit | AMerged (b : bool) | ABools (l : list bool) (c : option comparison) | AEnds (e : ends T).
Arguments AUnit {T}. Arguments AMerged {T} b. Arguments ABools {T} l c.

Section Alike.
Variables T U : Type.
Variable cmp : T -> T -> comparison.
Variable R : T -> T -> Prop.
Variable W : U -> U -> Prop.

(** elements in relation are ordered alike *)
Definition ordered_alike : Prop := forall x y p q, R x p -> R y q -> cmp p q = cmp x y.

(** outcomes in relation *)
Definition out_rel (A B : Type) (Q : A -> B -> Prop) (x : outcome A) (y : outcome B) : Prop :=
  match x, y with
  | Ret a, Ret b => Q a b
  | Panic, Panic | Abort, Abort | UB, UB | NoFuel, NoFuel => True
  | _, _ => False
  end.

(** operators of the element type that keep the relation *)
Definition op_alike (f : T -> U -> outcome T) : Prop := forall x p k k', R x p -> W k k' -> out_rel R (f x k) (f p k').
Definition assign_alike (f : T -> U -> T * outcome unit) : Prop := forall x p k k', R x p -> W k k' ->
  R (fst (f x k)) (fst (f p k')) /\ snd (f x k) = snd (f p k').
Definition neg_alike (f : T -> outcome T) : Prop := forall x p, R x p -> out_rel R (f x) (f p).

Definition ends_rel (a b : ends T) : Prop :=
  match a, b with
  | None, None => True
  | Some (l, lc, u, uc), Some (l', lc', u', uc') => R l l' /\ lc' = lc /\ R u u' /\ uc' = uc
  | _, _ => False
  end.

Definition make_rel (m n : make T) : Prop :=
  match m, n with
  | MEmpty, MEmpty => True
  | MSingle v, MSingle v' => R v v'
  | MNew l lc u uc, MNew l' lc' u' uc' => R l l' /\ lc' = lc /\ R u u' /\ uc' = uc
  | MOpen l u, MOpen l' u' | MClosed l u, MClosed l' u'
  | MLowerClosed l u, MLowerClosed l' u' | MUpperClosed l u, MUpperClosed l' u' => R l l' /\ R u u'
  | _, _ => False
  end.

(** the same call but for elements in relation *)
Definition call_rel (c d : call T U) : Prop :=
  match c, d with
  | KMake p m, KMake q n => p = q /\ make_rel m n
  | KOper o p a k, KOper o' p' a' k' => o = o' /\ p = p' /\ a = a' /\ W k k'
  | KAssign o p k, KAssign o' p' k' => o = o' /\ p = p' /\ W k k'
  | KCompareVal a v, KCompareVal a' v' => a = a' /\ R v v'
  | KMake _ _, _ | KOper _ _ _ _, _ | KAssign _ _ _, _ | KCompareVal _ _, _ => False
  | _, _ => c = d
  end.

(** the same answer but for elements in relation *)
Definition answer_rel (x y : answer T) : Prop :=
  match x, y with
  | AEnds a, AEnds b => ends_rel a b
  | _, _ => x = y
  end.
End Alike.
