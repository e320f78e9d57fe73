(** What a comparison of two sequences may ask about their elements. *)
From Verif Require Import Base.
Set Implicit Arguments.

(** Questions and answers of a comparison of [la] with [lb]: elements at equal
    positions, in order, and every answer but the last one lets it go on. *)
Definition pairwise {T A} (go : A -> Prop) (la lb : list T) (tr : list (T * T * option A)) : Prop :=
  map fst tr = firstn (length tr) (combine la lb) /\
  forall p e q, tr = p ++ e :: q -> q <> [] -> exists a, snd e = Some a /\ go a.

(** all positions that both have were asked about, and all answers let go on *)
Definition exhausted {T A} (go : A -> Prop) (la lb : list T) (tr : list (T * T * option A)) : Prop :=
  map fst tr = combine la lb /\ Forall (fun e => exists a, snd e = Some a /\ go a) tr.

(** the last question was answered by [a] ([None]: with a panic) *)
Definition ends_with {T A} (a : option A) (tr : list (T * T * option A)) : Prop :=
  exists p x y, tr = p ++ [(x, y, a)].
