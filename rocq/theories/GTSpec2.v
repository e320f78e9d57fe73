(** What is left of a map when [Eq] and [Hash] obey no law: a collection of entries, some of which
    a call may find, change or remove.  Nothing here mentions the model of a table. *)
From Coq Require Import Permutation.
From Verif Require Import Base GTSpec.
Set Implicit Arguments.

Section Spec.
Variables K V : Type.
Variable E : machine.

(** [e] is one of the entries [l], the others are [rest], and [Eq] as it was during the call
    said that [k] is its key *)
Definition picks (eqb : K -> K -> bool) (k : K) (e : K * V) (l rest : list (K * V)) : Prop :=
  Permutation l (e :: rest) /\ eqb k (fst e) = true.

(** a call with [eqb] as [Eq] may take the entries [l] to [l'] and end with [r] *)
Definition may (eqb : K -> K -> bool) (c : call K V) (l l' : list (K * V)) (r : outcome (answer K V)) : Prop :=
  match c with
  | TGet _ k => Permutation l l' /\
      (r = Ret (AEntry None) \/ exists e rest, picks eqb k e l rest /\ r = Ret (AEntry (Some e)))
  | TLen => Permutation l l' /\ r = Ret (ANum (length l))
  | TIter => Permutation l l' /\ exists a, Permutation l a /\ r = Ret (AAll a)
  | TInsert k v =>
      (exists k' old rest, picks eqb k (k', old) l rest /\ Permutation l' ((k', v) :: rest) /\ r = Ret (AOld K (Some old))) \/
      (length l < alloc_max E /\ Permutation l' ((k, v) :: l) /\ r = Ret (AOld K None)) \/
      (alloc_max E <= length l /\ Permutation l' l /\ r = Panic)
  | TUpsert k d up =>
      (exists k' old rest, picks eqb k (k', old) l rest /\ Permutation l' ((k', up old) :: rest) /\ r = Ret (AVal K (up old))) \/
      (length l < alloc_max E /\ Permutation l' ((k, up d) :: l) /\ r = Ret (AVal K (up d))) \/
      (alloc_max E <= length l /\ Permutation l' l /\ r = Panic)
  | TUpdate k up => r = Ret AUnit /\
      (Permutation l' l \/ exists k' old rest, picks eqb k (k', old) l rest /\ Permutation l' ((k', up old) :: rest))
  | TRemove _ k =>
      (Permutation l' l /\ r = Ret (AOld K None)) \/
      (exists k' old rest, picks eqb k (k', old) l rest /\ Permutation l' rest /\ r = Ret (AOld K (Some old)))
  | TRetain p => Permutation l' (filter (fun e => p (fst e) (snd e)) l) /\ r = Ret AUnit
  | TReserve n => Permutation l' l /\ r = (if length l + n <=? alloc_max E then Ret AUnit else Panic)
  | TClear => l' = [] /\ r = Ret AUnit
  end.

(** a history of calls, each with its own [Eq] *)
Inductive story : list ((K -> K -> bool) * call K V) -> list (K * V) -> list (K * V) -> list (outcome (answer K V)) -> Prop :=
| story_end l : story [] l l []
| story_call eqb c cs l l1 l2 r rs : may eqb c l l1 r -> story cs l1 l2 rs -> story ((eqb, c) :: cs) l l2 (r :: rs).
End Spec.
