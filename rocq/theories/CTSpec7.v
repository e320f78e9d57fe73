(** Which keys of a sequence are new to a collection, for C110; nothing is assumed
    about [eqb]. *)
From Verif Require Import Base.
Set Implicit Arguments.

(** those not met before: kept *)
Fixpoint fresh {K} (eqb : K -> K -> bool) (seen ks : list K) : list K :=
  match ks with
  | [] => []
  | k :: r => if existsb (eqb k) seen then fresh eqb seen r else k :: fresh eqb (k :: seen) r
  end.
(** those met before: superfluous *)
Fixpoint again {K} (eqb : K -> K -> bool) (seen ks : list K) : list K :=
  match ks with
  | [] => []
  | k :: r => if existsb (eqb k) seen then k :: again eqb seen r else again eqb (k :: seen) r
  end.
