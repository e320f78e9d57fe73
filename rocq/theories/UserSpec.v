(** What the user's iterators and clones deliver when they may panic; shared by
    the specifications of the counter and of the disjoint set. *)
From Verif Require Import Base.
Set Implicit Arguments.

(** the items an iterator yields before its first panic ([None]), and whether
    there is one *)
Fixpoint delivered {A} (evs : list (option A)) : list A * bool :=
  match evs with
  | [] => ([], false)
  | None :: _ => ([], true)
  | Some v :: r => (v :: fst (delivered r), snd (delivered r))
  end.

(** the same for an iterator over references whose items are cloned: the items
    up to the first panic of the iterator or of a clone *)
Fixpoint delivered_clones {A} (clone : A -> option A) (evs : list (option A)) : list A * bool :=
  match evs with
  | [] => ([], false)
  | None :: _ => ([], true)
  | Some v :: r =>
      match clone v with
      | Some _ => (v :: fst (delivered_clones clone r), snd (delivered_clones clone r))
      | None => ([], true)
      end
  end.
