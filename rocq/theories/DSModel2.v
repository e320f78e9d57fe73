(** More of src/disjoint_set/disjoint_set.rs: iterators and clones that panic.
    The user's code is given by data as in [CTModel2]: a panicking
    [size_hint()], [next] or [clone] is [None]. *)
From Verif Require Import Base HMModel DSModel.
Local Open Scope outcome_scope.
Set Implicit Arguments.

Section Model.
Variable K : Type.
(** [T: Eq] of the element type *)
Variable eqb : K -> K -> bool.
(** [T: Clone] of the element type *)
Variable clone : K -> option K.
Variable E : machine.

(** [for val in iter { self.make_set(val) }], disjoint_set.rs:299-301 and
    342-344. *)
Fixpoint ds_make_from (evs : list (option K)) (s : dset K) : dset K * outcome unit :=
  match evs with
  | [] => (s, Ret tt)
  | None :: _ => (s, Panic)
  | Some val :: evs' =>
      match ds_make_set eqb E val s with
      | (s', Ret _) => ds_make_from evs' s'
      | (s', o) => (s', o)
      end
  end.

(** disjoint_set.rs:296-303 [FromIterator<T>::from_iter] from any iterator. *)
Definition ds_from_iter_from (hint : option nat) (evs : list (option K)) : outcome (dset K) :=
  match hint with
  | Some h => let* s := ds_with_capacity K E h in ds_finish (ds_make_from evs s)
  | None => Panic
  end.

(** disjoint_set.rs:317-324 [FromIterator<&T>::from_iter] from any iterator. *)
Definition ds_from_iter_refs (hint : option nat) (evs : list (option K)) : outcome (dset K) :=
  match hint with
  | Some h =>
      let* s := ds_with_capacity K E h in
      ds_finish (ds_make_from
        (map (fun ev => match ev with Some val => clone val | None => None end) evs) s)
  | None => Panic
  end.

(** disjoint_set.rs:339-345 [Extend<T>::extend] from any iterator. *)
Definition ds_extend_from (hint : option nat) (evs : list (option K)) (s : dset K)
  : dset K * outcome unit :=
  match hint with
  | Some h =>
      match ds_reserve E h s with
      | (s1, Ret _) => ds_make_from evs s1
      | (s1, _) => (s1, Panic)
      end
  | None => (s, Panic)
  end.

(** disjoint_set.rs:359-365 [Extend<&T>::extend] from any iterator; [T: Copy],
    so the clone does not panic. *)
Definition ds_extend_refs (hint : option nat) (evs : list (option K)) (s : dset K)
  : dset K * outcome unit :=
  match hint with
  | Some h =>
      match ds_reserve E h s with
      | (s1, Ret _) => ds_make_from (map (option_map (fun val => val)) evs) s1
      | (s1, _) => (s1, Panic)
      end
  | None => (s, Panic)
  end.

End Model.
