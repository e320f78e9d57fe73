(** Model of the calls of src/disjoint_set/disjoint_set.rs that look up several
    elements, for element types whose [Eq] and [Hash] may answer otherwise at
    every lookup: each element comes with the relation by which its lookup is
    answered, as in [CTModel4].  Calls with a single lookup are those of
    [DSModel], under the relation of that lookup. *)
From Coq Require Import Permutation.
From Verif Require Import Base HMModel DSModel CTModel4.
Local Open Scope outcome_scope.
Set Implicit Arguments.

Section Model.
Variable K : Type.
(** [T: Clone] of the element type *)
Variable cl : K -> K.
Variable E : machine.

(** disjoint_set.rs:162-164 [make_set], of one item of an iterator. *)
Definition ds_make_set_q (x : asks K * K) (s : dset K) : dset K * outcome unit :=
  ds_make_set (fst x) E (snd x) s.

(** disjoint_set.rs:174-194 [union]. *)
Definition ds_union_q (a b : asks K * K) (s : dset K) : dset K * outcome unit :=
  match ds_make_or_get (fst a) E (snd a) s with
  | (s1, Ret ia) =>
      match ds_make_or_get (fst b) E (snd b) s1 with
      | (s2, Ret ib) =>
          match ds_find_in ia s2 with
          | (s3, Ret a_root) =>
              match ds_find_in ib s3 with
              | (s4, Ret b_root) =>
                  if a_root =? b_root then (s4, Ret tt)
                  else match ds_link E (ds_data s4) a_root b_root with
                       | (v, o) => (DSet (ds_ids s4) v, o)
                       end
              | (s4, o) => (s4, omap (fun _ => tt) o)
              end
          | (s3, o) => (s3, omap (fun _ => tt) o)
          end
      | (s2, o) => (s2, omap (fun _ => tt) o)
      end
  | (s1, o) => (s1, omap (fun _ => tt) o)
  end.

(** disjoint_set.rs:210-222 [in_union]. *)
Definition ds_in_union_q (a b : asks K * K) (s : dset K) : dset K * outcome bool :=
  match hm_get (fst a) (snd a) (ds_ids s) with
  | None => (s, Ret false)
  | Some ia =>
      match hm_get (fst b) (snd b) (ds_ids s) with
      | None => (s, Ret false)
      | Some ib =>
          match ds_find_in ia s with
          | (s1, Ret ra) =>
              match ds_find_in ib s1 with
              | (s2, Ret rb) => (s2, Ret (ra =? rb))
              | (s2, o) => (s2, omap (fun _ => false) o)
              end
          | (s1, o) => (s1, omap (fun _ => false) o)
          end
      end
  end.

(** disjoint_set.rs:296-303 [FromIterator<T>::from_iter]. *)
Definition ds_from_iter_q (hint : nat) (xs : list (asks K * K)) : outcome (dset K) :=
  let* s := ds_with_capacity K E hint in
  ds_finish (for_each ds_make_set_q xs s).

(** disjoint_set.rs:317-324 [FromIterator<&T>::from_iter]. *)
Definition ds_from_iter_ref_q (hint : nat) (xs : list (asks K * K)) : outcome (dset K) :=
  let* s := ds_with_capacity K E hint in
  ds_finish (for_each ds_make_set_q (map (clone_item cl) xs) s).

(** disjoint_set.rs:339-345 [Extend<T>::extend]. *)
Definition ds_extend_q (hint : nat) (xs : list (asks K * K)) (s : dset K) : dset K * outcome unit :=
  match ds_reserve E hint s with
  | (s1, Ret _) => for_each ds_make_set_q xs s1
  | (s1, _) => (s1, Panic)
  end.

(** disjoint_set.rs:359-365 [Extend<&T>::extend] ([T: Copy]). *)
Definition ds_extend_ref_q (hint : nat) (xs : list (asks K * K)) (s : dset K) : dset K * outcome unit :=
  match ds_reserve E hint s with
  | (s1, Ret _) => for_each ds_make_set_q (map (fun x => x) xs) s1
  | (s1, _) => (s1, Panic)
  end.

End Model.
