(** More of src/disjoint_set/disjoint_set.rs: [Hash] or [Eq] of elements
    panicking in lookups ([hp]) and while room is made ([rp]), and elements whose
    destructor panics ([dp]).

    Simplification: what an abandoned iterator drops is left out.  (std leaves the
    entries of a map as they are when hashing or comparing an element panics,
    except when it rehashes in place; it does that only to tidy up after removals,
    and no element is ever removed by itself.) *)
From Verif Require Import Base HMModel DSModel.
Local Open Scope outcome_scope.
Set Implicit Arguments.

Section Model.
Variable K : Type.
(** [T: Eq] of the element type *)
Variable eqb : K -> K -> bool.
(** whether looking up an element in a map with the given entries panics:
    because of the element itself, of a stored one it is compared with, or of a
    stored one that is hashed again to make room for the new one *)
Variable hp : hmap K nat -> K -> bool.
(** whether making room for so many more entries panics (a stored element is
    hashed again) *)
Variable rp : hmap K nat -> nat -> bool.
(** the elements whose destructor panics *)
Variable dp : K -> bool.
Variable E : machine.

(** A panic that drops [val] while unwinding: a second panic aborts. *)
Definition ds_unwind {A} (val : K) : outcome A := if dp val then Abort else Panic.

(** disjoint_set.rs:242-254 [make_or_get_set]: [val] is dropped when the lookup
    panics, when there is no room, and at the end of the [Occupied] arm. *)
Definition ds_make_or_get_u (val : K) (s : dset K) : dset K * outcome nat :=
  let next_id := length (ds_ids s) in
  if hp (ds_ids s) val then (s, ds_unwind val)
  else match hm_entry eqb E val (ds_ids s) with
  | Ret Vacant =>
      let ids := hm_insert_vacant val next_id (ds_ids s) in
      match vec_push E (ds_data s) (data_new next_id) with
      | Ret v => (DSet ids v, Ret next_id)
      | _ => (DSet ids (ds_data s), Panic)
      end
  | Ret (Occupied id) => (s, if dp val then Panic else Ret id)
  | _ => (s, ds_unwind val)
  end.

(** disjoint_set.rs:162-164 [make_set]. *)
Definition ds_make_set_u (val : K) (s : dset K) : dset K * outcome unit :=
  match ds_make_or_get_u val s with (s', o) => (s', omap (fun _ => tt) o) end.

(** disjoint_set.rs:174-194 [union]: when the first element panics, the second
    is dropped while unwinding. *)
Definition ds_union_u (a b : K) (s : dset K) : dset K * outcome unit :=
  match ds_make_or_get_u a s with
  | (s1, Ret ia) =>
      match ds_make_or_get_u b s1 with
      | (s2, Ret ib) =>
          match ds_find_in ia s2 with
          | (s3, Ret a_root) =>
              match ds_find_in ib s3 with
              | (s4, Ret b_root) =>
                  if a_root =? b_root then (s4, Ret tt)
                  else match ds_link E (ds_data s4) a_root b_root with
                       | (v, o) => (DSet (ds_ids s4) v, o)
                       end
              | (s4, o) => (s4, omap (fun _ => tt) o)
              end
          | (s3, o) => (s3, omap (fun _ => tt) o)
          end
      | (s2, o) => (s2, omap (fun _ => tt) o)
      end
  | (s1, Panic) => (s1, ds_unwind b)
  | (s1, o) => (s1, omap (fun _ => tt) o)
  end.

(** disjoint_set.rs:201-203 [contains]. *)
Definition ds_contains_u (val : K) (s : dset K) : outcome bool :=
  if hp (ds_ids s) val then Panic else Ret (ds_contains eqb val s).

(** disjoint_set.rs:210-222 [in_union]; the second element is only looked up
    when the first is found. *)
Definition ds_in_union_u (a b : K) (s : dset K) : dset K * outcome bool :=
  if hp (ds_ids s) a then (s, Panic)
  else match hm_get eqb a (ds_ids s) with
  | None => (s, Ret false)
  | Some ia =>
      if hp (ds_ids s) b then (s, Panic)
      else match hm_get eqb b (ds_ids s) with
      | None => (s, Ret false)
      | Some ib =>
          match ds_find_in ia s with
          | (s1, Ret ra) =>
              match ds_find_in ib s1 with
              | (s2, Ret rb) => (s2, Ret (ra =? rb))
              | (s2, o) => (s2, omap (fun _ => false) o)
              end
          | (s1, o) => (s1, omap (fun _ => false) o)
          end
      end
  end.

(** disjoint_set.rs:339-345 [Extend<T>::extend]. *)
Definition ds_extend_u (hint : nat) (xs : list K) (s : dset K) : dset K * outcome unit :=
  if rp (ds_ids s) hint then (s, Panic)
  else match ds_reserve E hint s with
  | (s1, Ret _) => for_each ds_make_set_u xs s1
  | (s1, _) => (s1, Panic)
  end.

(** disjoint_set.rs:232-235 [clear].  When the destructor of a stored element
    panics, [self.ids.clear()] does not return and [data_by_id] is not cleared.
    [left]: the entries std leaves in the map then (none with today's std, the
    ones not yet dropped with older ones). *)
Definition ds_clear_u (left : hmap K nat) (s : dset K) : dset K * outcome unit :=
  if existsb (fun e => dp (fst e)) (ds_ids s) then (DSet left (ds_data s), Panic)
  else (DSet [] [], Ret tt).

End Model.
