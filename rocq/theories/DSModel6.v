(** The calls of src/disjoint_set/disjoint_set.rs together with what becomes of the
    elements: each that comes into the hands of the set ([Got]) and each destructor
    called ([Gone]), in order, as [CTModel6] for the counter.  User code is as in
    [DSModel2] and [DSModel3]; it may behave differently from call to call, and [Eq]
    obeys no law.  Forgetting the events gives the functions of those files back (C111).

    Simplifications: destructors do not panic (for those see [DSModel3]); the items an
    iterator has not delivered are its own business; [Extend<&T>]
    (disjoint_set.rs:359-365) is left out, since types that are [Copy] have no destructor. *)
From Coq Require Import Permutation.
From Verif Require Import Base HMModel DSModel DSModel3 OwnSpec.
Local Open Scope outcome_scope.
Set Implicit Arguments.

(** What the element type does during one call: [Eq] (disjoint_set.rs:105), whether
    looking up an element panics, whether making room for so many more does, and
    [Clone] (disjoint_set.rs:308), which may panic.  (std loses no element when room
    cannot be made, see [DSModel3].) *)
Record elems_do (K : Type) : Type := ElemsDo {
  ed_eq : K -> K -> bool;
  ed_look : hmap K nat -> K -> bool;
  ed_room : hmap K nat -> nat -> bool;
  ed_clone : K -> option K }.

Section Model.
Variable K : Type.
Variable E : machine.
Variable u : elems_do K.

(** disjoint_set.rs:106: the elements of the table, which it drops when it is emptied
    or dropped *)
Definition ds_elems (s : dset K) : list K := map fst (ds_ids s).

(** disjoint_set.rs:242-254 [make_or_get_set], [val] being in hand: it is dropped when
    the lookup panics, when there is no room and at the end of the [Occupied] arm; it
    is already in the table when [data_by_id] cannot grow. *)
Definition ds_make_or_get_o (val : K) (s : dset K) : (dset K * outcome nat) * list (ev K) :=
  let next_id := length (ds_ids s) in
  if ed_look u (ds_ids s) val then ((s, Panic), [Gone val])
  else match hm_entry (ed_eq u) E val (ds_ids s) with
  | Ret Vacant =>
      let ids := hm_insert_vacant val next_id (ds_ids s) in
      match vec_push E (ds_data s) (data_new next_id) with
      | Ret v => ((DSet ids v, Ret next_id), [])
      | _ => ((DSet ids (ds_data s), Panic), [])
      end
  | Ret (Occupied id) => ((s, Ret id), [Gone val])
  | _ => ((s, Panic), [Gone val])
  end.

(** disjoint_set.rs:162-164 [make_set]. *)
Definition ds_make_set_o (val : K) (s : dset K) : (dset K * outcome unit) * list (ev K) :=
  match ds_make_or_get_o val s with ((s', o), t) => ((s', omap (fun _ => tt) o), Got val :: t) end.

(** disjoint_set.rs:174-194 [union]: both elements are handed over; when the first
    panics, the second is dropped while unwinding. *)
Definition ds_union_o (a b : K) (s : dset K) : (dset K * outcome unit) * list (ev K) :=
  match ds_make_or_get_o a s with
  | ((s1, Ret ia), ta) =>
      match ds_make_or_get_o b s1 with
      | ((s2, Ret ib), tb) =>
          (match ds_find_in ia s2 with
           | (s3, Ret a_root) =>
               match ds_find_in ib s3 with
               | (s4, Ret b_root) =>
                   if a_root =? b_root then (s4, Ret tt)
                   else match ds_link E (ds_data s4) a_root b_root with
                        | (v, o) => (DSet (ds_ids s4) v, o)
                        end
               | (s4, o) => (s4, omap (fun _ => tt) o)
               end
           | (s3, o) => (s3, omap (fun _ => tt) o)
           end, Got a :: Got b :: ta ++ tb)
      | ((s2, o), tb) => ((s2, omap (fun _ => tt) o), Got a :: Got b :: ta ++ tb)
      end
  | ((s1, o), ta) => ((s1, omap (fun _ => tt) o), Got a :: Got b :: ta ++ [Gone b])
  end.

(** [for val in iter { self.make_set(val) }], disjoint_set.rs:299-301 and 342-344;
    each item is one call of [next] ([None]: it panics). *)
Fixpoint ds_make_from_o (evs : list (option K)) (s : dset K) : (dset K * outcome unit) * list (ev K) :=
  match evs with
  | [] => ((s, Ret tt), [])
  | None :: _ => ((s, Panic), [])
  | Some val :: evs' =>
      match ds_make_set_o val s with
      | ((s', Ret _), t) => match ds_make_from_o evs' s' with (x, t') => (x, t ++ t') end
      | ((s', o), t) => ((s', o), t)
      end
  end.

(** the set built by a constructor (disjoint_set.rs:302, 323): dropped if it panics *)
Definition ds_finish_o (r : (dset K * outcome unit) * list (ev K)) : outcome (dset K) * list (ev K) :=
  match r with
  | ((s, Ret _), t) => (Ret s, t)
  | ((s, _), t) => (Panic, t ++ map Gone (ds_elems s))
  end.

(** disjoint_set.rs:296-303 [FromIterator<T>::from_iter]; [hint]: the lower size hint,
    or [None] if [size_hint] panics. *)
Definition ds_from_iter_o (hint : option nat) (evs : list (option K)) : outcome (dset K) * list (ev K) :=
  match hint with
  | Some h =>
      match ds_with_capacity K E h with
      | Ret s => ds_finish_o (ds_make_from_o evs s)
      | _ => (Panic, [])
      end
  | None => (Panic, [])
  end.

(** disjoint_set.rs:317-324 [FromIterator<&T>::from_iter]. *)
Definition ds_from_iter_ref_o (hint : option nat) (evs : list (option K)) : outcome (dset K) * list (ev K) :=
  match hint with
  | Some h =>
      match ds_with_capacity K E h with
      | Ret s => ds_finish_o (ds_make_from_o
          (map (fun e => match e with Some val => ed_clone u val | None => None end) evs) s)
      | _ => (Panic, [])
      end
  | None => (Panic, [])
  end.

(** disjoint_set.rs:339-345 [Extend<T>::extend]. *)
Definition ds_extend_o (hint : option nat) (evs : list (option K)) (s : dset K) : (dset K * outcome unit) * list (ev K) :=
  match hint with
  | Some h =>
      if ed_room u (ds_ids s) h then ((s, Panic), [])
      else match ds_reserve E h s with
      | (s1, Ret _) => ds_make_from_o evs s1
      | (s1, _) => ((s1, Panic), [])
      end
  | None => ((s, Panic), [])
  end.

(** disjoint_set.rs:104 derived [Clone], its first field, entry by entry: the clones
    made are dropped if one panics.  [acc]: those already made, last first.  (The std
    of 2018 leaked them.) *)
Fixpoint ds_clone_ids_o (acc l : hmap K nat) : outcome (hmap K nat) * list (ev K) :=
  match l with
  | [] => (Ret (rev acc), [])
  | (val, id) :: r =>
      match ed_clone u val with
      | None => (Panic, map Gone (map fst (rev acc)))
      | Some val' => match ds_clone_ids_o ((val', id) :: acc) r with (o, t) => (o, Got val' :: t) end
      end
  end.

(** disjoint_set.rs:104 derived [Clone]. *)
Definition ds_clone_o (s : dset K) : outcome (dset K) * list (ev K) :=
  match ds_clone_ids_o [] (ds_ids s) with (o, t) => (let* ids := o in Ret (DSet ids (ds_data s)), t) end.

(** A call on one set (disjoint_set.rs:162-240, 339-345, 368-375). *)
Inductive elem_op : Type :=
| XMake (x : K) | XUnion (a b : K) | XInUnion (a b : K) | XExtend (hint : option nat) (evs : list (option K))
| XReserve (n : nat) | XIter (order : hmap K nat -> hmap K nat) | XClear.

(** disjoint_set.rs:162-375: what each call does to the set and to elements; [in_union]
    is given references, and iterating hands out references. *)
Definition ds_step_o (o : elem_op) (s : dset K) : (dset K * outcome unit) * list (ev K) :=
  match o with
  | XMake x => ds_make_set_o x s
  | XUnion a b => ds_union_o a b s
  | XInUnion a b => (match ds_in_union_u (ed_eq u) (ed_look u) a b s with (s', o) => (s', omap (fun _ => tt) o) end, [])
  | XExtend h evs => ds_extend_o h evs s
  | XReserve n => (if ed_room u (ds_ids s) n then (s, Panic) else ds_reserve E n s, [])
  | XIter order => (match ds_build_sets E (order (ds_ids s)) s with (s', o) => (s', omap (fun _ => tt) o) end, [])
  | XClear => ((ds_clear s, Ret tt), map Gone (ds_elems s))
  end.
End Model.

(** A history (disjoint_set.rs:162-375): panics are caught, and the element type may do
    something else during each call. *)
Fixpoint ds_run_o K (E : machine) (ops : list (elems_do K * elem_op K)) (s : dset K) : dset K * list (ev K) :=
  match ops with
  | [] => (s, [])
  | (u, o) :: ops' =>
      match ds_step_o E u o s with
      | ((s1, _), t) => match ds_run_o E ops' s1 with (s2, t') => (s2, t ++ t') end
      end
  end.
