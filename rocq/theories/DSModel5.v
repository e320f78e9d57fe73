(** Model of src/disjoint_set/disjoint_set.rs once more, each call listing what it
    does to the table [ids] and to the vector [data_by_id]: the keys looked up,
    the elements of the vector read or written, the room asked for.

    Simplifications: what the temporary map of [build_sets] is asked for, hashing,
    and the moving of entries when the table or the vector grows are not listed.
    Iterating over the table and emptying table and vector ([clear]) are not either. *)
From Coq Require Import NArith.
From Verif Require Import Base HMModel DSModel DSSpec DSSpec2 DSRun.
Set Implicit Arguments.

(** disjoint_set.rs:105-108: an access to [ids] (looking up a key, having room for
    [n] entries in all) or to [data_by_id] (reading or writing element [i], having
    room for [n] elements in all) *)
Inductive access (K : Type) : Type := Look (k : K) | IdsRoom (n : nat) | Node (i : nat) | DataRoom (n : nat).
Arguments Look {K} k.
Arguments IdsRoom {K} n.
Arguments Node {K} i.
Arguments DataRoom {K} n.

(** disjoint_set.rs:256-263 [find_with_path_compression], as [ds_find], and the
    elements read or written in order. *)
Fixpoint ds_find_t (fuel : nat) (v : list data) (id : nat) : (list data * outcome nat) * list nat :=
  match fuel with
  | 0 => ((v, NoFuel), [])
  | S fuel' =>
      match vec_at v id with
      | Ret d =>
          if parent d =? id then ((v, Ret (parent d)), [id])
          else
            match ds_find_t fuel' v (parent d) with
            | ((v1, Ret p), t) =>
                match vec_at v1 id with
                | Ret d1 => ((vec_set v1 id (Data p (rank d1)), Ret p), id :: t ++ [id])
                | _ => ((v1, Panic), id :: t)
                end
            | ((v1, o), t) => ((v1, o), id :: t)
            end
      | _ => ((v, Panic), [])
      end
  end.

Section Model.
Variable K : Type.
Variable eqb : K -> K -> bool.
Variable cl : K -> K.
Variable E : machine.
(** whether std makes room for one more entry at every [entry] call (as in 2018)
    or only if the key is absent (as later) *)
Variable eager : bool.

(** a call with the list of its accesses (disjoint_set.rs:110-273) *)
Definition traced (A : Type) : Type := dset K -> (dset K * outcome A) * list (access K).

(** one statement after another (disjoint_set.rs:174-194, 242-254): the second is
    not reached if the first panics *)
Definition then_t {A B} (m : traced A) (f : A -> traced B) : traced B := fun s =>
  match m s with
  | ((s1, Ret a), t) => match f a s1 with (r, t') => (r, t ++ t') end
  | ((s1, o), t) => ((s1, obind o (fun _ => Panic)), t)
  end.

(** disjoint_set.rs:242-254 [make_or_get_set]. *)
Definition ds_make_or_get_t (val : K) : traced nat := fun s =>
  let next_id := length (ds_ids s) in
  let t := Look val :: if eager || negb (hm_contains eqb val (ds_ids s)) then [IdsRoom (length (ds_ids s) + 1)] else [] in
  match hm_entry eqb E val (ds_ids s) with
  | Ret Vacant =>
      let ids := hm_insert_vacant val next_id (ds_ids s) in
      match vec_push E (ds_data s) (data_new next_id) with
      | Ret v => ((DSet ids v, Ret next_id), t ++ [DataRoom (length (ds_data s) + 1); Node (length (ds_data s))])
      | _ => ((DSet ids (ds_data s), Panic), t ++ [DataRoom (length (ds_data s) + 1)])
      end
  | Ret (Occupied id) => ((s, Ret id), t)
  | _ => ((s, Panic), t)
  end.

(** disjoint_set.rs:162-164 [make_set]. *)
Definition ds_make_set_t (val : K) : traced unit := fun s =>
  match ds_make_or_get_t val s with ((s', o), t) => ((s', omap (fun _ => tt) o), t) end.

(** [find_with_path_compression(&mut self.data_by_id, id)] (disjoint_set.rs:
    177, 178, 221, 268), as [ds_find_in]. *)
Definition ds_find_in_t (id : nat) : traced nat := fun s =>
  match ds_find_t (S (length (ds_data s))) (ds_data s) id with
  | ((v, o), t) => ((DSet (ds_ids s) v, o), map (fun i => Node i) t)
  end.

(** disjoint_set.rs:183-193, as [ds_link]: both ranks are compared, the parent of
    one root is written, both ranks are compared again, one is written. *)
Definition ds_link_t (a_root b_root : nat) : traced unit := fun s =>
  let v := ds_data s in
  let back v o t := ((DSet (ds_ids s) v, o), map (fun i => Node i) t) in
  match vec_at v a_root, vec_at v b_root with
  | Ret da, Ret db =>
      let lower := (rank da <? rank db)%N in
      let hi := if lower then b_root else a_root in
      let lo := if lower then a_root else b_root in
      match vec_at v lo with
      | Ret dlo =>
          let v1 := vec_set v lo (Data hi (rank dlo)) in
          match vec_at v1 hi, vec_at v1 lo with
          | Ret dh, Ret dl =>
              if (rank dh =? rank dl)%N then
                match rank_incr E (rank dh) with
                | Ret r => back (vec_set v1 hi (Data (parent dh) r)) (Ret tt) [a_root; b_root; lo; hi; lo; hi]
                | _ => back v1 Panic [a_root; b_root; lo; hi; lo; hi]
                end
              else back v1 (Ret tt) [a_root; b_root; lo; hi; lo]
          | _, _ => back v1 Panic [a_root; b_root; lo]
          end
      | _ => back v Panic [a_root; b_root]
      end
  | Ret _, _ => back v Panic [a_root]
  | _, _ => back v Panic []
  end.

(** disjoint_set.rs:174-194 [union]. *)
Definition ds_union_t (a b : K) : traced unit :=
  then_t (ds_make_or_get_t a) (fun ia =>
  then_t (ds_make_or_get_t b) (fun ib =>
  then_t (ds_find_in_t ia) (fun a_root =>
  then_t (ds_find_in_t ib) (fun b_root =>
  if a_root =? b_root then fun s => ((s, Ret tt), []) else ds_link_t a_root b_root)))).

(** disjoint_set.rs:201-203 [contains]. *)
Definition ds_contains_t (val : K) : traced bool := fun s =>
  ((s, Ret (ds_contains eqb val s)), [Look val]).

(** disjoint_set.rs:211-219, the lookup of one argument of [in_union]. *)
Definition ds_get_t (val : K) : traced (option nat) := fun s =>
  ((s, Ret (hm_get eqb val (ds_ids s))), [Look val]).

(** disjoint_set.rs:210-222 [in_union]. *)
Definition ds_in_union_t (a b : K) : traced bool :=
  then_t (ds_get_t a) (fun oa =>
  match oa with
  | None => fun s => ((s, Ret false), [])
  | Some ia =>
      then_t (ds_get_t b) (fun ob =>
      match ob with
      | None => fun s => ((s, Ret false), [])
      | Some ib =>
          then_t (ds_find_in_t ia) (fun ra =>
          then_t (ds_find_in_t ib) (fun rb => fun s => ((s, Ret (ra =? rb)), [])))
      end)
  end).

(** disjoint_set.rs:237-240 [reserve]. *)
Definition ds_reserve_t (additional : nat) : traced unit := fun s =>
  (ds_reserve E additional s,
   DataRoom (length (ds_data s) + additional) ::
   match vec_reserve E additional (ds_data s) with
   | Ret _ => [IdsRoom (length (ds_ids s) + additional)]
   | _ => []
   end).

(** disjoint_set.rs:267-270, the loop of [build_sets]. *)
Fixpoint ds_group_t (l : hmap K nat) (m : hmap nat (list K)) : traced (hmap nat (list K)) :=
  match l with
  | [] => fun s => ((s, Ret m), [])
  | (key, val) :: r =>
      then_t (ds_find_in_t val) (fun root =>
      match ds_group_push E root key m with
      | (m1, Ret _) => ds_group_t r m1
      | (_, _) => fun s => ((s, Panic), [])
      end)
  end.

(** disjoint_set.rs:265-272, 368-375 [IntoIterator for &mut DisjointSet], as
    [ds_into_iter]. *)
Definition ds_into_iter_t (l : hmap K nat) (pick : hmap nat (list K) -> hmap nat (list K)) : traced (set_iter K) := fun s =>
  match ds_group_t l [] s with ((s', o), t) => ((s', omap (fun m => si_new (pick m)) o), t) end.

(** the loops of disjoint_set.rs:299, 320, 342, 362 *)
Fixpoint ds_makes_t (xs : list K) : traced unit :=
  match xs with
  | [] => fun s => ((s, Ret tt), [])
  | x :: r => then_t (ds_make_set_t x) (fun _ => ds_makes_t r)
  end.

(** disjoint_set.rs:123-128 [with_capacity], 148-153 [with_capacity_and_hasher]. *)
Definition ds_with_capacity_t (cap : nat) : outcome (dset K) * list (access K) :=
  (ds_with_capacity K E cap,
   IdsRoom cap :: match hm_reserve E cap (@nil (K * nat)) with Ret _ => [DataRoom cap] | _ => [] end).

(** disjoint_set.rs:296-303 [FromIterator<T>::from_iter]. *)
Definition ds_from_iter_t (hint : nat) (xs : list K) : outcome (dset K) * list (access K) :=
  match ds_with_capacity_t hint with
  | (Ret s, t) => match ds_makes_t xs s with (r, t') => (ds_finish r, t ++ t') end
  | (_, t) => (Panic, t)
  end.

(** disjoint_set.rs:317-324 [FromIterator<&T>::from_iter]. *)
Definition ds_from_iter_ref_t (hint : nat) (xs : list K) : outcome (dset K) * list (access K) :=
  match ds_with_capacity_t hint with
  | (Ret s, t) => match ds_makes_t (map cl xs) s with (r, t') => (ds_finish r, t ++ t') end
  | (_, t) => (Panic, t)
  end.

(** disjoint_set.rs:339-345 [Extend<T>::extend]. *)
Definition ds_extend_t (hint : nat) (xs : list K) : traced unit :=
  then_t (ds_reserve_t hint) (fun _ => ds_makes_t xs).

(** disjoint_set.rs:359-365 [Extend<&T>::extend]. *)
Definition ds_extend_ref_t (hint : nat) (xs : list K) : traced unit :=
  then_t (ds_reserve_t hint) (fun _ => ds_makes_t (map (fun val => val) xs)).

(** Every call on one disjoint set (disjoint_set.rs:110-375), as [DSRun.ds_step]. *)
Definition ds_step_t (o : op K) : traced (out K) := fun s =>
  let unit_t (r : (dset K * outcome unit) * list (access K)) := (unit_out (fst r), snd r) in
  match o with
  | OMake x => unit_t (ds_make_set_t x s)
  | OUnion a b => unit_t (ds_union_t a b s)
  | OExtend h xs => unit_t (ds_extend_t h xs s)
  | OExtendRef h xs => unit_t (ds_extend_ref_t h xs s)
  | OClear => ((ds_clear s, Ret RUnit), [])
  | OReserve n => unit_t (ds_reserve_t n s)
  | OContains x => match ds_contains_t x s with ((s', r), t) => ((s', omap RBool r), t) end
  | OInUnion a b => match ds_in_union_t a b s with ((s', r), t) => ((s', omap RBool r), t) end
  | OIsEmpty => ((s, Ret (RBool (ds_is_empty s))), [])
  | OLen => ((s, Ret (RNat (ds_len s))), [])
  | OIter order pick =>
      match ds_into_iter_t (order (ds_ids s)) pick s with
      | ((s', r), t) => ((s', omap (fun it => RSets (drain (S (length it)) it)) r), t)
      end
  end.

(** a history of such calls (disjoint_set.rs:110-375); panics are caught *)
Fixpoint ds_run_t (ops : list (op K)) (s : dset K) : (dset K * list (outcome (out K))) * list (access K) :=
  match ops with
  | [] => ((s, []), [])
  | o :: ops' =>
      match ds_step_t o s with
      | ((s1, r), t) => match ds_run_t ops' s1 with ((s2, tr), t') => ((s2, r :: tr), t ++ t') end
      end
  end.

(** the keys looked up in [ids] (disjoint_set.rs:106) *)
Definition looked (t : list (access K)) : list K :=
  flat_map (fun a => match a with Look k => [k] | _ => [] end) t.
(** the elements of [data_by_id] (disjoint_set.rs:107) read or written *)
Definition nodes (t : list (access K)) : list nat :=
  flat_map (fun a => match a with Node i => [i] | _ => [] end) t.
(** the room demanded of [ids] (disjoint_set.rs:106) *)
Definition ids_demanded (t : list (access K)) : list nat :=
  flat_map (fun a => match a with IdsRoom n => [n] | _ => [] end) t.
(** the room demanded of [data_by_id] (disjoint_set.rs:107) *)
Definition data_demanded (t : list (access K)) : list nat :=
  flat_map (fun a => match a with DataRoom n => [n] | _ => [] end) t.

(** the elements gone through (disjoint_set.rs:265-272, 299, 320, 342, 362) by the
    calls of a history *)
Fixpoint run_visited (ops : list (op K)) (s : dset K) : nat :=
  match ops with
  | [] => 0
  | o :: ops' => visited o (ds_len s) + run_visited ops' (fst (ds_step eqb E o s))
  end.
End Model.
