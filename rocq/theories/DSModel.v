(** Model of src/disjoint_set/disjoint_set.rs (and
    src/disjoint_set/fast_disjoint_set.rs, which only fixes the hasher).

    A method taking [&mut self] gives the state left behind and the outcome.
    User iterators are given by their items [xs] and the lower bound [hint] of
    [size_hint()], which need not be related.

    Simplification: the map [ids], the vector [data_by_id] and the temporaries
    of [build_sets] share one limit [alloc_max E] on their number of elements.
    (In std the limit of the map is below that of the vector: an entry of the
    map is at least as large as the 16 bytes of [Data] and the map is at most
    7/8 full.) *)
From Coq Require Import Permutation NArith.
From Verif Require Import Base HMModel.
Local Open Scope outcome_scope.
Set Implicit Arguments.

(** disjoint_set.rs:10-14 [struct Data]; [rank] is a [u32]. *)
Record data : Type := Data { parent : nat; rank : N }.

(** disjoint_set.rs:16-23 [Data::new]. *)
Definition data_new (id : nat) : data := Data id 0.

(** [u32::MAX], for disjoint_set.rs:13. *)
Definition u32_max : N := 4294967295.

(** [rank += 1] on [u32] (disjoint_set.rs:192). *)
Definition rank_incr (E : machine) (r : N) : outcome N :=
  if (r + 1 <=? u32_max)%N then Ret (r + 1)%N
  else if debug_build E then Panic else Ret 0%N.

(** [v[i]] on a [Vec] (disjoint_set.rs:183, 189, 191, 192, 257, 260): panics
    when out of range. *)
Definition vec_at {A} (v : list A) (i : nat) : outcome A :=
  match nth_error v i with Some a => Ret a | None => Panic end.

(** Writing element [i] of a [Vec] (disjoint_set.rs:189, 192, 260). *)
Fixpoint vec_set {A} (v : list A) (i : nat) (a : A) : list A :=
  match v, i with
  | [], _ => []
  | _ :: r, 0 => a :: r
  | b :: r, S j => b :: vec_set r j a
  end.

(** std [Vec::push] (disjoint_set.rs:249, 269). *)
Definition vec_push {A} (E : machine) (v : list A) (a : A) : outcome (list A) :=
  if length v + 1 <=? alloc_max E then Ret (v ++ [a]) else Panic.

(** std [Vec::reserve] and [Vec::with_capacity] (disjoint_set.rs:126, 151,
    238). *)
Definition vec_reserve {A} (E : machine) (additional : nat) (v : list A) : outcome unit :=
  if length v + additional <=? alloc_max E then Ret tt else Panic.

(** disjoint_set.rs:256-263 [find_with_path_compression].  [fuel] bounds the
    depth of the recursion: [NoFuel] when more than [fuel] nested calls would
    be needed. *)
Fixpoint ds_find (fuel : nat) (v : list data) (id : nat) : list data * outcome nat :=
  match fuel with
  | 0 => (v, NoFuel)
  | S fuel' =>
      match vec_at v id with
      | Ret d =>
          if parent d =? id then (v, Ret (parent d))
          else
            match ds_find fuel' v (parent d) with
            | (v1, Ret p) =>
                match vec_at v1 id with
                | Ret d1 => (vec_set v1 id (Data p (rank d1)), Ret p)
                | _ => (v1, Panic)
                end
            | (v1, o) => (v1, o)
            end
      | _ => (v, Panic)
      end
  end.

Section Model.
Variable K : Type.
(** [T: Eq] of the element type *)
Variable eqb : K -> K -> bool.
(** [T: Clone] of the element type *)
Variable cl : K -> K.
Variable E : machine.

(** disjoint_set.rs:104-108 [struct DisjointSet]; the hasher [S] is not
    modelled. *)
Record dset : Type := DSet { ds_ids : hmap K nat; ds_data : list data }.

(** disjoint_set.rs:113-115 [new], 135-140 [with_hasher], 275-283 [default]. *)
Definition ds_new : dset := DSet [] [].

(** disjoint_set.rs:123-128 [with_capacity], 148-153
    [with_capacity_and_hasher]. *)
Definition ds_with_capacity (cap : nat) : outcome dset :=
  let* _ := hm_reserve E cap (@nil (K * nat)) in
  let* _ := vec_reserve E cap (@nil data) in
  Ret (DSet [] []).

(** disjoint_set.rs:242-254 [make_or_get_set]. *)
Definition ds_make_or_get (val : K) (s : dset) : dset * outcome nat :=
  let next_id := length (ds_ids s) in
  match hm_entry eqb E val (ds_ids s) with
  | Ret Vacant =>
      let ids := hm_insert_vacant val next_id (ds_ids s) in
      match vec_push E (ds_data s) (data_new next_id) with
      | Ret v => (DSet ids v, Ret next_id)
      | _ => (DSet ids (ds_data s), Panic)
      end
  | Ret (Occupied id) => (s, Ret id)
  | _ => (s, Panic)
  end.

(** disjoint_set.rs:162-164 [make_set]. *)
Definition ds_make_set (val : K) (s : dset) : dset * outcome unit :=
  match ds_make_or_get val s with (s', o) => (s', omap (fun _ => tt) o) end.

(** [find_with_path_compression(&mut self.data_by_id, id)] (disjoint_set.rs:
    177, 178, 221, 268).  The fuel is more than the recursion can need: it has
    no cycles and visits each element at most once. *)
Definition ds_find_in (id : nat) (s : dset) : dset * outcome nat :=
  match ds_find (S (length (ds_data s))) (ds_data s) id with
  | (v, o) => (DSet (ds_ids s) v, o)
  end.

(** disjoint_set.rs:183-193, the part of [union] after the two roots are found
    to differ; gives the vector left behind. *)
Definition ds_link (v : list data) (a_root b_root : nat) : list data * outcome unit :=
  match vec_at v a_root, vec_at v b_root with
  | Ret da, Ret db =>
      let lower := (rank da <? rank db)%N in
      let hi := if lower then b_root else a_root in
      let lo := if lower then a_root else b_root in
      match vec_at v lo with
      | Ret dlo =>
          let v1 := vec_set v lo (Data hi (rank dlo)) in
          match vec_at v1 hi, vec_at v1 lo with
          | Ret dh, Ret dl =>
              if (rank dh =? rank dl)%N then
                match rank_incr E (rank dh) with
                | Ret r => (vec_set v1 hi (Data (parent dh) r), Ret tt)
                | _ => (v1, Panic)
                end
              else (v1, Ret tt)
          | _, _ => (v1, Panic)
          end
      | _ => (v, Panic)
      end
  | _, _ => (v, Panic)
  end.

(** disjoint_set.rs:174-194 [union]. *)
Definition ds_union (a b : K) (s : dset) : dset * outcome unit :=
  match ds_make_or_get a s with
  | (s1, Ret ia) =>
      match ds_make_or_get b s1 with
      | (s2, Ret ib) =>
          match ds_find_in ia s2 with
          | (s3, Ret a_root) =>
              match ds_find_in ib s3 with
              | (s4, Ret b_root) =>
                  if a_root =? b_root then (s4, Ret tt)
                  else match ds_link (ds_data s4) a_root b_root with
                       | (v, o) => (DSet (ds_ids s4) v, o)
                       end
              | (s4, o) => (s4, omap (fun _ => tt) o)
              end
          | (s3, o) => (s3, omap (fun _ => tt) o)
          end
      | (s2, o) => (s2, omap (fun _ => tt) o)
      end
  | (s1, o) => (s1, omap (fun _ => tt) o)
  end.

(** disjoint_set.rs:201-203 [contains]. *)
Definition ds_contains (val : K) (s : dset) : bool := hm_contains eqb val (ds_ids s).

(** disjoint_set.rs:210-222 [in_union]. *)
Definition ds_in_union (a b : K) (s : dset) : dset * outcome bool :=
  match hm_get eqb a (ds_ids s) with
  | None => (s, Ret false)
  | Some ia =>
      match hm_get eqb b (ds_ids s) with
      | None => (s, Ret false)
      | Some ib =>
          match ds_find_in ia s with
          | (s1, Ret ra) =>
              match ds_find_in ib s1 with
              | (s2, Ret rb) => (s2, Ret (ra =? rb))
              | (s2, o) => (s2, omap (fun _ => false) o)
              end
          | (s1, o) => (s1, omap (fun _ => false) o)
          end
      end
  end.

(** disjoint_set.rs:224-226 [is_empty]. *)
Definition ds_is_empty (s : dset) : bool := length (ds_ids s) =? 0.

(** disjoint_set.rs:228-230 [len]. *)
Definition ds_len (s : dset) : nat := length (ds_ids s).

(** disjoint_set.rs:232-235 [clear]. *)
Definition ds_clear (s : dset) : dset := DSet [] [].

(** disjoint_set.rs:237-240 [reserve]. *)
Definition ds_reserve (additional : nat) (s : dset) : dset * outcome unit :=
  (s, let* _ := vec_reserve E additional (ds_data s) in
      hm_reserve E additional (ds_ids s)).

(** disjoint_set.rs:269 [map.entry(root).or_insert_with(Vec::new).push(key)]. *)
Definition ds_group_push (root : nat) (key : K) (m : hmap nat (list K))
  : hmap nat (list K) * outcome unit :=
  match hm_or_insert Nat.eqb E root [] m with
  | (m1, Ret v) =>
      match vec_push E v key with
      | Ret v' => (hm_set Nat.eqb root v' m1, Ret tt)
      | _ => (m1, Panic)
      end
  | (m1, _) => (m1, Panic)
  end.

(** disjoint_set.rs:267-270, the loop of [build_sets] over the entries [l] of
    [ids]. *)
Fixpoint ds_group (l : hmap K nat) (s : dset) (m : hmap nat (list K))
  : dset * outcome (hmap nat (list K)) :=
  match l with
  | [] => (s, Ret m)
  | (key, val) :: r =>
      match ds_find_in val s with
      | (s1, Ret root) =>
          match ds_group_push root key m with
          | (m1, Ret _) => ds_group r s1 m1
          | (_, _) => (s1, Panic)
          end
      | (s1, o) => (s1, omap (fun _ => m) o)
      end
  end.

(** disjoint_set.rs:265-272 [build_sets]; [l]: the entries of [ids] in the
    order of the iteration. *)
Definition ds_build_sets (l : hmap K nat) (s : dset) : dset * outcome (hmap nat (list K)) :=
  ds_group l s [].

(** disjoint_set.rs:35-37 [SetIter]: the sets still to be delivered, in the
    order in which std's map iterator meets them. *)
Definition set_iter : Type := list (nat * list K).

(** disjoint_set.rs:52-56 [SetIter::new]. *)
Definition si_new (l : hmap nat (list K)) : set_iter := l.

(** disjoint_set.rs:42-48 [SetIter::next]; a set is the sequence its
    [vec::IntoIter] delivers. *)
Definition si_next (it : set_iter) : set_iter * option (list K) :=
  match it with
  | [] => ([], None)
  | (_key, vect) :: r => (r, Some vect)
  end.

(** disjoint_set.rs:368-375 [IntoIterator for &mut DisjointSet]; [l]: the
    entries of [ids] in the order of the iteration, [pick]: the order in which
    the map of sets is traversed. *)
Definition ds_into_iter (l : hmap K nat) (pick : hmap nat (list K) -> hmap nat (list K))
  (s : dset) : dset * outcome set_iter :=
  match ds_build_sets l s with (s', o) => (s', omap (fun m => si_new (pick m)) o) end.

(** The value of the [self] built by a constructor: lost if it panics. *)
Definition ds_finish (r : dset * outcome unit) : outcome dset :=
  let* _ := snd r in Ret (fst r).

(** disjoint_set.rs:296-303 [FromIterator<T>::from_iter]. *)
Definition ds_from_iter (hint : nat) (xs : list K) : outcome dset :=
  let* s := ds_with_capacity hint in
  ds_finish (for_each ds_make_set xs s).

(** disjoint_set.rs:317-324 [FromIterator<&T>::from_iter]. *)
Definition ds_from_iter_ref (hint : nat) (xs : list K) : outcome dset :=
  let* s := ds_with_capacity hint in
  ds_finish (for_each ds_make_set (map cl xs) s).

(** disjoint_set.rs:339-345 [Extend<T>::extend]. *)
Definition ds_extend (hint : nat) (xs : list K) (s : dset) : dset * outcome unit :=
  match ds_reserve hint s with
  | (s1, Ret _) => for_each ds_make_set xs s1
  | (s1, _) => (s1, Panic)
  end.

(** disjoint_set.rs:359-365 [Extend<&T>::extend] ([T: Copy], whose [clone] is
    a bitwise copy). *)
Definition ds_extend_ref (hint : nat) (xs : list K) (s : dset) : dset * outcome unit :=
  match ds_reserve hint s with
  | (s1, Ret _) => for_each ds_make_set (map (fun val => val) xs) s1
  | (s1, _) => (s1, Panic)
  end.

(** disjoint_set.rs:104 derived [Clone]. *)
Definition ds_clone (s : dset) : dset :=
  DSet (map (fun e => (cl (fst e), snd e)) (ds_ids s)) (ds_data s).

End Model.
Arguments DSet {K} ds_ids ds_data.
Arguments si_next {K} it.
