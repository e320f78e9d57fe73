(** Model of the hash table behind [std::collections::HashMap], with the hash
    function as a parameter, and of the counter and the disjoint set on top of
    it (src/counter/fast_counter.rs:13 and src/disjoint_set/fast_disjoint_set.rs:13
    are the same code with another hash function).

    [HMModel] takes a map as the list of its entries and does not hash.  Here a
    map is an array of slots.  A key is looked for in the slots given by its
    hash value, in the order of a probe sequence, until an empty slot is met;
    removal leaves a mark behind; the array is replaced by another one when
    there is no room.

    Simplifications: std (hashbrown) looks at groups of slots at once and
    compares 7 bits of the hash before the keys; here slots are visited one by
    one and an element is searched until an empty slot or the end of the probe
    sequence.  The probe sequence, the moment of the replacement and the size of
    the new array are arbitrary ([scheme]).  As in [HMModel] there are at most
    [alloc_max E] entries. *)
From Coq Require Import Permutation NArith.
From Verif Require Import Base HMModel DSModel.
Local Open Scope outcome_scope.
Set Implicit Arguments.

(** fnv 1.0 [FnvHasher::write], starting from [FnvHasher::default()]: the
    64-bit FNV-1a hash of the bytes a key feeds to the hasher
    (counter/fast_counter.rs:2, disjoint_set/fast_disjoint_set.rs:2). *)
Definition fnv (bytes : list N) : N :=
  fold_left (fun h b => (N.lxor h b * 0x100000001b3) mod 2 ^ 64)%N bytes 0xcbf29ce484222325%N.

(** [Hash for u32] (std): the four bytes of the number, lowest first (on a
    little-endian machine), as an example of a key of counter.rs:38 and
    disjoint_set.rs:104. *)
Definition u32_bytes (n : nat) : list N :=
  let x := N.of_nat n in
  [x mod 256; x / 256 mod 256; x / 65536 mod 256; x / 16777216 mod 256]%N.

(** How a table behind the maps of counter.rs:45 and disjoint_set.rs:106 is
    run: [probe h n i] is the slot looked at in step [i] for hash value [h] among
    [n] slots; [roomy w d n] tells whether [n] slots of which [d] carry marks of
    removed entries are kept when room for [w] entries in all is wanted;
    [slots_for w] is the number of slots of a new array for [w] entries. *)
Record scheme : Type := Scheme {
  probe : N -> nat -> nat -> nat;
  roomy : nat -> nat -> nat -> bool;
  slots_for : nat -> nat
}.

(** A slot: never used, used by an entry since removed, or holding an entry
    (the map of counter.rs:45 and disjoint_set.rs:106). *)
Inductive slot (K V : Type) : Type := Empty | Deleted | Full (k : K) (v : V).
Arguments Empty {K V}.
Arguments Deleted {K V}.

(** The array of slots of a map (counter.rs:45, disjoint_set.rs:106). *)
Definition table (K V : Type) : Type := list (slot K V).

(** Writing one slot (used for the maps of counter.rs:45, disjoint_set.rs:106). *)
Fixpoint write {A} (t : list A) (p : nat) (s : A) : list A :=
  match t, p with
  | [], _ => []
  | _ :: r, 0 => s :: r
  | b :: r, S p' => b :: write r p' s
  end.

Section Table.
Variables K V : Type.
(** [T: Eq] of the key type *)
Variable eqb : K -> K -> bool.
(** [S: BuildHasher] applied to [T: Hash] (counter.rs:38, disjoint_set.rs:104) *)
Variable hash : K -> N.
Variable P : scheme.
Variable E : machine.

(** the entries held by a slot (counter.rs:45) *)
Definition ht_slot (s : slot K V) : list (K * V) := match s with Full k v => [(k, v)] | _ => [] end.

(** std [HashMap::iter]: the entries in the order of the slots (counter.rs:276-291). *)
Definition ht_entries (t : table K V) : list (K * V) := flat_map ht_slot t.

(** std [HashMap::len] (counter.rs:344-346, disjoint_set.rs:228-230). *)
Definition ht_len (t : table K V) : nat := length (ht_entries t).

(** the marks left by removals (counter.rs:424, 449, 488) *)
Definition ht_marks (t : table K V) : nat :=
  length (filter (fun s => match s with Deleted => true | _ => false end) t).

(** hashbrown [find], behind [get], [entry], [remove] (counter.rs:219, 421,
    disjoint_set.rs:202, 211): the slot of the key, from step [i] on. *)
Fixpoint ht_seek (k : K) (t : table K V) (i fuel : nat) : option nat :=
  match fuel with
  | 0 => None
  | S fuel' =>
      let p := probe P (hash k) (length t) i in
      match nth_error t p with
      | Some (Full k' _) => if eqb k k' then Some p else ht_seek k t (S i) fuel'
      | Some Deleted => ht_seek k t (S i) fuel'
      | _ => None
      end
  end.

(** the same for the whole probe sequence (counter.rs:219) *)
Definition ht_find (k : K) (t : table K V) : option nat := ht_seek k t 0 (length t).

(** hashbrown [find_insert_slot], behind [VacantEntry::insert] (counter.rs:219,
    disjoint_set.rs:248): the first slot without an entry, from step [i] on. *)
Fixpoint ht_free (h : N) (t : table K V) (i fuel : nat) : option nat :=
  match fuel with
  | 0 => None
  | S fuel' =>
      let p := probe P h (length t) i in
      match nth_error t p with
      | Some (Full _ _) => ht_free h t (S i) fuel'
      | Some _ => Some p
      | None => None
      end
  end.

(** std [HashMap::get_key_value] (counter.rs:344-346). *)
Definition ht_entry_of (k : K) (t : table K V) : option (K * V) :=
  match ht_find k t with
  | Some p => match nth_error t p with Some (Full k' v) => Some (k', v) | _ => None end
  | None => None
  end.

(** std [HashMap::get] (counter.rs:344-346, disjoint_set.rs:211-218). *)
Definition ht_get (k : K) (t : table K V) : option V := option_map snd (ht_entry_of k t).

(** std [HashMap::contains_key] (counter.rs:344-346, disjoint_set.rs:202). *)
Definition ht_contains (k : K) (t : table K V) : bool :=
  match ht_get k t with Some _ => true | None => false end.

(** writing through [&mut V] (counter.rs:219, 429, 454, 493) *)
Definition ht_set (k : K) (v : V) (t : table K V) : table K V :=
  match ht_find k t with
  | Some p => match nth_error t p with Some (Full k' _) => write t p (Full k' v) | _ => t end
  | None => t
  end.

(** std [HashMap::remove], [OccupiedEntry::remove] (counter.rs:425, 450, 489). *)
Definition ht_remove (k : K) (t : table K V) : table K V :=
  match ht_find k t with Some p => write t p Deleted | None => t end.

(** std [VacantEntry::insert] (counter.rs:219, disjoint_set.rs:248): no search
    for the key, room has been made by [ht_entry]. *)
Definition ht_put (k : K) (v : V) (t : table K V) : table K V :=
  match ht_free (hash k) t 0 (length t) with Some p => write t p (Full k v) | None => t end.

(** hashbrown [resize]: all entries are put into a new array of [n] slots
    (behind counter.rs:92, 219, 315, 331, disjoint_set.rs:125, 150, 239). *)
Definition ht_rehash (n : nat) (t : table K V) : table K V :=
  fold_left (fun t' e => ht_put (fst e) (snd e) t') (ht_entries t) (repeat Empty n).

(** std [HashMap::reserve] (counter.rs:315, 331, disjoint_set.rs:239). *)
Definition ht_reserve (additional : nat) (t : table K V) : table K V * outcome unit :=
  let w := ht_len t + additional in
  if w <=? alloc_max E then
    (if roomy P w (ht_marks t) (length t) then t else ht_rehash (slots_for P w) t, Ret tt)
  else (t, Panic).

(** std [HashMap::entry] (counter.rs:219, 421, 446, 485, disjoint_set.rs:244):
    for an absent key room for one more entry is made, which may replace the array. *)
Definition ht_entry (k : K) (t : table K V) : table K V * outcome (entry V) :=
  match ht_get k t with
  | Some v => (t, Ret (Occupied v))
  | None => match ht_reserve 1 t with (t', o) => (t', omap (fun _ => Vacant) o) end
  end.

(** std [HashMap::insert] (counter.rs:354-356). *)
Definition ht_insert (k : K) (v : V) (t : table K V) : table K V * outcome (option V) :=
  match ht_entry k t with
  | (t', Ret (Occupied old)) => (ht_set k v t', Ret (Some old))
  | (t', Ret Vacant) => (ht_put k v t', Ret None)
  | (t', _) => (t', Panic)
  end.

(** std [HashMap::retain] (counter.rs:354-356). *)
Definition ht_retain (p : K -> V -> bool) (t : table K V) : table K V :=
  map (fun s => match s with Full k v => if p k v then s else Deleted | _ => s end) t.

(** std [HashMap::iter_mut] (counter.rs:302-304). *)
Definition ht_map_values (f : K -> V -> V) (t : table K V) : table K V :=
  map (fun s => match s with Full k v => Full k (f k v) | _ => s end) t.

(** std [HashMap::clear], [HashMap::drain] (counter.rs:354-356,
    disjoint_set.rs:233): the array stays. *)
Definition ht_clear (t : table K V) : table K V := map (fun _ => Empty) t.

(** std [HashMap::with_capacity_and_hasher] (counter.rs:92, 116,
    disjoint_set.rs:125, 150). *)
Definition ht_with_capacity (cap : nat) : outcome (table K V) :=
  match ht_reserve cap [] with (t, o) => let* _ := o in Ret t end.
End Table.

Section Counter.
Variable K : Type.
Variable eqb : K -> K -> bool.
Variable cl : K -> K.
Variable hash : K -> N.
Variable P : scheme.
Variable E : machine.
Notation tcounter := (table K nat).

(** counter.rs:90-94 [with_capacity], 114-118 [with_capacity_and_hasher]. *)
Definition tc_with_capacity (cap : nat) : outcome tcounter := @ht_with_capacity K nat hash P E cap.

(** [*self.counter.entry(key).or_insert(0) += val], the statement of
    counter.rs:219, 367, 380 and 407. *)
Definition tc_bump (key : K) (val : nat) (t : tcounter) : tcounter * outcome unit :=
  match ht_entry eqb hash P E key t with
  | (t', Ret (Occupied old)) =>
      match uadd E old val with
      | Ret new => (ht_set eqb hash P key new t', Ret tt)
      | _ => (t', Panic)
      end
  | (t', Ret Vacant) =>
      match uadd E 0 val with
      | Ret new => (ht_put hash P key new t', Ret tt)
      | _ => (ht_put hash P key 0 t', Panic)
      end
  | (t', _) => (t', Panic)
  end.

(** counter.rs:218-220 [push]. *)
Definition tc_push (val : K) (t : tcounter) : tcounter * outcome unit := tc_bump val 1 t.

(** counter.rs:313-319 [Extend<T>::extend]. *)
Definition tc_extend (hint : nat) (xs : list K) (t : tcounter) : tcounter * outcome unit :=
  match ht_reserve hash P E hint t with
  | (t', Ret _) => for_each tc_push xs t'
  | (t', _) => (t', Panic)
  end.

(** counter.rs:328-334 [Extend<&T>::extend] (the items are [Copy]). *)
Definition tc_extend_ref (hint : nat) (xs : list K) (t : tcounter) : tcounter * outcome unit :=
  match ht_reserve hash P E hint t with
  | (t', Ret _) => for_each tc_push (map (fun key => key) xs) t'
  | (t', _) => (t', Panic)
  end.

(** counter.rs:365-369 [AddAssign<Counter>]; [rhs]: the entries of the right
    operand in the order of the iteration (likewise below). *)
Definition tc_add_assign (rhs : list (K * nat)) (t : tcounter) : tcounter * outcome unit :=
  for_each (fun e => tc_bump (fst e) (snd e)) rhs t.

(** counter.rs:378-382 [AddAssign<&Counter>]. *)
Definition tc_add_assign_ref (rhs : list (K * nat)) (t : tcounter) : tcounter * outcome unit :=
  for_each (fun e => tc_bump (cl (fst e)) (snd e)) rhs t.

(** The [match] on the entry of counter.rs:421-433, 446-458 and 485-497. *)
Definition tc_lower (key : K) (val : nat) (t : tcounter) : tcounter * outcome unit :=
  match ht_entry eqb hash P E key t with
  | (t', Ret (Occupied cur)) =>
      if cur <=? val then (ht_remove eqb hash P key t', Ret tt)
      else match usub E cur val with
           | Ret new_val => (ht_set eqb hash P key new_val t', Ret tt)
           | _ => (t', Panic)
           end
  | (t', Ret Vacant) => (t', Ret tt)
  | (t', _) => (t', Panic)
  end.

(** counter.rs:419-435 [SubAssign<Counter>]. *)
Definition tc_sub_assign (rhs : list (K * nat)) (t : tcounter) : tcounter * outcome unit :=
  for_each (fun e => tc_lower (fst e) (snd e)) rhs t.

(** counter.rs:444-460 [SubAssign<&Counter>]. *)
Definition tc_sub_assign_ref (rhs : list (K * nat)) (t : tcounter) : tcounter * outcome unit :=
  for_each (fun e => tc_lower (cl (fst e)) (snd e)) rhs t.

(** counter.rs:354-356, std [HashMap::get_mut]; the caller applies [f]. *)
Definition tc_get_mut (k : K) (f : nat -> nat) (t : tcounter) : tcounter * bool :=
  match ht_get eqb hash P k t with
  | Some n => (ht_set eqb hash P k (f n) t, true)
  | None => (t, false)
  end.
End Counter.

Section Sets.
Variable K : Type.
Variable eqb : K -> K -> bool.
Variable hash : K -> N.
Variable P : scheme.
Variable E : machine.

(** disjoint_set.rs:104-108 [struct DisjointSet]. *)
Record tdset : Type := TDSet { td_ids : table K nat; td_data : list data }.

(** disjoint_set.rs:123-128 [with_capacity], 148-153
    [with_capacity_and_hasher]. *)
Definition td_with_capacity (cap : nat) : outcome tdset :=
  let* t := @ht_with_capacity K nat hash P E cap in
  let* _ := vec_reserve E cap (@nil data) in
  Ret (TDSet t []).

(** disjoint_set.rs:242-254 [make_or_get_set]. *)
Definition td_make_or_get (val : K) (s : tdset) : tdset * outcome nat :=
  let next_id := ht_len (td_ids s) in
  match ht_entry eqb hash P E val (td_ids s) with
  | (t, Ret Vacant) =>
      let ids := ht_put hash P val next_id t in
      match vec_push E (td_data s) (data_new next_id) with
      | Ret v => (TDSet ids v, Ret next_id)
      | _ => (TDSet ids (td_data s), Panic)
      end
  | (t, Ret (Occupied id)) => (TDSet t (td_data s), Ret id)
  | (t, _) => (TDSet t (td_data s), Panic)
  end.

(** disjoint_set.rs:162-164 [make_set]. *)
Definition td_make_set (val : K) (s : tdset) : tdset * outcome unit :=
  match td_make_or_get val s with (s', o) => (s', omap (fun _ => tt) o) end.

(** [find_with_path_compression(&mut self.data_by_id, id)] (disjoint_set.rs:
    177, 178, 221); the function itself is [DSModel.ds_find]. *)
Definition td_find_in (id : nat) (s : tdset) : tdset * outcome nat :=
  match ds_find (S (length (td_data s))) (td_data s) id with
  | (v, o) => (TDSet (td_ids s) v, o)
  end.

(** disjoint_set.rs:174-194 [union]; lines 183-193 are [DSModel.ds_link]. *)
Definition td_union (a b : K) (s : tdset) : tdset * outcome unit :=
  match td_make_or_get a s with
  | (s1, Ret ia) =>
      match td_make_or_get b s1 with
      | (s2, Ret ib) =>
          match td_find_in ia s2 with
          | (s3, Ret a_root) =>
              match td_find_in ib s3 with
              | (s4, Ret b_root) =>
                  if a_root =? b_root then (s4, Ret tt)
                  else match ds_link E (td_data s4) a_root b_root with
                       | (v, o) => (TDSet (td_ids s4) v, o)
                       end
              | (s4, o) => (s4, omap (fun _ => tt) o)
              end
          | (s3, o) => (s3, omap (fun _ => tt) o)
          end
      | (s2, o) => (s2, omap (fun _ => tt) o)
      end
  | (s1, o) => (s1, omap (fun _ => tt) o)
  end.

(** disjoint_set.rs:210-222 [in_union]. *)
Definition td_in_union (a b : K) (s : tdset) : tdset * outcome bool :=
  match ht_get eqb hash P a (td_ids s) with
  | None => (s, Ret false)
  | Some ia =>
      match ht_get eqb hash P b (td_ids s) with
      | None => (s, Ret false)
      | Some ib =>
          match td_find_in ia s with
          | (s1, Ret ra) =>
              match td_find_in ib s1 with
              | (s2, Ret rb) => (s2, Ret (ra =? rb))
              | (s2, o) => (s2, omap (fun _ => false) o)
              end
          | (s1, o) => (s1, omap (fun _ => false) o)
          end
      end
  end.

(** disjoint_set.rs:237-240 [reserve]: the vector first. *)
Definition td_reserve (additional : nat) (s : tdset) : tdset * outcome unit :=
  match vec_reserve E additional (td_data s) with
  | Ret _ =>
      match ht_reserve hash P E additional (td_ids s) with
      | (t, o) => (TDSet t (td_data s), o)
      end
  | _ => (s, Panic)
  end.

(** disjoint_set.rs:339-345 [Extend<T>::extend] and 359-365
    [Extend<&T>::extend] (whose items are [Copy]). *)
Definition td_extend (hint : nat) (xs : list K) (s : tdset) : tdset * outcome unit :=
  match td_reserve hint s with
  | (s1, Ret _) => for_each td_make_set xs s1
  | (s1, _) => (s1, Panic)
  end.

(** disjoint_set.rs:232-235 [clear]. *)
Definition td_clear (s : tdset) : tdset := TDSet (ht_clear (td_ids s)) [].

(** disjoint_set.rs:368-375 [IntoIterator for &mut DisjointSet]: [build_sets]
    reads the entries of [ids] and changes [data_by_id] only
    ([DSModel.ds_into_iter]).  [order]: std does not promise the order of the
    slots.  Simplification: the map of the sets being built stays the list of
    [HMModel]. *)
Definition td_into_iter (order : list (K * nat) -> list (K * nat))
  (pick : hmap nat (list K) -> hmap nat (list K)) (s : tdset) : tdset * outcome (set_iter K) :=
  match ds_into_iter E (order (ht_entries (td_ids s))) pick (DSet (ht_entries (td_ids s)) (td_data s)) with
  | (s', o) => (TDSet (td_ids s) (ds_data s'), o)
  end.
End Sets.
