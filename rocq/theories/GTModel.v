(** Model of the hash table behind [std::collections::HashMap] in more detail
    than [HTModel]: hashbrown's table, which looks at groups of slots at once.

    The maps of counter.rs:45 and disjoint_set.rs:106 are such tables.  Every slot
    has a control byte: EMPTY, DELETED or the top 7 bits of the hash value of its
    key.  A lookup loads [W] control bytes at a time (16 with SSE2, 8 otherwise),
    compares the keys whose bytes agree, and goes on if no byte of the group is
    EMPTY.

    Simplifications: the control byte of a full slot is computed from the key
    (hashing is a function here); as in [HMModel] there are at most [alloc_max E]
    entries; rehashing in place puts the entries into an empty array of the same
    size.  Slots are those of [HTModel]. *)
From Coq Require Import NArith.
From Verif Require Import Base HMModel HTModel.
Local Open Scope outcome_scope.
Set Implicit Arguments.

(** hashbrown [h2]: the control byte of a key with hash value [h], the top 7 of
    64 bits (behind counter.rs:219, disjoint_set.rs:244). *)
Definition g_tag (h : N) : N := (h / 2 ^ 57 mod 128)%N.

(** hashbrown [bucket_mask_to_capacity] for [n] slots: the entries and marks a
    table of [n] slots may hold (behind counter.rs:92, 219, disjoint_set.rs:125, 244). *)
Definition g_cap (n : nat) : nat := if n <=? 8 then n - 1 else n / 8 * 7.

(** [usize::next_power_of_two], doubling [p] at most [fuel] times until it is
    [x] or more (behind counter.rs:92, disjoint_set.rs:125). *)
Fixpoint g_pow (p x fuel : nat) : nat :=
  match fuel with
  | 0 => p
  | S fuel' => if x <=? p then p else g_pow (2 * p) x fuel'
  end.

(** hashbrown [capacity_to_buckets]: the number of slots for [w] entries
    (behind counter.rs:92, 219, disjoint_set.rs:125, 244).  Simplification: the
    product does not overflow, see [alloc_max]. *)
Definition g_buckets (w : nat) : nat :=
  if w <? 4 then 4 else if w <? 8 then 8 else g_pow 1 (w * 8 / 7) (w * 8 / 7).

(** The length of the longest prefix of elements with [f]: hashbrown
    [trailing_zeros] and [leading_zeros] of a mask (behind counter.rs:424). *)
Fixpoint run {A} (f : A -> bool) (l : list A) : nat :=
  match l with
  | x :: r => if f x then S (run f r) else 0
  | [] => 0
  end.

Section Table.
Variables K V : Type.
(** [T: Eq] of the key type *)
Variable eqb : K -> K -> bool.
(** [S: BuildHasher] applied to [T: Hash] (counter.rs:38, disjoint_set.rs:104) *)
Variable hash : K -> N.
(** [Group::WIDTH] *)
Variable W : nat.
Variable E : machine.
Notation table := (table K V).

(** Control byte [q] of [n] slots (behind counter.rs:45): the slot it belongs to.
    The first bytes are repeated at the end; a table of less than a group has
    EMPTY bytes in between, which belong to no slot. *)
Definition g_byte (n q : nat) : option nat :=
  if n <? W then
    if q <? n then Some q else if q <? W then None else Some (q - W)
  else Some (q mod n).

(** hashbrown [Group::load] at [pos] (behind counter.rs:219). *)
Definition g_group (n pos : nat) : list (option nat) :=
  map (fun j => g_byte n (pos + j)) (seq 0 W).

(** what a control byte stands for (behind counter.rs:219) *)
Definition g_at (t : table) (b : option nat) : slot K V :=
  match b with Some p => nth p t Empty | None => Empty end.

(** hashbrown [match_empty] (behind counter.rs:219, 424) *)
Definition g_is_empty (t : table) (b : option nat) : bool :=
  match g_at t b with Empty => true | _ => false end.

(** hashbrown [match_empty_or_deleted] (behind counter.rs:219) *)
Definition g_is_special (t : table) (b : option nat) : bool :=
  match g_at t b with Full _ _ => false | _ => true end.

(** hashbrown [match_byte] and the comparison of keys behind it (counter.rs:219) *)
Definition g_matches (k : K) (t : table) (b : option nat) : bool :=
  match g_at t b with
  | Full k' _ => N.eqb (g_tag (hash k')) (g_tag (hash k)) && eqb k k'
  | _ => false
  end.

(** hashbrown [probe_seq]: where the probe sequence starts (behind counter.rs:219) *)
Definition g_start (h : N) (n : nat) : nat := N.to_nat (h mod N.of_nat n).

(** hashbrown [find], behind [get], [entry], [remove] (counter.rs:219, 421,
    disjoint_set.rs:202, 211), with [ProbeSeq::move_next]. *)
Fixpoint g_seek (k : K) (t : table) (pos stride fuel : nat) : option nat :=
  match fuel with
  | 0 => None
  | S fuel' =>
      match find (g_matches k t) (g_group (length t) pos) with
      | Some (Some p) => Some p
      | _ =>
          if existsb (g_is_empty t) (g_group (length t) pos) then None
          else g_seek k t ((pos + (stride + W)) mod length t) (stride + W) fuel'
      end
  end.

(** the same from the start (counter.rs:219); the fuel is the number of slots *)
Definition g_find (k : K) (t : table) : option nat :=
  g_seek k t (g_start (hash k) (length t)) 0 (length t).

(** hashbrown [find_insert_slot] (behind counter.rs:219, disjoint_set.rs:248).
    In a table of less than a group the byte found may belong to no slot; then
    the first slot without an entry is taken ([fix_insert_slot]). *)
Fixpoint g_free (t : table) (pos stride fuel : nat) : option nat :=
  match fuel with
  | 0 => None
  | S fuel' =>
      match find (g_is_special t) (g_group (length t) pos) with
      | Some (Some p) => Some p
      | Some None => find (fun p => g_is_special t (Some p)) (seq 0 (length t))
      | None => g_free t ((pos + (stride + W)) mod length t) (stride + W) fuel'
      end
  end.

(** std [HashMap::get_key_value] (counter.rs:344-346). *)
Definition g_entry_of (k : K) (t : table) : option (K * V) :=
  match g_find k t with
  | Some p => match nth p t Empty with Full k' v => Some (k', v) | _ => None end
  | None => None
  end.

(** std [HashMap::get] (counter.rs:344-346, disjoint_set.rs:211-218). *)
Definition g_get (k : K) (t : table) : option V := option_map snd (g_entry_of k t).

(** writing through [&mut V] (counter.rs:219, 429, 454, 493) *)
Definition g_set (k : K) (v : V) (t : table) : table :=
  match g_find k t with
  | Some p => match nth p t Empty with Full k' _ => write t p (Full k' v) | _ => t end
  | None => t
  end.

(** hashbrown [erase] (behind counter.rs:425, 450, 489): the slot becomes EMPTY
    if no group with it was seen without an EMPTY byte, DELETED otherwise. *)
Definition g_erase (p : nat) (t : table) : table :=
  let n := length t in
  let before := run (fun b => negb (g_is_empty t b)) (rev (g_group n ((p + W * (n - 1)) mod n))) in
  let after := run (fun b => negb (g_is_empty t b)) (g_group n p) in
  write t p (if W <=? before + after then Deleted else Empty).

(** std [HashMap::remove], [OccupiedEntry::remove] (counter.rs:425, 450, 489). *)
Definition g_remove (k : K) (t : table) : table :=
  match g_find k t with Some p => g_erase p t | None => t end.

(** std [VacantEntry::insert] (counter.rs:219, disjoint_set.rs:248): no search
    for the key, room has been made by [g_entry]. *)
Definition g_put (k : K) (v : V) (t : table) : table :=
  match g_free t (g_start (hash k) (length t)) 0 (length t) with
  | Some p => write t p (Full k v)
  | None => t
  end.

(** hashbrown [resize] and [rehash_in_place]: all entries are put into a new
    array of [n] slots (behind counter.rs:92, 219, 315, 331, disjoint_set.rs:125,
    150, 239). *)
Definition g_rehash (n : nat) (t : table) : table :=
  fold_left (fun t' e => g_put (fst e) (snd e) t') (ht_entries t) (repeat Empty n).

(** hashbrown [reserve] and [reserve_rehash] (counter.rs:315, 331,
    disjoint_set.rs:239); [growth_left] is [g_cap] less entries and marks. *)
Definition g_reserve (additional : nat) (t : table) : table * outcome unit :=
  let w := ht_len t + additional in
  let full := g_cap (length t) in
  if w <=? alloc_max E then
    (if additional <=? full - (ht_len t + ht_marks t) then t
     else if w <=? full / 2 then g_rehash (length t) t
     else g_rehash (g_buckets (Nat.max w (full + 1))) t, Ret tt)
  else (t, Panic).

(** std [HashMap::entry] (counter.rs:219, 421, 446, 485, disjoint_set.rs:244):
    for an absent key room for one more entry is made, which may replace the array. *)
Definition g_entry (k : K) (t : table) : table * outcome (entry V) :=
  match g_get k t with
  | Some v => (t, Ret (Occupied v))
  | None => match g_reserve 1 t with (t', o) => (t', omap (fun _ => Vacant) o) end
  end.

(** std [HashMap::insert] (counter.rs:354-356). *)
Definition g_insert (k : K) (v : V) (t : table) : table * outcome (option V) :=
  match g_entry k t with
  | (t', Ret (Occupied old)) => (g_set k v t', Ret (Some old))
  | (t', Ret Vacant) => (g_put k v t', Ret None)
  | (t', _) => (t', Panic)
  end.

(** [*map.entry(k).or_insert(d) = up(..)], the way counters use the table
    (counter.rs:219, 429, 454); gives the value written. *)
Definition g_upsert (k : K) (d : V) (up : V -> V) (t : table) : table * outcome V :=
  match g_entry k t with
  | (t', Ret (Occupied old)) => (g_set k (up old) t', Ret (up old))
  | (t', Ret Vacant) => (g_put k (up d) t', Ret (up d))
  | (t', _) => (t', Panic)
  end.

(** std [HashMap::retain] (counter.rs:354-356): slot by slot, those that fail
    are erased. *)
Definition g_retain (f : K -> V -> bool) (t : table) : table :=
  fold_left (fun t' p => match nth p t' Empty with
                         | Full k v => if f k v then t' else g_erase p t'
                         | _ => t'
                         end) (seq 0 (length t)) t.

(** std [HashMap::clear], [HashMap::drain] (counter.rs:354-356,
    disjoint_set.rs:233): the array stays. *)
Definition g_clear (t : table) : table := map (fun _ => Empty) t.

(** std [HashMap::with_capacity_and_hasher] (counter.rs:92, 116,
    disjoint_set.rs:125, 150); [with_capacity(0)] allocates nothing and has one
    slot that is never filled. *)
Definition g_with_capacity (cap : nat) : outcome table :=
  match g_reserve cap [Empty] with (t, o) => let* _ := o in Ret t end.
End Table.
