(** Model of src/counter/counter.rs (and src/counter/fast_counter.rs, which
    only fixes the hasher).

    Every method is modelled separately, also where the source repeats itself
    for the by-value and by-reference variants.  A method taking [&mut self]
    gives the state left behind and the outcome; one consuming [self] gives
    the outcome only (on a panic the counter is dropped).  User iterators are
    given by their items [xs] and the lower bound [hint] of [size_hint()],
    which need not be related. *)
From Coq Require Import Permutation.
From Verif Require Import Base HMModel.
Local Open Scope outcome_scope.
Set Implicit Arguments.

Section Model.
Variable K : Type.
(** [T: Eq] of the key type *)
Variable eqb : K -> K -> bool.
(** [T: Clone]/[T: Copy] of the key type *)
Variable cl : K -> K.
Variable E : machine.

(** counter.rs:38-46 [struct Counter]; the hasher [S] is not modelled. *)
Record counter : Type := Counter { ct_map : hmap K nat }.

(** counter.rs:68-70 [new], 102-106 [with_hasher], 229-233 [default]. *)
Definition ct_new : counter := Counter [].

(** counter.rs:90-94 [with_capacity], 114-118 [with_capacity_and_hasher]. *)
Definition ct_with_capacity (cap : nat) : outcome counter :=
  let* _ := hm_reserve E cap (@nil (K * nat)) in Ret (Counter []).

(** counter.rs:142-144 [from_hashmap]. *)
Definition ct_from_hashmap (rhs : hmap K nat) : counter := Counter rhs.

(** [*self.counter.entry(key).or_insert(0) += val], the statement of
    counter.rs:219, 367, 380 and 407; the reference given by [or_insert] is to
    the entry found or just inserted. *)
Definition ct_bump (key : K) (val : nat) (c : counter) : counter * outcome unit :=
  match hm_entry eqb E key (ct_map c) with
  | Ret (Occupied old) =>
      match uadd E old val with
      | Ret new => (Counter (hm_set eqb key new (ct_map c)), Ret tt)
      | _ => (c, Panic)
      end
  | Ret Vacant =>
      match uadd E 0 val with
      | Ret new => (Counter (hm_insert_vacant key new (ct_map c)), Ret tt)
      | _ => (Counter (hm_insert_vacant key 0 (ct_map c)), Panic)
      end
  | _ => (c, Panic)
  end.

(** counter.rs:218-220 [push]. *)
Definition ct_push (val : K) (c : counter) : counter * outcome unit := ct_bump val 1 c.

(** The value of the [self] moved into a consuming method or built by a
    constructor: lost if the method panics. *)
Definition finish (r : counter * outcome unit) : outcome counter :=
  let* _ := snd r in Ret (fst r).

(** counter.rs:242-249 [FromIterator<T>::from_iter]. *)
Definition ct_from_iter (hint : nat) (xs : list K) : outcome counter :=
  let* c := ct_with_capacity hint in
  finish (for_each ct_push xs c).

(** counter.rs:258-265 [FromIterator<&T>::from_iter]. *)
Definition ct_from_iter_ref (hint : nat) (xs : list K) : outcome counter :=
  let* c := ct_with_capacity hint in
  finish (for_each ct_push (map cl xs) c).

(** counter.rs:313-319 [Extend<T>::extend]. *)
Definition ct_extend (hint : nat) (xs : list K) (c : counter) : counter * outcome unit :=
  match hm_reserve E hint (ct_map c) with
  | Ret _ => for_each ct_push xs c
  | _ => (c, Panic)
  end.

(** counter.rs:328-334 [Extend<&T>::extend] ([T: Copy], so the items are
    copied bit by bit). *)
Definition ct_extend_ref (hint : nat) (xs : list K) (c : counter) : counter * outcome unit :=
  match hm_reserve E hint (ct_map c) with
  | Ret _ => for_each ct_push (map (fun key => key) xs) c
  | _ => (c, Panic)
  end.

(** counter.rs:167 and 198, the sort key [usize::MAX - val]. *)
Definition ct_sort_key (e : K * nat) : outcome nat := usub E (usize_max E) (snd e).

(** counter.rs:165-169 [into_most_common]: [r] is a possible result. *)
Definition ct_into_most_common (c : counter) (r : list (K * nat)) : Prop :=
  exists l, iterates (ct_map c) l /\ sort_by_key_gives ct_sort_key l r.

(** counter.rs:190-200 [most_common]: [r] is a possible result. *)
Definition ct_most_common (c : counter) (r : list (K * nat)) : Prop :=
  exists l, iterates (ct_map c) l /\
    sort_by_key_gives ct_sort_key (map (fun e => (cl (fst e), snd e)) l) r.

(** counter.rs:276-278, 289-291 [into_iter]: [l] is a possible sequence. *)
Definition ct_into_iter (c : counter) (l : list (K * nat)) : Prop := iterates (ct_map c) l.

(** counter.rs:302-304 [IntoIterator for &mut Counter]: the caller rewrites
    the counts. *)
Definition ct_iter_mut (f : K -> nat -> nat) (c : counter) : counter :=
  Counter (hm_map_values f (ct_map c)).

(** counter.rs:365-369 [AddAssign<Counter>]; [rhs]: the entries of the right
    operand in the order of the iteration (likewise below). *)
Definition ct_add_assign (rhs : hmap K nat) (c : counter) : counter * outcome unit :=
  for_each (fun e => ct_bump (fst e) (snd e)) rhs c.

(** counter.rs:378-382 [AddAssign<&Counter>]. *)
Definition ct_add_assign_ref (rhs : hmap K nat) (c : counter) : counter * outcome unit :=
  for_each (fun e => ct_bump (cl (fst e)) (snd e)) rhs c.

(** counter.rs:392-395 [Add<Counter>]. *)
Definition ct_add (c : counter) (rhs : hmap K nat) : outcome counter :=
  finish (ct_add_assign rhs c).

(** counter.rs:405-410 [Add<&Counter>]. *)
Definition ct_add_ref (c : counter) (rhs : hmap K nat) : outcome counter :=
  finish (for_each (fun e => ct_bump (cl (fst e)) (snd e)) rhs c).

(** The [match] on the entry of counter.rs:421-433, 446-458 and 485-497. *)
Definition ct_lower (key : K) (val : nat) (c : counter) : counter * outcome unit :=
  match hm_entry eqb E key (ct_map c) with
  | Ret (Occupied cur) =>
      if cur <=? val then (Counter (hm_remove eqb key (ct_map c)), Ret tt)
      else match usub E cur val with
           | Ret new_val => (Counter (hm_set eqb key new_val (ct_map c)), Ret tt)
           | _ => (c, Panic)
           end
  | Ret Vacant => (c, Ret tt)
  | _ => (c, Panic)
  end.

(** counter.rs:419-435 [SubAssign<Counter>]. *)
Definition ct_sub_assign (rhs : hmap K nat) (c : counter) : counter * outcome unit :=
  for_each (fun e => ct_lower (fst e) (snd e)) rhs c.

(** counter.rs:444-460 [SubAssign<&Counter>]. *)
Definition ct_sub_assign_ref (rhs : hmap K nat) (c : counter) : counter * outcome unit :=
  for_each (fun e => ct_lower (cl (fst e)) (snd e)) rhs c.

(** counter.rs:470-473 [Sub<Counter>]. *)
Definition ct_sub (c : counter) (rhs : hmap K nat) : outcome counter :=
  finish (ct_sub_assign rhs c).

(** counter.rs:483-500 [Sub<&Counter>]. *)
Definition ct_sub_ref (c : counter) (rhs : hmap K nat) : outcome counter :=
  finish (for_each (fun e => ct_lower (cl (fst e)) (snd e)) rhs c).

(** std [HashMap::from_iter] over entries of a map: reserves the exact length,
    then inserts one after the other. *)
Definition hm_collect (l : hmap K nat) : hmap K nat * outcome unit :=
  match hm_reserve E (length l) (@nil (K * nat)) with
  | Ret _ => for_each (fun e m => match hm_insert eqb E (fst e) (snd e) m with
                                  | (m', Ret _) => (m', Ret tt)
                                  | (m', _) => (m', Panic)
                                  end) l []
  | _ => ([], Panic)
  end.

(** counter.rs:516-520 [From<HashMap>]; [rhs] in iteration order. *)
Definition ct_from (rhs : hmap K nat) : outcome counter :=
  match hm_collect rhs with (m, o) => let* _ := o in Ret (Counter m) end.

(** counter.rs:529-533 [From<&HashMap>]; [rhs] in iteration order. *)
Definition ct_from_ref (rhs : hmap K nat) : outcome counter :=
  match hm_collect (map (fun e => (cl (fst e), snd e)) rhs) with
  | (m, o) => let* _ := o in Ret (Counter m)
  end.

(** counter.rs:38 derived [PartialEq]: equality of the maps. *)
Definition ct_eq (a b : counter) : bool := hm_eq eqb Nat.eqb (ct_map a) (ct_map b).

(** counter.rs:38 derived [Clone] (std clones every entry). *)
Definition ct_clone (c : counter) : counter :=
  Counter (map (fun e => (cl (fst e), snd e)) (ct_map c)).

(** ** Methods of the map reached through [Deref] (counter.rs:344-346) *)

(** counter.rs:344-346, std [HashMap::get]. *)
Definition ct_get (c : counter) (k : K) : option nat := hm_get eqb k (ct_map c).

(** counter.rs:344-346, std [Index for HashMap]: panics for an absent key. *)
Definition ct_index (c : counter) (k : K) : outcome nat :=
  match ct_get c k with Some n => Ret n | None => Panic end.

(** counter.rs:344-346, std [HashMap::get_key_value]. *)
Definition ct_get_key_value (c : counter) (k : K) : option (K * nat) := hm_entry_of eqb k (ct_map c).

(** counter.rs:344-346, std [HashMap::contains_key]. *)
Definition ct_contains_key (c : counter) (k : K) : bool := hm_contains eqb k (ct_map c).

(** counter.rs:344-346, std [HashMap::len]. *)
Definition ct_len (c : counter) : nat := length (ct_map c).

(** counter.rs:344-346, std [HashMap::is_empty]. *)
Definition ct_is_empty (c : counter) : bool := ct_len c =? 0.

(** ** Methods of the map reached through [DerefMut] (counter.rs:354-356) *)

(** counter.rs:354-356, std [HashMap::insert]. *)
Definition ct_insert (k : K) (n : nat) (c : counter) : counter * outcome (option nat) :=
  match hm_insert eqb E k n (ct_map c) with (m, o) => (Counter m, o) end.

(** counter.rs:354-356, std [HashMap::remove]. *)
Definition ct_remove (k : K) (c : counter) : counter * option nat :=
  (Counter (hm_remove eqb k (ct_map c)), ct_get c k).

(** counter.rs:354-356, std [HashMap::get_mut]; the caller applies [f] to the
    count, if any. *)
Definition ct_get_mut (k : K) (f : nat -> nat) (c : counter) : counter * bool :=
  match ct_get c k with
  | Some n => (Counter (hm_set eqb k (f n) (ct_map c)), true)
  | None => (c, false)
  end.

(** counter.rs:354-356, std [HashMap::clear] and [HashMap::drain]. *)
Definition ct_clear (c : counter) : counter := Counter [].

(** counter.rs:354-356, std [HashMap::retain]. *)
Definition ct_retain (p : K -> nat -> bool) (c : counter) : counter :=
  Counter (hm_retain p (ct_map c)).

(** counter.rs:354-356, std [HashMap::reserve]. *)
Definition ct_reserve (n : nat) (c : counter) : counter * outcome unit :=
  (c, hm_reserve E n (ct_map c)).

End Model.
