(** Model of the part of [std::collections::HashMap] used by
    src/counter/counter.rs and src/disjoint_set/disjoint_set.rs.

    Trusted contract of std, not code of the repository.  A map is the list of
    its entries.  The position of an entry in that list carries no meaning:
    whenever the code iterates over a map, the order of the iteration is an
    argument of the model, constrained only to be a permutation of the entries
    ([iterates]).  Hashing is not modelled ([Hash] is taken as consistent with
    [Eq]); key equality is an arbitrary boolean relation [eqb].  A map holds at
    most [alloc_max E] entries, growing beyond it panics ("capacity overflow")
    and leaves the map as it was. *)
From Coq Require Import Permutation.
From Verif Require Import Base.
Local Open Scope outcome_scope.
Set Implicit Arguments.

(** [Eq] of a key type: an equivalence. *)
Record eq_laws (K : Type) (eqb : K -> K -> bool) : Prop := EqLaws {
  eq_refl' : forall a, eqb a a = true;
  eq_sym' : forall a b, eqb a b = true -> eqb b a = true;
  eq_trans' : forall a b c, eqb a b = true -> eqb b c = true -> eqb a c = true
}.

(** std [HashMap<K, V, S>]: its entries. *)
Definition hmap (K V : Type) : Type := list (K * V).

Section HM.
Variables K V : Type.
Variable eqb : K -> K -> bool.

(** std [HashMap::get_key_value]: the stored key and its value. *)
Fixpoint hm_entry_of (k : K) (m : hmap K V) : option (K * V) :=
  match m with
  | [] => None
  | (k', v) :: r => if eqb k k' then Some (k', v) else hm_entry_of k r
  end.

(** std [HashMap::get]. *)
Definition hm_get (k : K) (m : hmap K V) : option V := option_map snd (hm_entry_of k m).

(** std [HashMap::contains_key]. *)
Definition hm_contains (k : K) (m : hmap K V) : bool :=
  match hm_get k m with Some _ => true | None => false end.

(** std [OccupiedEntry::insert]/writing through [&mut V]: the value changes,
    the stored key stays.  No effect when the key is absent. *)
Fixpoint hm_set (k : K) (v : V) (m : hmap K V) : hmap K V :=
  match m with
  | [] => []
  | (k', v') :: r => if eqb k k' then (k', v) :: r else (k', v') :: hm_set k v r
  end.

(** std [HashMap::remove]/[OccupiedEntry::remove]. *)
Fixpoint hm_remove (k : K) (m : hmap K V) : hmap K V :=
  match m with
  | [] => []
  | (k', v') :: r => if eqb k k' then r else (k', v') :: hm_remove k r
  end.

(** std [HashMap::reserve], [HashMap::with_capacity] (on the empty map). *)
Definition hm_reserve (E : machine) (additional : nat) (m : hmap K V) : outcome unit :=
  if length m + additional <=? alloc_max E then Ret tt else Panic.

(** std [hash_map::Entry]. *)
Inductive entry : Type := Occupied (v : V) | Vacant.

(** std [HashMap::entry]: for an absent key room for one more entry is
    reserved before [Vacant] is returned. *)
Definition hm_entry (E : machine) (k : K) (m : hmap K V) : outcome entry :=
  match hm_get k m with
  | Some v => Ret (Occupied v)
  | None => let* _ := hm_reserve E 1 m in Ret Vacant
  end.

(** std [VacantEntry::insert]: room has been reserved by [hm_entry]. *)
Definition hm_insert_vacant (k : K) (v : V) (m : hmap K V) : hmap K V := (k, v) :: m.

(** std [HashMap::insert]: the previous value is returned; the stored key of
    an existing entry stays. *)
Definition hm_insert (E : machine) (k : K) (v : V) (m : hmap K V)
  : hmap K V * outcome (option V) :=
  match hm_entry E k m with
  | Ret (Occupied old) => (hm_set k v m, Ret (Some old))
  | Ret Vacant => (hm_insert_vacant k v m, Ret None)
  | _ => (m, Panic)
  end.

(** std [HashMap::entry(k).or_insert(v)]: the map with the entry present and
    the value the returned reference points to. *)
Definition hm_or_insert (E : machine) (k : K) (v : V) (m : hmap K V)
  : hmap K V * outcome V :=
  match hm_entry E k m with
  | Ret (Occupied old) => (m, Ret old)
  | Ret Vacant => (hm_insert_vacant k v m, Ret v)
  | _ => (m, Panic)
  end.

(** std [HashMap::retain]. *)
Definition hm_retain (p : K -> V -> bool) (m : hmap K V) : hmap K V :=
  filter (fun e => p (fst e) (snd e)) m.

(** std [HashMap::iter_mut]: the caller rewrites each value; simplification:
    the new value is a function of the entry only. *)
Definition hm_map_values (f : K -> V -> V) (m : hmap K V) : hmap K V :=
  map (fun e => (fst e, f (fst e) (snd e))) m.

(** std [HashMap::iter]/[into_iter]: [l] is the sequence of entries met. *)
Definition iterates (m l : hmap K V) : Prop := Permutation m l.

(** std [PartialEq for HashMap]: same length and every entry of the left map
    has an equal value in the right one. *)
Definition hm_eq (veqb : V -> V -> bool) (m1 m2 : hmap K V) : bool :=
  (length m1 =? length m2) &&
  forallb (fun e => match hm_get (fst e) m2 with
                    | Some v => veqb (snd e) v
                    | None => false
                    end) m1.

(** Invariant of std: no two entries have equal keys. *)
Definition hm_wf (m : hmap K V) : Prop :=
  ForallOrdPairs (fun a b => eqb (fst a) (fst b) = false) m.

End HM.
Arguments Occupied {V} v.
Arguments Vacant {V}.
Arguments hm_reserve {K V} E additional m.

(** A Rust [for] loop whose body changes the state [s]; a panic ends it. *)
Fixpoint for_each {S A} (f : A -> S -> S * outcome unit) (l : list A) (s : S)
  : S * outcome unit :=
  match l with
  | [] => (s, Ret tt)
  | a :: r =>
      match f a s with
      | (s', Ret _) => for_each f r s'
      | (s', o) => (s', o)
      end
  end.

(** std [sort_unstable_by_key]: [r] is one of the possible results of sorting
    [l]; the key function may panic, it does not when this relation holds. *)
Definition sort_by_key_gives {A} (key : A -> outcome nat) (l r : list A) : Prop :=
  Permutation l r /\
  ForallOrdPairs (fun a b => exists x y, key a = Ret x /\ key b = Ret y /\ x <= y) r /\
  Forall (fun a => exists x, key a = Ret x) r.
