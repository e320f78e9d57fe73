(** Model of src/counter/counter.rs, seventh part: the calls of the map reached
    through [DerefMut] (counter.rs:349-357) that [CTModel] does not have: the entry
    API, draining, loops over the counts whose body is the user's code and may
    panic, and extending with pairs.  std's contract, see [HMModel]. *)
From Verif Require Import Base HMModel CTModel CTRun CTSpec CTSpec8.
Local Open Scope outcome_scope.
Set Implicit Arguments.

Section Model.
Variable K : Type.
Variable eqb : K -> K -> bool.
Variable cl : K -> K.
Variable E : machine.
Notation counter := (counter K).

(** counter.rs:354-356, std [*c.entry(k).or_insert(n) = g(..)]: the caller writes
    through the reference *)
Definition ct_or_insert (k : K) (n : nat) (g : nat -> nat) (c : counter) : counter * outcome nat :=
  match hm_or_insert eqb E k n (ct_map c) with
  | (m, Ret v) => (Counter (hm_set eqb k (g v) m), Ret (g v))
  | (m, o) => (Counter m, o)
  end.
(** counter.rs:354-356, std [Entry::or_insert_with]: the closure is called for an
    absent key only; [None] is a panic of it *)
Definition ct_or_insert_with (k : K) (r : option nat) (c : counter) : counter * outcome nat :=
  match hm_entry eqb E k (ct_map c) with
  | Ret (Occupied old) => (c, Ret old)
  | Ret Vacant =>
      match r with
      | Some n => (Counter (hm_insert_vacant k n (ct_map c)), Ret n)
      | None => (c, Panic)
      end
  | _ => (c, Panic)
  end.
(** counter.rs:354-356, std [Entry::and_modify] followed by [or_insert] *)
Definition ct_and_modify (k : K) (g : nat -> nat * bool) (n : nat) (c : counter) : counter * outcome nat :=
  match hm_entry eqb E k (ct_map c) with
  | Ret (Occupied old) =>
      let '(new, ok) := g old in
      (Counter (hm_set eqb k new (ct_map c)), if ok then Ret new else Panic)
  | Ret Vacant => (Counter (hm_insert_vacant k n (ct_map c)), Ret n)
  | _ => (c, Panic)
  end.
(** counter.rs:354-356, std [OccupiedEntry::insert] or [VacantEntry::insert] *)
Definition ct_entry_insert (k : K) (n : nat) (c : counter) : counter * outcome (option nat) :=
  match hm_entry eqb E k (ct_map c) with
  | Ret (Occupied old) => (Counter (hm_set eqb k n (ct_map c)), Ret (Some old))
  | Ret Vacant => (Counter (hm_insert_vacant k n (ct_map c)), Ret None)
  | _ => (c, Panic)
  end.
(** counter.rs:354-356, std [OccupiedEntry::remove_entry]; a vacant entry is
    dropped, but room for it has been made *)
Definition ct_entry_remove (k : K) (c : counter) : counter * outcome (option (K * nat)) :=
  match hm_entry eqb E k (ct_map c) with
  | Ret (Occupied _) => (Counter (hm_remove eqb k (ct_map c)), Ret (hm_entry_of eqb k (ct_map c)))
  | Ret Vacant => (c, Ret None)
  | _ => (c, Panic)
  end.
(** counter.rs:354-356, std [HashMap::remove_entry] *)
Definition ct_remove_entry (k : K) (c : counter) : counter * option (K * nat) :=
  (Counter (hm_remove eqb k (ct_map c)), hm_entry_of eqb k (ct_map c)).
(** counter.rs:354-356, std [HashMap::drain]: [n] entries are taken, the others are
    dropped with the [Drain] (which is not leaked) *)
Definition ct_drain (pick : list (K * nat) -> list (K * nat)) (n : nat) (c : counter) : counter * list (K * nat) :=
  (Counter [], firstn n (pick (ct_map c))).
(** counter.rs:344-346, std [HashMap::keys] *)
Definition ct_iter_keys (pick : list (K * nat) -> list (K * nat)) (c : counter) : list K := map fst (pick (ct_map c)).
(** counter.rs:344-346, std [HashMap::values] *)
Definition ct_values (pick : list (K * nat) -> list (K * nat)) (c : counter) : list nat := map snd (pick (ct_map c)).

(** the loop over [iter_mut] or [values_mut] (counter.rs:312-323, 354-356): [g]
    writes and may then panic; [i] entries were met before *)
Fixpoint visit (g : nat -> K -> nat -> nat * bool) (i : nat) (l : list (K * nat)) : list (K * nat) * bool :=
  match l with
  | [] => ([], true)
  | (k, n) :: r =>
      let '(n', ok) := g i k n in
      if ok then let '(r', b) := visit g (S i) r in ((k, n') :: r', b) else ((k, n') :: r, false)
  end.
(** counter.rs:312-323 and 354-356, std [HashMap::iter_mut] and [values_mut] *)
Definition ct_update (pick : list (K * nat) -> list (K * nat)) (g : nat -> K -> nat -> nat * bool) (c : counter) : counter * outcome unit :=
  let '(l, ok) := visit g 0 (pick (ct_map c)) in (Counter l, if ok then Ret tt else Panic).
(** the loop of std [HashMap::retain] (from counter.rs:354-356): an entry is
    removed once the closure has answered [false] *)
Fixpoint sift (p : nat -> K -> nat -> nat * option bool) (i : nat) (l : list (K * nat)) : list (K * nat) * bool :=
  match l with
  | [] => ([], true)
  | (k, n) :: r =>
      match p i k n with
      | (n', Some keep) =>
          let '(r', b) := sift p (S i) r in ((if keep then [(k, n')] else []) ++ r', b)
      | (n', None) => ((k, n') :: r, false)
      end
  end.
(** counter.rs:354-356, std [HashMap::retain] *)
Definition ct_sift (pick : list (K * nat) -> list (K * nat)) (p : nat -> K -> nat -> nat * option bool) (c : counter) : counter * outcome unit :=
  let '(l, ok) := sift p 0 (pick (ct_map c)) in (Counter l, if ok then Ret tt else Panic).

(** the loop of std [Extend<(K, V)> for HashMap] (from counter.rs:354-356) *)
Fixpoint insert_pairs (evs : list (option (K * nat))) (c : counter) : counter * outcome unit :=
  match evs with
  | [] => (c, Ret tt)
  | None :: _ => (c, Panic)
  | Some (k, n) :: r =>
      match ct_insert eqb E k n c with
      | (c', Ret _) => insert_pairs r c'
      | (c', _) => (c', Panic)
      end
  end.
(** counter.rs:354-356, std [Extend<(K, V)> for HashMap] on [*c]: half of the hint
    is reserved unless the map is empty; the addition wraps, std being compiled
    without overflow checks *)
Definition ct_extend_pairs (hint : nat) (evs : list (option (K * nat))) (c : counter) : counter * outcome unit :=
  let want := if ct_len c =? 0 then hint else ((hint + 1) mod S (usize_max E)) / 2 in
  match hm_reserve E want (ct_map c) with
  | Ret _ => insert_pairs evs c
  | _ => (c, Panic)
  end.
(** counter.rs:354-356, std [HashMap::shrink_to_fit]: the entries stay *)
Definition ct_shrink (c : counter) : counter := c.

(** one call (counter.rs:140-500) *)
Definition ct_call (o : call K) (c : counter) : counter * outcome (answer K) :=
  match o with
  | COwn o => match ct_step eqb cl E o c with (c', r) => (c', omap (@AOwn K) r) end
  | COrInsert k n g => match ct_or_insert k n g c with (c', r) => (c', omap ANat r) end
  | COrInsertWith k v => match ct_or_insert_with k v c with (c', r) => (c', omap ANat r) end
  | CAndModify k g n => match ct_and_modify k g n c with (c', r) => (c', omap ANat r) end
  | CEntryInsert k n => match ct_entry_insert k n c with (c', r) => (c', omap AOpt r) end
  | CEntryRemove k => match ct_entry_remove k c with (c', r) => (c', omap (@AEntry K) r) end
  | CRemoveEntry k => match ct_remove_entry k c with (c', r) => (c', Ret (AEntry r)) end
  | CDrain pick n => match ct_drain pick n c with (c', l) => (c', Ret (AList l)) end
  | CKeys pick => (c, Ret (AKeys (ct_iter_keys pick c)))
  | CValues pick => (c, Ret (AValues (ct_values pick c)))
  | CUpdate pick g => match ct_update pick g c with (c', r) => (c', omap (fun _ => AUnit) r) end
  | CSift pick p => match ct_sift pick p c with (c', r) => (c', omap (fun _ => AUnit) r) end
  | CExtendPairs hint evs => match ct_extend_pairs hint evs c with (c', r) => (c', omap (fun _ => AUnit) r) end
  | CShrink => (ct_shrink c, Ret AUnit)
  end.
(** a history; panics are caught (counter.rs:140-500) *)
Fixpoint ct_calls (cs : list (call K)) (c : counter) : counter * list (outcome (answer K)) :=
  match cs with
  | [] => (c, [])
  | o :: r => match ct_call o c with (c1, a) => match ct_calls r c1 with (c2, tr) => (c2, a :: tr) end end
  end.
End Model.
