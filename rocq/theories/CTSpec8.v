(** Specification of the calls of [HashMap] that a counter offers through
    [DerefMut], beyond those of [CTSpec.op]: the entry API, draining, loops whose
    body is arbitrary code that may panic, and extending with pairs. *)
From Coq Require Import Permutation.
From Verif Require Import Base CTSpec.
Set Implicit Arguments.

Section Spec.
Variable K : Type.
Variable eqb : K -> K -> bool.
Variable E : machine.
Variable cl : K -> K.
Notation fm := (fm K).

(** Calls on one counter.  The user's code: [g] gives the number written and
    whether it then returns; in a loop it also sees how many entries were met
    before; [p] gives the number written and whether to keep the entry, or a
    panic.  Pairs come from an iterator that panics at a [None].  [pick] is the
    order of an iteration. *)
Inductive call : Type :=
| COwn (o : op K)
| COrInsert (k : K) (n : nat) (g : nat -> nat)
| COrInsertWith (k : K) (r : option nat)
| CAndModify (k : K) (g : nat -> nat * bool) (n : nat)
| CEntryInsert (k : K) (n : nat)
| CEntryRemove (k : K)
| CRemoveEntry (k : K)
| CDrain (pick : list (K * nat) -> list (K * nat)) (n : nat)
| CKeys (pick : list (K * nat) -> list (K * nat))
| CValues (pick : list (K * nat) -> list (K * nat))
| CUpdate (pick : list (K * nat) -> list (K * nat)) (g : nat -> K -> nat -> nat * bool)
| CSift (pick : list (K * nat) -> list (K * nat)) (p : nat -> K -> nat -> nat * option bool)
| CExtendPairs (hint : nat) (evs : list (option (K * nat)))
| CShrink.

(** what they return *)
Inductive answer : Type :=
| AOwn (r : out K) | ANat (n : nat) | AOpt (o : option nat) | AEntry (o : option (K * nat))
| AList (l : list (K * nat)) | AKeys (l : list K) | AValues (l : list nat) | AUnit.

(** arguments of the right types *)
Definition call_ok (c : call) : Prop :=
  match c with
  | COwn o => op_ok eqb E o
  | COrInsert _ n g => n <= usize_max E /\ forall m, g m <= usize_max E
  | COrInsertWith _ r => match r with Some n => n <= usize_max E | None => True end
  | CAndModify _ g n => n <= usize_max E /\ forall m, fst (g m) <= usize_max E
  | CEntryInsert _ n => n <= usize_max E
  | CDrain pick _ | CKeys pick | CValues pick => forall l, Permutation l (pick l)
  | CUpdate pick g => (forall l, Permutation l (pick l)) /\ forall i k n, fst (g i k n) <= usize_max E
  | CSift pick p => (forall l, Permutation l (pick l)) /\ forall i k n, fst (p i k n) <= usize_max E
  | CExtendPairs hint evs => hint <= usize_max E /\ forall k n, In (Some (k, n)) evs -> n <= usize_max E
  | _ => True
  end.

(** [f] with the entry [e] for [k] *)
Definition put (k : K) (e : K * nat) (f : fm) : fm := fun x => if eqb x k then Some e else f x.
(** [f] without [k] *)
Definition cut (k : K) (f : fm) : fm := fun x => if eqb x k then None else f x.
(** an absent key: with room for it [P], otherwise a panic *)
Definition vacant (f f' : fm) (r : outcome answer) (P : Prop) : Prop :=
  (reserves eqb E 1 f /\ P) \/ (full eqb E f /\ same f' f /\ r = Panic).

(** [f] after the pairs of [l] were inserted: the first instance of a key stays,
    and so does the last number *)
Definition overwrite (f : fm) (l : list (K * nat)) : fm := fun x =>
  match f x with
  | Some (k, n) => Some (k, match entry_in eqb (rev l) x with Some (_, m) => m | None => n end)
  | None =>
      match entry_in eqb l x, entry_in eqb (rev l) x with
      | Some (k, _), Some (_, m) => Some (k, m)
      | _, _ => None
      end
  end.
(** the room that extending a map asks for *)
Definition wanted (f : fm) (hint want : nat) : Prop :=
  (same f empty /\ want = hint) \/ (~ same f empty /\ want = Nat.div2 (wrap E (hint + 1))).

(** what each call may do and return *)
Definition allows (c : call) (f f' : fm) (r : outcome answer) : Prop :=
  match c with
  | COwn o => exists r0, allowed eqb E cl o f f' r0 /\ r = omap AOwn r0
  | COrInsert k n g =>
      match f k with
      | Some (k', old) => same f' (put k (k', g old) f) /\ r = Ret (ANat (g old))
      | None => vacant f f' r (same f' (put k (k, g n) f) /\ r = Ret (ANat (g n)))
      end
  | COrInsertWith k v =>
      match f k with
      | Some (_, old) => same f' f /\ r = Ret (ANat old)
      | None => vacant f f' r (match v with
          | Some n => same f' (put k (k, n) f) /\ r = Ret (ANat n)
          | None => same f' f /\ r = Panic
          end)
      end
  | CAndModify k g n =>
      match f k with
      | Some (k', old) => same f' (put k (k', fst (g old)) f) /\ r = if snd (g old) then Ret (ANat (fst (g old))) else Panic
      | None => vacant f f' r (same f' (put k (k, n) f) /\ r = Ret (ANat n))
      end
  | CEntryInsert k n =>
      match f k with
      | Some (k', old) => same f' (put k (k', n) f) /\ r = Ret (AOpt (Some old))
      | None => vacant f f' r (same f' (put k (k, n) f) /\ r = Ret (AOpt None))
      end
  | CEntryRemove k =>
      match f k with
      | Some e => same f' (cut k f) /\ r = Ret (AEntry (Some e))
      | None => vacant f f' r (same f' f /\ r = Ret (AEntry None))
      end
  | CRemoveEntry k => same f' (cut k f) /\ r = Ret (AEntry (f k))
  | CDrain _ n => same f' empty /\ exists l, enumerates eqb f l /\ r = Ret (AList (firstn n l))
  | CKeys _ => same f' f /\ exists l, enumerates eqb f l /\ r = Ret (AKeys (map fst l))
  | CValues _ => same f' f /\ exists l, enumerates eqb f l /\ r = Ret (AValues (map snd l))
  | CUpdate _ g => exists l m, enumerates eqb f l /\
      (forall x, f x = None -> f' x = None) /\
      (forall i k n x, nth_error l i = Some (k, n) -> eqb x k = true ->
         f' x = Some (k, if i <? m then fst (g i k n) else n)) /\
      (forall i k n, nth_error l i = Some (k, n) -> S i < m -> snd (g i k n) = true) /\
      ((r = Ret AUnit /\ m = length l /\ forall i k n, nth_error l i = Some (k, n) -> snd (g i k n) = true) \/
       (r = Panic /\ exists i k n, m = S i /\ nth_error l i = Some (k, n) /\ snd (g i k n) = false))
  | CSift _ p => exists l m, enumerates eqb f l /\
      (forall x, f x = None -> f' x = None) /\
      (forall i k n x, nth_error l i = Some (k, n) -> eqb x k = true ->
         f' x = if i <? m then match snd (p i k n) with Some false => None | _ => Some (k, fst (p i k n)) end
                else Some (k, n)) /\
      (forall i k n, nth_error l i = Some (k, n) -> S i < m -> snd (p i k n) <> None) /\
      ((r = Ret AUnit /\ m = length l /\ forall i k n, nth_error l i = Some (k, n) -> snd (p i k n) <> None) \/
       (r = Panic /\ exists i k n, m = S i /\ nth_error l i = Some (k, n) /\ snd (p i k n) = None))
  | CExtendPairs hint evs => exists want, wanted f hint want /\
      ((cannot_reserve eqb E want f /\ same f' f /\ r = Panic) \/
       (reserves eqb E want f /\ exists l rest, evs = map Some l ++ rest /\ same f' (overwrite f l) /\
          match rest with
          | [] => r = Ret AUnit
          | None :: _ => r = Panic
          | Some e :: _ => r = Panic /\ f' (fst e) = None /\ full eqb E f'
          end))
  | CShrink => same f' f /\ r = Ret AUnit
  end.

(** A history of calls, panics being caught by the caller. *)
Inductive calls : list call -> fm -> fm -> list (outcome answer) -> Prop :=
| cs_nil f f' : same f' f -> calls [] f f' []
| cs_cons c cs f f1 f2 r tr : allows c f f1 r -> calls cs f1 f2 tr -> calls (c :: cs) f f2 (r :: tr).

End Spec.
Arguments CShrink {K}. Arguments AUnit {K}. Arguments ANat {K} n. Arguments AOpt {K} o. Arguments AValues {K} l.
