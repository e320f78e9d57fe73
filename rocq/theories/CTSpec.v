(** Specification of the counter: occurrence counts and finite maps.
    Independent of the model: a counter is seen as a function from keys to the
    entry (stored key and count) they have, if any. *)
From Coq Require Import Permutation.
From Verif Require Import Base.
Set Implicit Arguments.

Section Spec.
Variable K : Type.
Variable eqb : K -> K -> bool.

(** occurrences of [x] in [xs] *)
Definition occ (x : K) (xs : list K) : nat := length (filter (eqb x) xs).

(** sum of the numbers paired with (a key equal to) [x] *)
Definition amount (x : K) (l : list (K * nat)) : nat :=
  list_sum (map snd (filter (fun e => eqb x (fst e)) l)).

(** sum of all numbers *)
Definition total (l : list (K * nat)) : nat := list_sum (map snd l).

(** the first entry of [l] for [x] *)
Definition entry_in (l : list (K * nat)) (x : K) : option (K * nat) :=
  find (fun e => eqb x (fst e)) l.

(** pairwise different keys *)
Definition distinct (ks : list K) : Prop := ForallOrdPairs (fun a b => eqb a b = false) ks.

(** [xs] has [n] different elements *)
Definition has_distinct (xs : list K) (n : nat) : Prop :=
  exists ks, distinct ks /\ length ks = n /\
    (forall x, (exists k, In k ks /\ eqb x k = true) <-> (exists y, In y xs /\ eqb x y = true)).

(** finite maps from keys to counts; an entry remembers the stored key *)
Definition fm : Type := K -> option (K * nat).
(** equal maps *)
Definition same (f g : fm) : Prop := forall x, f x = g x.
(** the count of a key, 0 if there is none *)
Definition count (f : fm) (x : K) : nat := match f x with Some (_, n) => n | None => 0 end.
(** no entries *)
Definition empty : fm := fun _ => None.

(** [f] has [n] entries *)
Definition has_size (f : fm) (n : nat) : Prop :=
  exists ks, distinct ks /\ length ks = n /\
    forall x, f x <> None <-> exists k, In k ks /\ eqb x k = true.

(** [l] lists the entries of [f], each once *)
Definition enumerates (f : fm) (l : list (K * nat)) : Prop :=
  distinct (map fst l) /\ forall x e, f x = Some e <-> In e l /\ eqb x (fst e) = true.

(** sum of two optional counts *)
Definition opt_plus (a b : option nat) : option nat :=
  match a, b with
  | None, None => None
  | Some n, None => Some n
  | None, Some m => Some m
  | Some n, Some m => Some (n + m)
  end.
(** positive difference of two optional counts: what does not stay positive is removed *)
Definition opt_minus (a b : option nat) : option nat :=
  match a, b with
  | Some n, Some m => if n <=? m then None else Some (n - m)
  | _, _ => a
  end.
(** the number an optional count stands for *)
Definition opt_count (a : option nat) : nat := match a with Some n => n | None => 0 end.

Variable E : machine.

(** a number reduced to the range of [usize] *)
Definition wrap (n : nat) : nat := n mod S (usize_max E).

(** [f] with the numbers of [l] added to the counts of their keys; a key new
    to [f] is stored as first met in [l] *)
Definition plus (f : fm) (l : list (K * nat)) : fm := fun x =>
  match f x, entry_in l x with
  | Some (k, n), _ => Some (k, wrap (n + amount x l))
  | None, Some (k, _) => Some (k, wrap (amount x l))
  | None, None => None
  end.

(** [f] with the numbers of [l] (at most one per key) taken from the counts;
    counts that would not stay positive are removed *)
Definition minus (f : fm) (l : list (K * nat)) : fm := fun x =>
  match f x, entry_in l x with
  | Some (k, n), Some (_, v) => if n <=? v then None else Some (k, n - v)
  | o, _ => o
  end.

(** ** Calls on one counter *)
(** Iterators are their lower size hint and their items, counters their
    entries.  [OIter pick]: iterate; [pick] is the order.  [OGetMut]/
    [OIterMut]: the caller rewrites the counts reached. *)
Inductive op : Type :=
| OPush (k : K) | OExtend (hint : nat) (xs : list K) | OExtendRef (hint : nat) (xs : list K)
| OAdd (rhs : list (K * nat)) | OAddRef (rhs : list (K * nat))
| OSub (rhs : list (K * nat)) | OSubRef (rhs : list (K * nat))
| OGet (k : K) | OGetKeyValue (k : K) | OIndex (k : K) | OContains (k : K)
| OLen | OIsEmpty | OIter (pick : list (K * nat) -> list (K * nat))
| OInsert (k : K) (n : nat) | ORemove (k : K) | OGetMut (k : K) (g : nat -> nat)
| OClear | ORetain (p : K -> nat -> bool) | OIterMut (g : K -> nat -> nat) | OReserve (n : nat).

(** what calls return *)
Inductive out : Type :=
| RUnit | RBool (b : bool) | RNat (n : nat) | ROpt (o : option nat)
| REntry (o : option (K * nat)) | RList (l : list (K * nat)).

(** the calls that only count, and how much they count *)
Definition counted (o : op) : option nat :=
  match o with
  | OPush _ => Some 1
  | OExtend _ xs | OExtendRef _ xs => Some (length xs)
  | OAdd l | OAddRef l => Some (total l)
  | _ => None
  end.

(** how keys are cloned *)
Variable cl : K -> K.

(** an entry list that can be the content of a map *)
Definition map_content (l : list (K * nat)) : Prop :=
  distinct (map fst l) /\ Forall (fun e => snd e <= usize_max E) l.

(** arguments of the right types *)
Definition op_ok (o : op) : Prop :=
  match o with
  | OAdd l | OAddRef l | OSub l | OSubRef l => map_content l
  | OIter pick => forall l, Permutation l (pick l)
  | OInsert _ n => n <= usize_max E
  | OGetMut _ g => forall n, g n <= usize_max E
  | OIterMut g => forall k n, g k n <= usize_max E
  | _ => True
  end.

(** there is no room for a further entry *)
Definition full (f : fm) : Prop := has_size f (alloc_max E).

(** The outcome of adding [l] to [f]: everything is added within the table's
    limit, no count overflowing in a debug build; or a panic at the first item whose count
    overflows or that is new when the table is full, the items before it being added. *)
Definition adds (l : list (K * nat)) (f f' : fm) (r : outcome out) : Prop :=
  (r = Ret RUnit /\ same f' (plus f l) /\ (exists n, has_size f' n /\ n <= alloc_max E) /\
     (debug_build E = true -> forall x, count f x + amount x l <= usize_max E))
  \/
  (r = Panic /\ exists l1 e l2, l = l1 ++ e :: l2 /\ same f' (plus f l1) /\
     (exists n, has_size f' n /\ n <= alloc_max E) /\
     (debug_build E = true -> forall x, count f x + amount x l1 <= usize_max E) /\
     ((debug_build E = true /\ usize_max E < count f (fst e) + amount (fst e) (l1 ++ [e]))
      \/ (f' (fst e) = None /\ full f'))).

(** one of the items of [l] is met when it is absent from a full table *)
Definition blocked (l : list (K * nat)) (f : fm) : Prop :=
  exists l1 e l2, l = l1 ++ e :: l2 /\ minus f l1 (fst e) = None /\ full (minus f l1).

(** The outcome of subtracting [l]: everything is subtracted, or a panic at the
    first item absent from a full table. *)
Definition subtracts (l : list (K * nat)) (f f' : fm) (r : outcome out) : Prop :=
  (r = Ret RUnit /\ same f' (minus f l) /\ ~ blocked l f)
  \/
  (r = Panic /\ exists l1 e l2, l = l1 ++ e :: l2 /\ same f' (minus f l1) /\
     f' (fst e) = None /\ full f' /\ ~ blocked l1 f).

(** room for [n] further entries is available *)
Definition reserves (n : nat) (f : fm) : Prop :=
  exists s, has_size f s /\ s + n <= alloc_max E.
(** room for [n] further entries is not available *)
Definition cannot_reserve (n : nat) (f : fm) : Prop :=
  exists s, has_size f s /\ alloc_max E < s + n.

(** every item counted once *)
Definition unitl (xs : list K) : list (K * nat) := map (fun x => (x, 1)) xs.
(** the entries with cloned keys *)
Definition clonel (l : list (K * nat)) : list (K * nat) := map (fun e => (cl (fst e), snd e)) l.

(** the outcome of [extend] *)
Definition extends (hint : nat) (xs : list K) (f f' : fm) (r : outcome out) : Prop :=
  (reserves hint f /\ adds (unitl xs) f f' r) \/
  (cannot_reserve hint f /\ same f' f /\ r = Panic).

(** [allowed o f f' r]: the call [o] on a counter seen as [f] may leave a
    counter seen as [f'] and end with [r]. *)
Definition allowed (o : op) (f f' : fm) (r : outcome out) : Prop :=
  match o with
  | OPush k => adds [(k, 1)] f f' r
  | OExtend hint xs | OExtendRef hint xs => extends hint xs f f' r
  | OAdd l => adds l f f' r
  | OAddRef l => adds (clonel l) f f' r
  | OSub l => subtracts l f f' r
  | OSubRef l => subtracts (clonel l) f f' r
  | OGet k => same f' f /\ r = Ret (ROpt (option_map snd (f k)))
  | OGetKeyValue k => same f' f /\ r = Ret (REntry (f k))
  | OIndex k => same f' f /\ r = match f k with Some (_, n) => Ret (RNat n) | None => Panic end
  | OContains k => same f' f /\ r = Ret (RBool (match f k with Some _ => true | None => false end))
  | OLen => same f' f /\ exists n, has_size f n /\ r = Ret (RNat n)
  | OIsEmpty => same f' f /\ exists b, (b = true <-> same f empty) /\ r = Ret (RBool b)
  | OIter _ => same f' f /\ exists l, enumerates f l /\ r = Ret (RList l)
  | OInsert k n =>
      match f k with
      | Some (k', old) =>
          same f' (fun x => if eqb x k then Some (k', n) else f x) /\ r = Ret (ROpt (Some old))
      | None =>
          (reserves 1 f /\ same f' (fun x => if eqb x k then Some (k, n) else f x) /\
             r = Ret (ROpt None)) \/
          (full f /\ same f' f /\ r = Panic)
      end
  | ORemove k =>
      same f' (fun x => if eqb x k then None else f x) /\ r = Ret (ROpt (option_map snd (f k)))
  | OGetMut k g =>
      match f k with
      | Some (k', old) =>
          same f' (fun x => if eqb x k then Some (k', g old) else f x) /\ r = Ret (RBool true)
      | None => same f' f /\ r = Ret (RBool false)
      end
  | OClear => same f' empty /\ r = Ret RUnit
  | ORetain p =>
      same f' (fun x => match f x with
                        | Some (k, n) => if p k n then Some (k, n) else None
                        | None => None end) /\ r = Ret RUnit
  | OIterMut g =>
      same f' (fun x => match f x with Some (k, n) => Some (k, g k n) | None => None end) /\
      r = Ret RUnit
  | OReserve n =>
      same f' f /\ ((reserves n f /\ r = Ret RUnit) \/ (cannot_reserve n f /\ r = Panic))
  end.

(** A history of calls, panics being caught by the caller. *)
Inductive history : list op -> fm -> fm -> list (outcome out) -> Prop :=
| h_nil f f' : same f' f -> history [] f f' []
| h_cons o ops f f1 f2 r tr : allowed o f f1 r -> history ops f1 f2 tr ->
    history (o :: ops) f f2 (r :: tr).

End Spec.
Arguments RUnit {K}. Arguments RBool {K} b. Arguments RNat {K} n. Arguments ROpt {K} o.
Arguments OLen {K}. Arguments OIsEmpty {K}. Arguments OClear {K}. Arguments OReserve {K} n.
Arguments empty {K} _.
