(** What a map is, call by call.  Nothing here mentions the model of a table.

    A map gives for every key the entry stored for it, if any. *)
From Coq Require Import Permutation.
From Verif Require Import Base.
Set Implicit Arguments.

Section Spec.
Variables K V : Type.
Variable eqb : K -> K -> bool.
Variable E : machine.

Definition fmap : Type := K -> option (K * V).

Definition none : fmap := fun _ => None.

Definition same (f g : fmap) : Prop := forall k, f k = g k.

(** [l] has every entry of [f] once *)
Definition lists (f : fmap) (l : list (K * V)) : Prop :=
  ForallOrdPairs (fun a b => eqb (fst a) (fst b) = false) l /\
  forall k e, f k = Some e <-> In e l /\ eqb k (fst e) = true.

(** there is memory for [n] more entries *)
Definition fits (f : fmap) (n : nat) : Prop := exists l, lists f l /\ length l + n <= alloc_max E.

Definition upd (f : fmap) (k : K) (e : K * V) : fmap := fun x => if eqb x k then Some e else f x.

Definition without (f : fmap) (k : K) : fmap := fun x => if eqb x k then None else f x.

Definition keep (f : fmap) (p : K -> V -> bool) : fmap :=
  fun x => match f x with Some (k, v) => if p k v then Some (k, v) else None | None => None end.

(** the calls counters and disjoint sets make *)
Inductive call : Type :=
| TGet (k : K) | TLen | TIter | TInsert (k : K) (v : V)
| TUpsert (k : K) (d : V) (up : V -> V) (** [*entry(k).or_insert(d) = up(..)] *)
| TUpdate (k : K) (up : V -> V)         (** [get_mut] and writing *)
| TRemove (k : K) | TRetain (p : K -> V -> bool) | TReserve (n : nat) | TClear.

Inductive answer : Type :=
| AEntry (e : option (K * V)) | ANum (n : nat) | AAll (l : list (K * V)) | AOld (v : option V) | AVal (v : V) | AUnit.

(** the call may take [f] to [f'] and end with [r] *)
Definition allowed (c : call) (f f' : fmap) (r : outcome answer) : Prop :=
  match c with
  | TGet k => same f' f /\ r = Ret (AEntry (f k))
  | TLen => same f' f /\ exists l, lists f l /\ r = Ret (ANum (length l))
  | TIter => same f' f /\ exists l, lists f l /\ r = Ret (AAll l)
  | TInsert k v =>
      match f k with
      | Some (k', old) => same f' (upd f k (k', v)) /\ r = Ret (AOld (Some old))
      | None => fits f 1 /\ same f' (upd f k (k, v)) /\ r = Ret (AOld None) \/ ~ fits f 1 /\ same f' f /\ r = Panic
      end
  | TUpsert k d up =>
      match f k with
      | Some (k', old) => same f' (upd f k (k', up old)) /\ r = Ret (AVal (up old))
      | None => fits f 1 /\ same f' (upd f k (k, up d)) /\ r = Ret (AVal (up d)) \/ ~ fits f 1 /\ same f' f /\ r = Panic
      end
  | TUpdate k up =>
      match f k with
      | Some (k', old) => same f' (upd f k (k', up old)) /\ r = Ret AUnit
      | None => same f' f /\ r = Ret AUnit
      end
  | TRemove k => same f' (without f k) /\ r = Ret (AOld (option_map snd (f k)))
  | TRetain p => same f' (keep f p) /\ r = Ret AUnit
  | TReserve n => same f' f /\ (fits f n /\ r = Ret AUnit \/ ~ fits f n /\ r = Panic)
  | TClear => same f' none /\ r = Ret AUnit
  end.

Inductive history : list call -> fmap -> fmap -> list (outcome answer) -> Prop :=
| h_nil f f' : same f' f -> history [] f f' []
| h_cons c cs f f1 f2 r rs : allowed c f f1 r -> history cs f1 f2 rs -> history (c :: cs) f f2 (r :: rs).

(** answers alike, up to the order of listings *)
Definition alike (r r' : outcome answer) : Prop :=
  match r, r' with
  | Ret (AAll l), Ret (AAll l') => Permutation l l'
  | _, _ => r = r'
  end.
End Spec.
Arguments TLen {K V}.
Arguments TIter {K V}.
Arguments TReserve {K V}.
Arguments TClear {K V}.
Arguments ANum {K V}.
Arguments AUnit {K V}.

(** calls that remove no entry, or all of them *)
Definition keeps {K V} (c : call K V) : bool := match c with TRemove _ _ | TRetain _ => false | _ => true end.
