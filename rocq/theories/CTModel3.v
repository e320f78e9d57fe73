(** More of src/counter/counter.rs: [Hash] or [Eq] of keys panicking in lookups
    ([hp]) and while room is made ([rp]), and keys whose destructor panics ([dp]).

    Simplifications: what an abandoned user iterator drops is left out; a value returned past a panicking
    destructor is dropped, not leaked (this only matters for
    [OccupiedEntry::remove], with two panicking keys). *)
From Coq Require Import Permutation.
From Verif Require Import Base HMModel CTModel.
Local Open Scope outcome_scope.
Set Implicit Arguments.

Section Model.
Variable K : Type.
(** [T: Eq] of the key type *)
Variable eqb : K -> K -> bool.
(** whether looking up a key in a map with the given entries panics: because of
    the key itself or of a stored key it is compared with *)
Variable hp : hmap K nat -> K -> bool.
(** whether making room for so many more entries panics because a stored key,
    which is hashed again, does; and if so the entries left in the map and those
    lost.  (std loses none when it moves to a larger table, but may lose some when
    it tidies up after removals, rehashing in place.) *)
Variable rp : hmap K nat -> nat -> option (hmap K nat * hmap K nat).
(** the keys whose destructor panics *)
Variable dp : K -> bool.
(** [T: Clone] of the key type *)
Variable cl : K -> K.
Variable E : machine.

(** Entries are lost or left. *)
Definition ct_rehashes : Prop :=
  forall m n kept gone, rp m n = Some (kept, gone) -> Permutation (gone ++ kept) m.

(** A panic that drops [ks] while unwinding: a second panic aborts. *)
Definition ct_unwind {A} (ks : list K) : outcome A := if existsb dp ks then Abort else Panic.

(** Dropping the keys [ks] one after the other; when one panics the others are
    dropped while unwinding. *)
Fixpoint ct_drop (ks : list K) : outcome unit :=
  match ks with
  | [] => Ret tt
  | k :: r => if dp k then ct_unwind r else ct_drop r
  end.

(** [*self.counter.entry(key).or_insert(0) += val], the statement of
    counter.rs:219, 367, 380 and 407: [or_insert] drops the key of an occupied
    entry before the count is increased; for an absent key room is made first. *)
Definition ct_bump_u (key : K) (val : nat) (c : counter K) : counter K * outcome unit :=
  if hp (ct_map c) key then (c, ct_unwind [key])
  else match hm_entry eqb E key (ct_map c) with
  | Ret (Occupied old) =>
      match ct_drop [key] with
      | Ret _ =>
          match uadd E old val with
          | Ret new => (Counter (hm_set eqb key new (ct_map c)), Ret tt)
          | _ => (c, Panic)
          end
      | o => (c, o)
      end
  | Ret Vacant =>
      match rp (ct_map c) 1 with
      | Some (kept, gone) => (Counter kept, ct_unwind (key :: map fst gone))
      | None =>
          match uadd E 0 val with
          | Ret new => (Counter (hm_insert_vacant key new (ct_map c)), Ret tt)
          | _ => (Counter (hm_insert_vacant key 0 (ct_map c)), Panic)
          end
      end
  | _ => (c, ct_unwind [key])
  end.

(** counter.rs:218-220 [push]. *)
Definition ct_push_u (val : K) (c : counter K) : counter K * outcome unit := ct_bump_u val 1 c.

(** counter.rs:313-319 [Extend<T>::extend]. *)
Definition ct_extend_u (hint : nat) (xs : list K) (c : counter K) : counter K * outcome unit :=
  match hm_reserve E hint (ct_map c) with
  | Ret _ =>
      match rp (ct_map c) hint with
      | Some (kept, gone) => (Counter kept, ct_unwind (map fst gone))
      | None => for_each ct_push_u xs c
      end
  | _ => (c, Panic)
  end.

(** [for (key, val) in rhs.into_iter()], counter.rs:366 and 420: the keys not
    yet met are dropped when the body panics. *)
Fixpoint ct_for_owned (body : K * nat -> counter K -> counter K * outcome unit)
  (rhs : hmap K nat) (c : counter K) : counter K * outcome unit :=
  match rhs with
  | [] => (c, Ret tt)
  | e :: rest =>
      match body e c with
      | (c', Ret _) => ct_for_owned body rest c'
      | (c', Panic) => (c', ct_unwind (map fst rest))
      | (c', o) => (c', o)
      end
  end.

(** counter.rs:365-369 [AddAssign<Counter>]; [rhs]: the entries of the right
    operand in the order of the iteration (likewise below). *)
Definition ct_add_assign_u (rhs : hmap K nat) (c : counter K) : counter K * outcome unit :=
  ct_for_owned (fun e => ct_bump_u (fst e) (snd e)) rhs c.

(** counter.rs:378-382 [AddAssign<&Counter>]; clones do not panic here (see
    [CTModel2]). *)
Definition ct_add_assign_ref_u (rhs : hmap K nat) (c : counter K) : counter K * outcome unit :=
  for_each (fun e => ct_bump_u (cl (fst e)) (snd e)) rhs c.

(** The [match] on the entry of counter.rs:421-433 and 446-458: [remove] drops
    the looked-up key and the stored one; otherwise the looked-up key is dropped
    at the end of the [match]. *)
Definition ct_lower_u (key : K) (val : nat) (c : counter K) : counter K * outcome unit :=
  if hp (ct_map c) key then (c, ct_unwind [key])
  else match hm_entry eqb E key (ct_map c) with
  | Ret (Occupied cur) =>
      if cur <=? val then
        (Counter (hm_remove eqb key (ct_map c)),
         ct_drop (key :: match hm_entry_of eqb key (ct_map c) with Some e => [fst e] | None => [] end))
      else match usub E cur val with
           | Ret new_val => (Counter (hm_set eqb key new_val (ct_map c)), ct_drop [key])
           | _ => (c, ct_unwind [key])
           end
  | Ret Vacant =>
      match rp (ct_map c) 1 with
      | Some (kept, gone) => (Counter kept, ct_unwind (key :: map fst gone))
      | None => (c, ct_drop [key])
      end
  | _ => (c, ct_unwind [key])
  end.

(** counter.rs:419-435 [SubAssign<Counter>]. *)
Definition ct_sub_assign_u (rhs : hmap K nat) (c : counter K) : counter K * outcome unit :=
  ct_for_owned (fun e => ct_lower_u (fst e) (snd e)) rhs c.

(** counter.rs:444-460 [SubAssign<&Counter>]. *)
Definition ct_sub_assign_ref_u (rhs : hmap K nat) (c : counter K) : counter K * outcome unit :=
  for_each (fun e => ct_lower_u (cl (fst e)) (snd e)) rhs c.

End Model.
