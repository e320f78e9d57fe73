(** The calls of src/counter/counter.rs together with what becomes of the keys: each
    key that comes into the hands of the counter ([Got]) and each destructor called
    ([Gone]), in order.  User code is as in [CTModel2] and [CTModel3]: iterators,
    clones, [Hash] and [Eq] may panic, also differently from call to call, and [Eq]
    obeys no law.  Forgetting the events gives the functions of those files back (C110).

    Simplifications: destructors of keys do not panic (for those see [CTModel3]); the
    elements an iterator has not delivered are its own business; [Extend<&T>]
    (counter.rs:328-334) is left out, since types that are [Copy] have no destructor. *)
From Coq Require Import Permutation.
From Verif Require Import Base HMModel CTModel OwnSpec.
Local Open Scope outcome_scope.
Set Implicit Arguments.

(** What the key type does during one call: [Eq] (counter.rs:50), whether looking up
    a key panics, whether rehashing for so many more entries does (and the entries
    then left and lost), and [Clone] (counter.rs:192), which may panic. *)
Record keys_do (K : Type) : Type := KeysDo {
  kd_eq : K -> K -> bool;
  kd_look : hmap K nat -> K -> bool;
  kd_rehash : hmap K nat -> nat -> option (hmap K nat * hmap K nat);
  kd_clone : K -> option K }.

Section Model.
Variable K : Type.
Variable E : machine.
Variable u : keys_do K.

(** Entries are lost or left. *)
Definition kd_ok : Prop :=
  forall m n kept gone, kd_rehash u m n = Some (kept, gone) -> Permutation (gone ++ kept) m.

(** counter.rs:45: the keys of the table, which it drops when it is emptied or dropped *)
Definition ct_keys (c : counter K) : list K := map fst (ct_map c).
(** what is dropped one after the other (counter.rs:38-46, the table) *)
Definition drop_all (ks : list K) : list (ev K) := map Gone ks.
(** what is handed over with a whole collection (counter.rs:365, 419, 516) *)
Definition take_all (ks : list K) : list (ev K) := map Got ks.

(** [*self.counter.entry(key).or_insert(0) += val], the statement of
    counter.rs:219, 367, 380 and 407, the key being in hand: [or_insert] drops the key
    of an occupied entry before the count is increased. *)
Definition ct_bump_o (key : K) (val : nat) (c : counter K) : (counter K * outcome unit) * list (ev K) :=
  if kd_look u (ct_map c) key then ((c, Panic), [Gone key])
  else match hm_entry (kd_eq u) E key (ct_map c) with
  | Ret (Occupied old) =>
      match uadd E old val with
      | Ret new => ((Counter (hm_set (kd_eq u) key new (ct_map c)), Ret tt), [Gone key])
      | _ => ((c, Panic), [Gone key])
      end
  | Ret Vacant =>
      match kd_rehash u (ct_map c) 1 with
      | Some (kept, lost) => ((Counter kept, Panic), drop_all (map fst lost) ++ [Gone key])
      | None =>
          match uadd E 0 val with
          | Ret new => ((Counter (hm_insert_vacant key new (ct_map c)), Ret tt), [])
          | _ => ((Counter (hm_insert_vacant key 0 (ct_map c)), Panic), [])
          end
      end
  | _ => ((c, Panic), [Gone key])
  end.

(** counter.rs:218-220 [push]. *)
Definition ct_push_o (val : K) (c : counter K) : (counter K * outcome unit) * list (ev K) :=
  match ct_bump_o val 1 c with (x, t) => (x, Got val :: t) end.

(** [for key in iter { self.push(key); }], counter.rs:245-247 and 316-318; each item
    is one call of [next] ([None]: it panics). *)
Fixpoint ct_push_from_o (evs : list (option K)) (c : counter K) : (counter K * outcome unit) * list (ev K) :=
  match evs with
  | [] => ((c, Ret tt), [])
  | None :: _ => ((c, Panic), [])
  | Some key :: evs' =>
      match ct_push_o key c with
      | ((c', Ret _), t) => match ct_push_from_o evs' c' with (x, t') => (x, t ++ t') end
      | ((c', o), t) => ((c', o), t)
      end
  end.

(** the counter built or consumed by a method (counter.rs:248, 264, 394, 409, 472,
    499): dropped if the method panics *)
Definition finish_o (r : (counter K * outcome unit) * list (ev K)) : outcome (counter K) * list (ev K) :=
  match r with
  | ((c, Ret _), t) => (Ret c, t)
  | ((c, _), t) => (Panic, t ++ drop_all (ct_keys c))
  end.

(** counter.rs:242-249 [FromIterator<T>::from_iter]; [hint]: the lower size hint, or
    [None] if [size_hint] panics. *)
Definition ct_from_iter_o (hint : option nat) (evs : list (option K)) : outcome (counter K) * list (ev K) :=
  match hint with
  | Some h =>
      match ct_with_capacity K E h with
      | Ret c => finish_o (ct_push_from_o evs c)
      | _ => (Panic, [])
      end
  | None => (Panic, [])
  end.

(** counter.rs:261, the iterator [iter.map(|ref key| key.clone())]. *)
Definition cloned_o (evs : list (option K)) : list (option K) :=
  map (fun e => match e with Some key => kd_clone u key | None => None end) evs.

(** counter.rs:258-265 [FromIterator<&T>::from_iter]. *)
Definition ct_from_iter_ref_o (hint : option nat) (evs : list (option K)) : outcome (counter K) * list (ev K) :=
  match hint with
  | Some h =>
      match ct_with_capacity K E h with
      | Ret c => finish_o (ct_push_from_o (cloned_o evs) c)
      | _ => (Panic, [])
      end
  | None => (Panic, [])
  end.

(** counter.rs:313-319 [Extend<T>::extend]. *)
Definition ct_extend_o (hint : option nat) (evs : list (option K)) (c : counter K) : (counter K * outcome unit) * list (ev K) :=
  match hint with
  | Some h =>
      match hm_reserve E h (ct_map c) with
      | Ret _ =>
          match kd_rehash u (ct_map c) h with
          | Some (kept, lost) => ((Counter kept, Panic), drop_all (map fst lost))
          | None => ct_push_from_o evs c
          end
      | _ => ((c, Panic), [])
      end
  | None => ((c, Panic), [])
  end.

(** [for (key, val) in rhs.into_iter()], counter.rs:366 and 420: the keys not yet met
    are dropped with the iterator when the body panics. *)
Fixpoint ct_for_owned_o (body : K -> nat -> counter K -> (counter K * outcome unit) * list (ev K)) (rhs : hmap K nat) (c : counter K)
  : (counter K * outcome unit) * list (ev K) :=
  match rhs with
  | [] => ((c, Ret tt), [])
  | (key, val) :: rest =>
      match body key val c with
      | ((c', Ret _), t) => match ct_for_owned_o body rest c' with (x, t') => (x, t ++ t') end
      | ((c', o), t) => ((c', o), t ++ drop_all (map fst rest))
      end
  end.

(** [for (key, val) in rhs.iter()], counter.rs:379, 406, 445 and 484: each key is
    cloned first. *)
Fixpoint ct_for_cloned_o (body : K -> nat -> counter K -> (counter K * outcome unit) * list (ev K)) (rhs : hmap K nat) (c : counter K)
  : (counter K * outcome unit) * list (ev K) :=
  match rhs with
  | [] => ((c, Ret tt), [])
  | (key, val) :: rest =>
      match kd_clone u key with
      | None => ((c, Panic), [])
      | Some key' =>
          match body key' val c with
          | ((c', Ret _), t) => match ct_for_cloned_o body rest c' with (x, t') => (x, Got key' :: t ++ t') end
          | ((c', o), t) => ((c', o), Got key' :: t)
          end
      end
  end.

(** counter.rs:365-369 [AddAssign<Counter>]; [rhs]: the entries of the right operand
    in the order of the iteration (likewise below). *)
Definition ct_add_assign_o (rhs : hmap K nat) (c : counter K) : (counter K * outcome unit) * list (ev K) :=
  match ct_for_owned_o ct_bump_o rhs c with (x, t) => (x, take_all (map fst rhs) ++ t) end.

(** counter.rs:378-382 [AddAssign<&Counter>]. *)
Definition ct_add_assign_ref_o (rhs : hmap K nat) (c : counter K) := ct_for_cloned_o ct_bump_o rhs c.

(** counter.rs:392-395 [Add<Counter>]; [c] is consumed. *)
Definition ct_add_o (c : counter K) (rhs : hmap K nat) := finish_o (ct_add_assign_o rhs c).

(** counter.rs:405-410 [Add<&Counter>]; [c] is consumed. *)
Definition ct_add_ref_o (c : counter K) (rhs : hmap K nat) := finish_o (ct_for_cloned_o ct_bump_o rhs c).

(** The [match] on the entry of counter.rs:421-433, 446-458 and 485-497: [remove]
    drops the looked-up key and the stored one, otherwise the looked-up key is dropped
    with the entry. *)
Definition ct_lower_o (key : K) (val : nat) (c : counter K) : (counter K * outcome unit) * list (ev K) :=
  if kd_look u (ct_map c) key then ((c, Panic), [Gone key])
  else match hm_entry (kd_eq u) E key (ct_map c) with
  | Ret (Occupied cur) =>
      if cur <=? val then
        ((Counter (hm_remove (kd_eq u) key (ct_map c)), Ret tt),
         Gone key :: match hm_entry_of (kd_eq u) key (ct_map c) with Some e => [Gone (fst e)] | None => [] end)
      else match usub E cur val with
           | Ret new_val => ((Counter (hm_set (kd_eq u) key new_val (ct_map c)), Ret tt), [Gone key])
           | _ => ((c, Panic), [Gone key])
           end
  | Ret Vacant =>
      match kd_rehash u (ct_map c) 1 with
      | Some (kept, lost) => ((Counter kept, Panic), drop_all (map fst lost) ++ [Gone key])
      | None => ((c, Ret tt), [Gone key])
      end
  | _ => ((c, Panic), [Gone key])
  end.

(** counter.rs:419-435 [SubAssign<Counter>]. *)
Definition ct_sub_assign_o (rhs : hmap K nat) (c : counter K) : (counter K * outcome unit) * list (ev K) :=
  match ct_for_owned_o ct_lower_o rhs c with (x, t) => (x, take_all (map fst rhs) ++ t) end.

(** counter.rs:444-460 [SubAssign<&Counter>]. *)
Definition ct_sub_assign_ref_o (rhs : hmap K nat) (c : counter K) := ct_for_cloned_o ct_lower_o rhs c.

(** counter.rs:470-473 [Sub<Counter>]; [c] is consumed. *)
Definition ct_sub_o (c : counter K) (rhs : hmap K nat) := finish_o (ct_sub_assign_o rhs c).

(** counter.rs:483-500 [Sub<&Counter>]; [c] is consumed. *)
Definition ct_sub_ref_o (c : counter K) (rhs : hmap K nat) := finish_o (ct_for_cloned_o ct_lower_o rhs c).

(** std [HashMap::insert] (counter.rs:354-358, 518, 531), the key being in hand: the
    stored key of an existing entry stays. *)
Definition hm_insert_o (key : K) (n : nat) (m : hmap K nat) : (hmap K nat * outcome (option nat)) * list (ev K) :=
  if kd_look u m key then ((m, Panic), [Gone key])
  else match hm_entry (kd_eq u) E key m with
  | Ret (Occupied old) => ((hm_set (kd_eq u) key n m, Ret (Some old)), [Gone key])
  | Ret Vacant =>
      match kd_rehash u m 1 with
      | Some (kept, lost) => ((kept, Panic), drop_all (map fst lost) ++ [Gone key])
      | None => ((hm_insert_vacant key n m, Ret None), [])
      end
  | _ => ((m, Panic), [Gone key])
  end.

(** std [HashMap::from_iter] (counter.rs:518): reserves the exact length, then inserts
    one entry after the other; the entries are in hand. *)
Definition hm_collect_o (l : hmap K nat) : (counter K * outcome unit) * list (ev K) :=
  match hm_reserve E (length l) (@nil (K * nat)) with
  | Ret _ => ct_for_owned_o (fun key n c => match hm_insert_o key n (ct_map c) with
                                            | ((m, Ret _), t) => ((Counter m, Ret tt), t)
                                            | ((m, _), t) => ((Counter m, Panic), t)
                                            end) l (Counter [])
  | _ => ((Counter [], Panic), drop_all (map fst l))
  end.

(** counter.rs:516-520 [From<HashMap>]; [rhs] in iteration order. *)
Definition ct_from_o (rhs : hmap K nat) : outcome (counter K) * list (ev K) :=
  match finish_o (hm_collect_o rhs) with (o, t) => (o, take_all (map fst rhs) ++ t) end.

(** counter.rs:529-533 [From<&HashMap>]; [rhs] in iteration order; each key is cloned
    when its turn comes. *)
Definition ct_from_ref_o (rhs : hmap K nat) : outcome (counter K) * list (ev K) :=
  match hm_reserve E (length rhs) (@nil (K * nat)) with
  | Ret _ => finish_o (ct_for_cloned_o (fun key n c => match hm_insert_o key n (ct_map c) with
                                            | ((m, Ret _), t) => ((Counter m, Ret tt), t)
                                            | ((m, _), t) => ((Counter m, Panic), t)
                                            end) rhs (Counter []))
  | _ => (Panic, [])
  end.

(** the clones of the entries [l], made one after the other (counter.rs:38 derived
    [Clone], 194-197 [most_common]); those made are dropped if one panics.
    [acc]: those already made, last first. *)
Fixpoint clone_all_o (acc l : hmap K nat) : outcome (hmap K nat) * list (ev K) :=
  match l with
  | [] => (Ret (rev acc), [])
  | (key, n) :: r =>
      match kd_clone u key with
      | None => (Panic, drop_all (map fst (rev acc)))
      | Some key' => match clone_all_o ((key', n) :: acc) r with (o, t) => (o, Got key' :: t) end
      end
  end.

(** counter.rs:38 derived [Clone]; [l]: the entries in the order of std.  (The std of
    2018 leaked the clones made if one panicked.) *)
Definition ct_clone_o (l : hmap K nat) : outcome (counter K) * list (ev K) :=
  match clone_all_o [] l with (o, t) => (let* m := o in Ret (Counter m), t) end.

(** counter.rs:190-200 [most_common]: [r] is a possible result; [l] as above. *)
Definition ct_most_common_o (l : hmap K nat) (r : outcome (list (K * nat))) (t : list (ev K)) : Prop :=
  match clone_all_o [] l with
  | (Ret l', t') => t = t' /\ exists r', r = Ret r' /\ sort_by_key_gives (ct_sort_key E) l' r'
  | (_, t') => t = t' /\ r = Panic
  end.

(** A call on one counter that has to do with keys (counter.rs:218-500, and through
    [DerefMut], counter.rs:354-358). *)
Inductive key_op : Type :=
| WPush (k : K) | WExtend (hint : option nat) (evs : list (option K))
| WAdd (rhs : hmap K nat) | WAddRef (rhs : hmap K nat) | WSub (rhs : hmap K nat) | WSubRef (rhs : hmap K nat)
| WInsert (k : K) (n : nat) | WRemove (k : K) | WRetain (p : K -> nat -> bool) | WIterMut (f : K -> nat -> nat) | WClear.

(** counter.rs:218-500: what each call does to the counter and to keys; [remove] takes
    a reference, returns the count and drops the stored key. *)
Definition ct_step_o (o : key_op) (c : counter K) : (counter K * outcome unit) * list (ev K) :=
  match o with
  | WPush k => ct_push_o k c
  | WExtend h evs => ct_extend_o h evs c
  | WAdd rhs => ct_add_assign_o rhs c
  | WAddRef rhs => ct_add_assign_ref_o rhs c
  | WSub rhs => ct_sub_assign_o rhs c
  | WSubRef rhs => ct_sub_assign_ref_o rhs c
  | WInsert k n => match hm_insert_o k n (ct_map c) with ((m, o), t) => ((Counter m, omap (fun _ => tt) o), Got k :: t) end
  | WRemove k =>
      if kd_look u (ct_map c) k then ((c, Panic), [])
      else ((Counter (hm_remove (kd_eq u) k (ct_map c)), Ret tt),
            match hm_entry_of (kd_eq u) k (ct_map c) with Some e => [Gone (fst e)] | None => [] end)
  | WRetain p => ((ct_retain p c, Ret tt), drop_all (map fst (filter (fun e => negb (p (fst e) (snd e))) (ct_map c))))
  | WIterMut f => ((ct_iter_mut f c, Ret tt), [])
  | WClear => ((ct_clear c, Ret tt), drop_all (ct_keys c))
  end.

End Model.

(** A history (counter.rs:218-500): panics are caught, and the key type may do
    something else during each call. *)
Fixpoint ct_run_o K (E : machine) (ops : list (keys_do K * key_op K)) (c : counter K) : counter K * list (ev K) :=
  match ops with
  | [] => (c, [])
  | (u, o) :: ops' =>
      match ct_step_o E u o c with
      | ((c1, _), t) => match ct_run_o E ops' c1 with (c2, t') => (c2, t ++ t') end
      end
  end.
