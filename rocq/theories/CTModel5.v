(** The calls of src/counter/counter.rs together with what they ask of the
    hash table: the keys looked up and the room demanded, in order.  The loops
    and cases are those of [CTModel]; forgetting the requests gives its
    functions back (C100). *)
From Coq Require Import Permutation.
From Verif Require Import Base HMModel CTModel CTSpec.
Local Open Scope outcome_scope.
Set Implicit Arguments.

(** a request to the table: find the bucket of a key, or have room for [n]
    entries in all *)
Inductive request (K : Type) : Type := Look (k : K) | Room (n : nat).
Arguments Look {K} k.
Arguments Room {K} n.

Section Model.
Variable K : Type.
(** [T: Eq] of the key type *)
Variable eqb : K -> K -> bool.
(** [T: Clone]/[T: Copy] of the key type *)
Variable cl : K -> K.
Variable E : machine.
(** whether std makes room for one more entry at every [entry] call (as in 2018)
    or only if the key is absent (as later); likewise for [insert] *)
Variables eager_entry eager_insert : bool.

(** std [HashMap::entry] (counter.rs:219, 367, 380, 407, 421, 446, 485), as
    [hm_entry] of [HMModel]. *)
Definition hm_entry_t (k : K) (m : hmap K nat) : outcome (entry nat) * list (request K) :=
  (hm_entry eqb E k m,
   Look k :: if eager_entry || negb (hm_contains eqb k m) then [Room (length m + 1)] else []).

(** std [HashMap::reserve] (counter.rs:315, 330), [HashMap::with_capacity] (on the
    empty map; counter.rs:92, 116). *)
Definition hm_reserve_t (additional : nat) (m : hmap K nat) : outcome unit * list (request K) :=
  (hm_reserve E additional m, [Room (length m + additional)]).

(** std [HashMap::insert], called through [DerefMut] (counter.rs:354-358). *)
Definition hm_insert_t (k : K) (v : nat) (m : hmap K nat) : (hmap K nat * outcome (option nat)) * list (request K) :=
  (hm_insert eqb E k v m,
   Look k :: if eager_insert || negb (hm_contains eqb k m) then [Room (length m + 1)] else []).

(** a Rust [for] loop (counter.rs:245, 261, 316, 331, 366, 379, 406, 420, 445, 484),
    as [for_each] of [HMModel] *)
Fixpoint for_each_t {S A} (f : A -> S -> (S * outcome unit) * list (request K)) (l : list A) (s : S)
  : (S * outcome unit) * list (request K) :=
  match l with
  | [] => ((s, Ret tt), [])
  | a :: r =>
      match f a s with
      | ((s', Ret _), t) => match for_each_t f r s' with (x, t') => (x, t ++ t') end
      | ((s', o), t) => ((s', o), t)
      end
  end.

(** counter.rs:219, 367, 380 and 407: one [entry] call; [or_insert] fills the
    bucket found. *)
Definition ct_bump_t (key : K) (val : nat) (c : counter K) : (counter K * outcome unit) * list (request K) :=
  match hm_entry_t key (ct_map c) with
  | (Ret (Occupied old), t) =>
      match uadd E old val with
      | Ret new => ((Counter (hm_set eqb key new (ct_map c)), Ret tt), t)
      | _ => ((c, Panic), t)
      end
  | (Ret Vacant, t) =>
      match uadd E 0 val with
      | Ret new => ((Counter (hm_insert_vacant key new (ct_map c)), Ret tt), t)
      | _ => ((Counter (hm_insert_vacant key 0 (ct_map c)), Panic), t)
      end
  | (_, t) => ((c, Panic), t)
  end.

(** counter.rs:218-220 [push]. *)
Definition ct_push_t (val : K) (c : counter K) := ct_bump_t val 1 c.

(** the value of a consuming method or constructor (counter.rs:248, 264, 394, 409,
    472, 499) *)
Definition finish_t (r : (counter K * outcome unit) * list (request K)) : outcome (counter K) * list (request K) :=
  (finish (fst r), snd r).

(** counter.rs:90-94 [with_capacity], 114-118 [with_capacity_and_hasher]. *)
Definition ct_with_capacity_t (cap : nat) : outcome (counter K) * list (request K) :=
  match hm_reserve_t cap [] with (o, t) => (let* _ := o in Ret (Counter []), t) end.

(** counter.rs:242-249 [FromIterator<T>::from_iter]: the items [xs] and the
    lower size hint. *)
Definition ct_from_iter_t (hint : nat) (xs : list K) : outcome (counter K) * list (request K) :=
  match ct_with_capacity_t hint with
  | (Ret c, t) => match finish_t (for_each_t ct_push_t xs c) with (o, t') => (o, t ++ t') end
  | (_, t) => (Panic, t)
  end.

(** counter.rs:258-265 [FromIterator<&T>::from_iter]. *)
Definition ct_from_iter_ref_t (hint : nat) (xs : list K) : outcome (counter K) * list (request K) :=
  match ct_with_capacity_t hint with
  | (Ret c, t) => match finish_t (for_each_t ct_push_t (map cl xs) c) with (o, t') => (o, t ++ t') end
  | (_, t) => (Panic, t)
  end.

(** counter.rs:313-319 [Extend<T>::extend]. *)
Definition ct_extend_t (hint : nat) (xs : list K) (c : counter K) : (counter K * outcome unit) * list (request K) :=
  match hm_reserve_t hint (ct_map c) with
  | (Ret _, t) => match for_each_t ct_push_t xs c with (x, t') => (x, t ++ t') end
  | (_, t) => ((c, Panic), t)
  end.

(** counter.rs:328-334 [Extend<&T>::extend] ([T: Copy]). *)
Definition ct_extend_ref_t (hint : nat) (xs : list K) (c : counter K) : (counter K * outcome unit) * list (request K) :=
  match hm_reserve_t hint (ct_map c) with
  | (Ret _, t) => match for_each_t ct_push_t (map (fun key => key) xs) c with (x, t') => (x, t ++ t') end
  | (_, t) => ((c, Panic), t)
  end.

(** counter.rs:365-369 [AddAssign<Counter>]; [rhs]: the entries of the right
    operand in the order of the iteration (likewise below). *)
Definition ct_add_assign_t (rhs : hmap K nat) (c : counter K) :=
  for_each_t (fun e => ct_bump_t (fst e) (snd e)) rhs c.

(** counter.rs:378-382 [AddAssign<&Counter>]. *)
Definition ct_add_assign_ref_t (rhs : hmap K nat) (c : counter K) :=
  for_each_t (fun e => ct_bump_t (cl (fst e)) (snd e)) rhs c.

(** counter.rs:392-395 [Add<Counter>]. *)
Definition ct_add_t (c : counter K) (rhs : hmap K nat) := finish_t (ct_add_assign_t rhs c).

(** counter.rs:405-410 [Add<&Counter>]. *)
Definition ct_add_ref_t (c : counter K) (rhs : hmap K nat) :=
  finish_t (for_each_t (fun e => ct_bump_t (cl (fst e)) (snd e)) rhs c).

(** The [match] on the entry of counter.rs:421-433, 446-458 and 485-497; the
    bucket found is removed or changed without another lookup. *)
Definition ct_lower_t (key : K) (val : nat) (c : counter K) : (counter K * outcome unit) * list (request K) :=
  match hm_entry_t key (ct_map c) with
  | (Ret (Occupied cur), t) =>
      if cur <=? val then ((Counter (hm_remove eqb key (ct_map c)), Ret tt), t)
      else match usub E cur val with
           | Ret new_val => ((Counter (hm_set eqb key new_val (ct_map c)), Ret tt), t)
           | _ => ((c, Panic), t)
           end
  | (Ret Vacant, t) => ((c, Ret tt), t)
  | (_, t) => ((c, Panic), t)
  end.

(** counter.rs:419-435 [SubAssign<Counter>]. *)
Definition ct_sub_assign_t (rhs : hmap K nat) (c : counter K) :=
  for_each_t (fun e => ct_lower_t (fst e) (snd e)) rhs c.

(** counter.rs:444-460 [SubAssign<&Counter>]. *)
Definition ct_sub_assign_ref_t (rhs : hmap K nat) (c : counter K) :=
  for_each_t (fun e => ct_lower_t (cl (fst e)) (snd e)) rhs c.

(** counter.rs:470-473 [Sub<Counter>]. *)
Definition ct_sub_t (c : counter K) (rhs : hmap K nat) := finish_t (ct_sub_assign_t rhs c).

(** counter.rs:483-500 [Sub<&Counter>]. *)
Definition ct_sub_ref_t (c : counter K) (rhs : hmap K nat) :=
  finish_t (for_each_t (fun e => ct_lower_t (cl (fst e)) (snd e)) rhs c).

(** std [HashMap::from_iter] (counter.rs:518, 531), as [hm_collect] of [CTModel]. *)
Definition hm_collect_t (l : hmap K nat) : (hmap K nat * outcome unit) * list (request K) :=
  match hm_reserve_t (length l) [] with
  | (Ret _, t) =>
      match for_each_t (fun e m => match hm_insert_t (fst e) (snd e) m with
                                   | ((m', Ret _), t') => ((m', Ret tt), t')
                                   | ((m', _), t') => ((m', Panic), t')
                                   end) l [] with
      | (x, t') => (x, t ++ t')
      end
  | (_, t) => (([], Panic), t)
  end.

(** counter.rs:516-520 [From<HashMap>]; [rhs] in iteration order. *)
Definition ct_from_t (rhs : hmap K nat) : outcome (counter K) * list (request K) :=
  match hm_collect_t rhs with ((m, o), t) => (let* _ := o in Ret (Counter m), t) end.

(** counter.rs:529-533 [From<&HashMap>]; [rhs] in iteration order. *)
Definition ct_from_ref_t (rhs : hmap K nat) : outcome (counter K) * list (request K) :=
  match hm_collect_t (map (fun e => (cl (fst e), snd e)) rhs) with
  | ((m, o), t) => (let* _ := o in Ret (Counter m), t)
  end.

(** counter.rs:38 derived [PartialEq], std [PartialEq for HashMap]: the lengths
    are compared, then every entry of the left map is looked up in the right one
    until one differs; [rest]: those not yet looked at. *)
Fixpoint hm_eq_t (rest m2 : hmap K nat) : bool * list (request K) :=
  match rest with
  | [] => (true, [])
  | (k, v) :: r =>
      match hm_get eqb k m2 with
      | Some w => if v =? w then match hm_eq_t r m2 with (b, t) => (b, Look k :: t) end else (false, [Look k])
      | None => (false, [Look k])
      end
  end.

(** counter.rs:38 derived [PartialEq]; [la]: the entries of the left counter in
    iteration order. *)
Definition ct_eq_t (la : hmap K nat) (b : counter K) : bool * list (request K) :=
  if length la =? length (ct_map b) then hm_eq_t la (ct_map b) else (false, []).

(** a call through [Deref] or [DerefMut] (counter.rs:344-358) that looks up one key
    and makes no room *)
Definition look1 {A} (k : K) (r : A) : A * list (request K) := (r, [Look k]).
(** likewise (counter.rs:344-358), without any lookup *)
Definition look0 {A} (r : A) : A * list (request K) := (r, []).

(** Every call on one counter (counter.rs:140-500), as [CTRun.ct_step]. *)
Definition ct_step_t (o : op K) (c : counter K) : (counter K * outcome (out K)) * list (request K) :=
  let unit_t (r : (counter K * outcome unit) * list (request K)) :=
    ((fst (fst r), omap (fun _ => @RUnit K) (snd (fst r))), snd r) in
  match o with
  | OPush k => unit_t (ct_push_t k c)
  | OExtend h xs => unit_t (ct_extend_t h xs c)
  | OExtendRef h xs => unit_t (ct_extend_ref_t h xs c)
  | OAdd l => unit_t (ct_add_assign_t l c)
  | OAddRef l => unit_t (ct_add_assign_ref_t l c)
  | OSub l => unit_t (ct_sub_assign_t l c)
  | OSubRef l => unit_t (ct_sub_assign_ref_t l c)
  | OGet k => look1 k (c, Ret (ROpt (ct_get eqb c k)))
  | OGetKeyValue k => look1 k (c, Ret (REntry (ct_get_key_value eqb c k)))
  | OIndex k => look1 k (c, omap (@RNat K) (ct_index eqb c k))
  | OContains k => look1 k (c, Ret (RBool (ct_contains_key eqb c k)))
  | OLen => look0 (c, Ret (RNat (ct_len c)))
  | OIsEmpty => look0 (c, Ret (RBool (ct_is_empty c)))
  | OIter pick => look0 (c, Ret (RList (pick (ct_map c))))
  | OInsert k n =>
      match hm_insert_t k n (ct_map c) with ((m, r), t) => ((Counter m, omap (@ROpt K) r), t) end
  | ORemove k => look1 k (match ct_remove eqb k c with (c', r) => (c', Ret (ROpt r)) end)
  | OGetMut k g => look1 k (match ct_get_mut eqb k g c with (c', b) => (c', Ret (RBool b)) end)
  | OClear => look0 (ct_clear c, Ret RUnit)
  | ORetain p => look0 (ct_retain p c, Ret RUnit)
  | OIterMut g => look0 (ct_iter_mut g c, Ret RUnit)
  | OReserve n => match hm_reserve_t n (ct_map c) with (r, t) => ((c, omap (fun _ => @RUnit K) r), t) end
  end.

(** a history; panics are caught *)
Fixpoint ct_run_t (ops : list (op K)) (c : counter K) : (counter K * list (outcome (out K))) * list (request K) :=
  match ops with
  | [] => ((c, []), [])
  | o :: ops' =>
      match ct_step_t o c with
      | ((c1, r), t) => match ct_run_t ops' c1 with ((c2, tr), t') => ((c2, r :: tr), t ++ t') end
      end
  end.

(** the keys looked up *)
Definition looked (t : list (request K)) : list K :=
  flat_map (fun r => match r with Look k => [k] | Room _ => [] end) t.
(** the room demanded *)
Definition demanded (t : list (request K)) : list nat :=
  flat_map (fun r => match r with Look _ => [] | Room n => [n] end) t.

End Model.
