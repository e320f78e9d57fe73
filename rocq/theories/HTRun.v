(** Dispatch of the calls of [CTSpec.op] and [DSSpec.op] to the methods of
    [HTModel]. *)
From Coq Require Import NArith.
From Verif Require Import Base HMModel DSModel DSRun HTModel CTSpec DSSpec.
Set Implicit Arguments.

Section Run.
Variable K : Type.
Variable eqb : K -> K -> bool.
Variable cl : K -> K.
Variable hash : K -> N.
Variable P : scheme.
Variable E : machine.

(** a method of result type [()] *)
Definition tc_unit (r : table K nat * outcome unit) : table K nat * outcome (CTSpec.out K) :=
  (fst r, omap (fun _ => CTSpec.RUnit) (snd r)).

(** one call on a counter: the method of [HTModel] each call stands for (each
    cites its lines in src/counter/counter.rs there) *)
Definition tc_step (o : CTSpec.op K) (t : table K nat) : table K nat * outcome (CTSpec.out K) :=
  match o with
  | OPush k => tc_unit (tc_push eqb hash P E k t)
  | CTSpec.OExtend h xs => tc_unit (tc_extend eqb hash P E h xs t)
  | CTSpec.OExtendRef h xs => tc_unit (tc_extend_ref eqb hash P E h xs t)
  | OAdd l => tc_unit (tc_add_assign eqb hash P E l t)
  | OAddRef l => tc_unit (tc_add_assign_ref eqb cl hash P E l t)
  | OSub l => tc_unit (tc_sub_assign eqb hash P E l t)
  | OSubRef l => tc_unit (tc_sub_assign_ref eqb cl hash P E l t)
  | OGet k => (t, Ret (ROpt (ht_get eqb hash P k t)))
  | OGetKeyValue k => (t, Ret (REntry (ht_entry_of eqb hash P k t)))
  | OIndex k => (t, match ht_get eqb hash P k t with Some n => Ret (CTSpec.RNat n) | None => Panic end)
  | CTSpec.OContains k => (t, Ret (CTSpec.RBool (ht_contains eqb hash P k t)))
  | CTSpec.OLen => (t, Ret (CTSpec.RNat (ht_len t)))
  | CTSpec.OIsEmpty => (t, Ret (CTSpec.RBool (ht_len t =? 0)))
  | CTSpec.OIter pick => (t, Ret (RList (pick (ht_entries t))))
  | OInsert k n => match ht_insert eqb hash P E k n t with (t', r) => (t', omap (@ROpt K) r) end
  | ORemove k => (ht_remove eqb hash P k t, Ret (ROpt (ht_get eqb hash P k t)))
  | OGetMut k g => match tc_get_mut eqb hash P k g t with (t', b) => (t', Ret (CTSpec.RBool b)) end
  | CTSpec.OClear => (ht_clear t, Ret CTSpec.RUnit)
  | ORetain p => (ht_retain p t, Ret CTSpec.RUnit)
  | OIterMut g => (ht_map_values g t, Ret CTSpec.RUnit)
  | CTSpec.OReserve n => tc_unit (ht_reserve hash P E n t)
  end.

(** a history; panics are caught *)
Fixpoint tc_run (ops : list (CTSpec.op K)) (t : table K nat) : table K nat * list (outcome (CTSpec.out K)) :=
  match ops with
  | [] => (t, [])
  | o :: ops' =>
      match tc_step o t with
      | (t1, r) => match tc_run ops' t1 with (t2, tr) => (t2, r :: tr) end
      end
  end.

(** a method of result type [()] *)
Definition td_unit (r : tdset K * outcome unit) : tdset K * outcome (DSSpec.out K) :=
  (fst r, omap (fun _ => DSSpec.RUnit) (snd r)).

(** one call on a disjoint set (likewise) *)
Definition td_step (o : DSSpec.op K) (s : tdset K) : tdset K * outcome (DSSpec.out K) :=
  match o with
  | OMake x => td_unit (td_make_set eqb hash P E x s)
  | OUnion a b => td_unit (td_union eqb hash P E a b s)
  | DSSpec.OExtend h xs => td_unit (td_extend eqb hash P E h xs s)
  | DSSpec.OExtendRef h xs => td_unit (td_extend eqb hash P E h (map (fun x => x) xs) s)
  | DSSpec.OClear => (td_clear s, Ret DSSpec.RUnit)
  | DSSpec.OReserve n => td_unit (td_reserve hash P E n s)
  | DSSpec.OContains x => (s, Ret (DSSpec.RBool (ht_contains eqb hash P x (td_ids s))))
  | OInUnion a b => match td_in_union eqb hash P a b s with (s', r) => (s', omap (@DSSpec.RBool K) r) end
  | DSSpec.OIsEmpty => (s, Ret (DSSpec.RBool (ht_len (td_ids s) =? 0)))
  | DSSpec.OLen => (s, Ret (DSSpec.RNat (ht_len (td_ids s))))
  | DSSpec.OIter order pick =>
      match td_into_iter E order pick s with
      | (s', r) => (s', omap (fun it => RSets (drain (S (length it)) it)) r)
      end
  end.

(** a history; panics are caught *)
Fixpoint td_run (ops : list (DSSpec.op K)) (s : tdset K) : tdset K * list (outcome (DSSpec.out K)) :=
  match ops with
  | [] => (s, [])
  | o :: ops' =>
      match td_step o s with
      | (s1, r) => match td_run ops' s1 with (s2, tr) => (s2, r :: tr) end
      end
  end.

(** the answer of [in_union] *)
Definition td_joined (s : tdset K) (x y : K) : Prop := snd (td_in_union eqb hash P x y s) = Ret true.
End Run.
