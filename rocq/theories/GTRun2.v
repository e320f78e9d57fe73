(** Dispatch of the calls of [CTSpec.op] and [DSSpec.op] to the methods of
    [GTModel2]. *)
From Coq Require Import NArith.
From Verif Require Import Base HMModel DSModel DSRun HTModel GTModel GTModel2 CTSpec DSSpec.
Set Implicit Arguments.

Section Run.
Variable K : Type.
Variable eqb : K -> K -> bool.
Variable cl : K -> K.
Variable hash : K -> N.
Variable W : nat.
Variable E : machine.

(** a method of result type [()] *)
Definition gc_unit (r : table K nat * outcome unit) : table K nat * outcome (CTSpec.out K) :=
  (fst r, omap (fun _ => CTSpec.RUnit) (snd r)).

(** one call on a counter: the method of [GTModel2] each call stands for (each
    cites its lines in src/counter/counter.rs there) *)
Definition gc_step (o : CTSpec.op K) (t : table K nat) : table K nat * outcome (CTSpec.out K) :=
  match o with
  | OPush k => gc_unit (gc_push eqb hash W E k t)
  | CTSpec.OExtend h xs => gc_unit (gc_extend eqb hash W E h xs t)
  | CTSpec.OExtendRef h xs => gc_unit (gc_extend_ref eqb hash W E h xs t)
  | OAdd l => gc_unit (gc_add_assign eqb hash W E l t)
  | OAddRef l => gc_unit (gc_add_assign_ref eqb cl hash W E l t)
  | OSub l => gc_unit (gc_sub_assign eqb hash W E l t)
  | OSubRef l => gc_unit (gc_sub_assign_ref eqb cl hash W E l t)
  | OGet k => (t, Ret (ROpt (g_get eqb hash W k t)))
  | OGetKeyValue k => (t, Ret (REntry (g_entry_of eqb hash W k t)))
  | OIndex k => (t, match g_get eqb hash W k t with Some n => Ret (CTSpec.RNat n) | None => Panic end)
  | CTSpec.OContains k => (t, Ret (CTSpec.RBool (g_contains eqb hash W k t)))
  | CTSpec.OLen => (t, Ret (CTSpec.RNat (ht_len t)))
  | CTSpec.OIsEmpty => (t, Ret (CTSpec.RBool (ht_len t =? 0)))
  | CTSpec.OIter pick => (t, Ret (RList (pick (ht_entries t))))
  | OInsert k n => match g_insert eqb hash W E k n t with (t', r) => (t', omap (@ROpt K) r) end
  | ORemove k => (g_remove eqb hash W k t, Ret (ROpt (g_get eqb hash W k t)))
  | OGetMut k g => match gc_get_mut eqb hash W k g t with (t', b) => (t', Ret (CTSpec.RBool b)) end
  | CTSpec.OClear => (g_clear t, Ret CTSpec.RUnit)
  | ORetain p => (g_retain W p t, Ret CTSpec.RUnit)
  | OIterMut g => (ht_map_values g t, Ret CTSpec.RUnit)
  | CTSpec.OReserve n => gc_unit (g_reserve hash W E n t)
  end.

(** a history; panics are caught *)
Fixpoint gc_run (ops : list (CTSpec.op K)) (t : table K nat) : table K nat * list (outcome (CTSpec.out K)) :=
  match ops with
  | [] => (t, [])
  | o :: ops' =>
      match gc_step o t with
      | (t1, r) => match gc_run ops' t1 with (t2, tr) => (t2, r :: tr) end
      end
  end.

(** a method of result type [()] *)
Definition gd_unit (r : tdset K * outcome unit) : tdset K * outcome (DSSpec.out K) :=
  (fst r, omap (fun _ => DSSpec.RUnit) (snd r)).

(** one call on a disjoint set (likewise) *)
Definition gd_step (o : DSSpec.op K) (s : tdset K) : tdset K * outcome (DSSpec.out K) :=
  match o with
  | OMake x => gd_unit (gd_make_set eqb hash W E x s)
  | OUnion a b => gd_unit (gd_union eqb hash W E a b s)
  | DSSpec.OExtend h xs => gd_unit (gd_extend eqb hash W E h xs s)
  | DSSpec.OExtendRef h xs => gd_unit (gd_extend eqb hash W E h (map (fun x => x) xs) s)
  | DSSpec.OClear => (gd_clear s, Ret DSSpec.RUnit)
  | DSSpec.OReserve n => gd_unit (gd_reserve hash W E n s)
  | DSSpec.OContains x => (s, Ret (DSSpec.RBool (g_contains eqb hash W x (td_ids s))))
  | OInUnion a b => match gd_in_union eqb hash W a b s with (s', r) => (s', omap (@DSSpec.RBool K) r) end
  | DSSpec.OIsEmpty => (s, Ret (DSSpec.RBool (ht_len (td_ids s) =? 0)))
  | DSSpec.OLen => (s, Ret (DSSpec.RNat (ht_len (td_ids s))))
  | DSSpec.OIter order pick =>
      match td_into_iter E order pick s with
      | (s', r) => (s', omap (fun it => RSets (drain (S (length it)) it)) r)
      end
  end.

(** a history; panics are caught *)
Fixpoint gd_run (ops : list (DSSpec.op K)) (s : tdset K) : tdset K * list (outcome (DSSpec.out K)) :=
  match ops with
  | [] => (s, [])
  | o :: ops' =>
      match gd_step o s with
      | (s1, r) => match gd_run ops' s1 with (s2, tr) => (s2, r :: tr) end
      end
  end.

(** the answer of [in_union] *)
Definition gd_joined (s : tdset K) (x y : K) : Prop := snd (gd_in_union eqb hash W x y s) = Ret true.
End Run.
