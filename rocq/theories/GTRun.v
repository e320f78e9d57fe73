(** Running calls on hashbrown's table. *)
From Coq Require Import NArith.
From Verif Require Import Base HMModel HTModel GTModel GTSpec.
Set Implicit Arguments.

Section Run.
Variables K V : Type.
Variable eqb : K -> K -> bool.
Variable hash : K -> N.
Variable W : nat.
Variable E : machine.

(** One call of the map behind counter.rs:45 and disjoint_set.rs:106, by the
    function of [GTModel] with the name of the call. *)
Definition g_step (c : call K V) (t : table K V) : table K V * outcome (answer K V) :=
  match c with
  | TGet _ k => (t, Ret (AEntry (g_entry_of eqb hash W k t)))
  | TLen => (t, Ret (ANum (ht_len t)))
  | TIter => (t, Ret (AAll (ht_entries t)))
  | TInsert k v => match g_insert eqb hash W E k v t with (t', o) => (t', omap (@AOld K V) o) end
  | TUpsert k d up => match g_upsert eqb hash W E k d up t with (t', o) => (t', omap (@AVal K V) o) end
  | TUpdate k up => (match g_get eqb hash W k t with Some v => g_set eqb hash W k (up v) t | None => t end, Ret AUnit)
  | TRemove _ k => (g_remove eqb hash W k t, Ret (AOld K (g_get eqb hash W k t)))
  | TRetain p => (g_retain W p t, Ret AUnit)
  | TReserve n => match g_reserve hash W E n t with (t', o) => (t', omap (fun _ => AUnit) o) end
  | TClear => (g_clear t, Ret AUnit)
  end.

(** A sequence of such calls (counter.rs:45, disjoint_set.rs:106), with the
    answers. *)
Fixpoint g_run (cs : list (call K V)) (t : table K V) : table K V * list (outcome (answer K V)) :=
  match cs with
  | [] => (t, [])
  | c :: r => match g_step c t with (t1, o) => match g_run r t1 with (t2, os) => (t2, o :: os) end end
  end.
End Run.
