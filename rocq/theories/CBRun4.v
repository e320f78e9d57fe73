(** How the blocks of heap memory belong to vectors and buffers (see [CBModel7]). *)
From Verif Require Import Base CBSpec CBModel CBSpec6 CBModel7.
Set Implicit Arguments.

(** the block at [a], if any, with room for [n] *)
Definition blk (a : option nat) (n : nat) : list (nat * nat) := match a with Some x => [(x, n)] | None => [] end.

Section Run.
Variable T : Type.
Variable E : machine.
Variable sized : bool.
Variable place : list event -> nat.

(** a vector has a block exactly if it has a capacity and its elements a size *)
Definition vec_ok (v : vec T) : Prop :=
  length (v_items v) <= v_cap v /\ v_cap v <= alloc_max E /\ (v_at v = None <-> sized && (0 <? v_cap v) = false).

(** the block of a buffer, and whether it has one *)
Definition owns (p : cb T * option nat) : list (nat * nat) := blk (snd p) (length (buffer (fst p))).
Definition has_block (p : cb T * option nat) : Prop := snd p = None <-> sized && (0 <? length (buffer (fst p))) = false.

(** what is requested for [n] elements after [h], and the address obtained *)
Definition taken (h : list event) (n : nat) : list event := if sized && (0 <? n) then [Take (place h, n)] else [].
Definition put (h : list event) (n : nat) : option nat := if sized && (0 <? n) then Some (place h) else None.

(** construction: a buffer with a block of its own, or nothing, beside what was in use *)
Definition accounted (bs : list (nat * nat)) (r : (list event * unit) * list T * outcome (cb T * option nat)) (o : outcome (cb T)) : Prop :=
  match r, o with
  | ((h, _), d, Ret p), Ret c => d = [] /\ fst p = c /\ has_block p /\ in_use h (owns p ++ bs)
  | ((h, _), d, Panic), Panic => d = [] /\ in_use h bs
  | ((h, _), d, UB), UB => d = []
  | _, _ => False
  end.
End Run.

(** what is requested when the block at [a] is returned *)
Definition given (a : option nat) (n : nat) : list event := match a with Some x => [Give (x, n)] | None => [] end.

(** the number of calls of [resize] *)
Definition resizes {T} (ops : list (op T)) : nat := length (filter (fun o => match o with OResize _ => true | _ => false end) ops).
