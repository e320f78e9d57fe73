(** The circular buffers a program can hold when [mem::uninitialized()] panics
    for the element type. *)
From Verif Require Import Base CBSpec CBModel CBModel2 CBModel3 CBRun CBRun2.
Set Implicit Arguments.

Section Held.
Variable T : Type.
Variable E : machine.

(** As [obtained].  The calls other than a change of capacity need no model of
    their own: they call [uninitialized()] only in [pop_at], which panics either
    way when the storage has no slot (and no other storage arises, see C93). *)
Inductive held : cb T -> Prop :=
| h_new k c : k <= usize_max E -> new_r T E k = Ret c -> held c
| h_from_iter evs xs c : from_iter_from_r E evs = (xs, Ret c) -> held c
| h_from_refs cl l xs c : from_iter_refs_r E cl l = (xs, Ret c) -> held c
| h_from_vec dp l xs c : from_vec_r dp l = (xs, Ret c) -> held c
| h_resize k c c' dr r : held c -> k <= usize_max E -> resize_r E k c = (c', dr, r) -> held c'
| h_call dp o c c' dr r : held c -> op_usize E o -> keeps_capacity o -> cb_step E dp o c = (c', dr, r) -> held c'
| h_append_to dp c1 c2 c1' c2' dr r : held c1 -> held c2 ->
    append E dp (c1, c2) = ((c1', c2'), dr, r) -> held c1'
| h_append_from dp c1 c2 c1' c2' dr r : held c1 -> held c2 ->
    append E dp (c1, c2) = ((c1', c2'), dr, r) -> held c2'
| h_slices_mut g c c' dr r : held c ->
    (forall a b, length (fst (g a b)) = length a /\ length (snd (g a b)) = length b) ->
    slices_mut_with g c = (c', dr, r) -> held c'
| h_clone bw cl c c' : held c -> clone_cb bw cl c = Ret c' -> held c'.
End Held.
