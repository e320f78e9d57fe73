(** Histories without the restriction that requested capacities can be allocated. *)
From Verif Require Import Base CBSpec CBModel CBRun.
Set Implicit Arguments.

Section Any.
Variable T : Type.
Variable E : machine.

(** Any call a program can write down: a requested capacity is some [usize];
    rewriting elements in place does not change how many there are. *)
Definition op_usize (o : op T) : Prop :=
  match o with
  | OResize k => k <= usize_max E
  | OIterMut g | OLinearizeMut g => forall l, length (g l) = length l
  | _ => True
  end.

(** Buffers a program can get hold of, requested capacities not limited (compare
    [reachable]); models no code *)
Inductive obtained : cb T -> Prop :=
| o_new k c : k <= usize_max E -> new T E k = Ret c -> obtained c
| o_from_iter xs c : from_iter E xs = Ret c -> obtained c
| o_from_vec d xs c : from_vec E d xs = Ret c -> obtained c
| o_call dp o c c' dr r : obtained c -> op_usize o -> cb_step E dp o c = (c', dr, r) -> obtained c'
| o_append_to dp c1 c2 c1' c2' dr r : obtained c1 -> obtained c2 ->
    append E dp (c1, c2) = ((c1', c2'), dr, r) -> obtained c1'
| o_append_from dp c1 c2 c1' c2' dr r : obtained c1 -> obtained c2 ->
    append E dp (c1, c2) = ((c1', c2'), dr, r) -> obtained c2'
| o_slices_mut g c c' dr r : obtained c ->
    (forall a b, length (fst (g a b)) = length a /\ length (snd (g a b)) = length b) ->
    slices_mut_with g c = (c', dr, r) -> obtained c'
| o_clone bw cl c c' : obtained c -> clone_cb bw cl c = Ret c' -> obtained c'.

(** how a call may end that is memory safe; it aborts only if it dropped ([dr])
    an element whose destructor panics *)
Definition safe_end (dp : T -> bool) (dr : list T) {A} (r : outcome A) : Prop :=
  match r with Ret _ | Panic => True | Abort => exists x, In x dr /\ dp x = true | UB | NoFuel => False end.

(** an answer that shows no element *)
Definition shows_nothing (r : outcome (out T)) : Prop :=
  match r with
  | Ret (ROpt (Some _)) | Ret (RElem _) | Ret (RList (_ :: _)) => False
  | Ret _ | Panic | Abort => True
  | UB | NoFuel => False
  end.

(** calls other than a change of capacity *)
Definition keeps_capacity (o : op T) : Prop := match o with OResize _ => False | _ => True end.

(** A useless buffer: whatever is done with it short of giving it another
    capacity, it takes no element in and shows none. *)
Definition barren (c : cb T) : Prop :=
  forall dp ops, Forall op_usize ops -> Forall keeps_capacity ops ->
    Forall (fun p => shows_nothing (snd p)) (snd (cb_run E dp ops c)) /\
    forall v, let c' := fst (cb_run E dp ops c) in
      (snd (push_back E dp v c') = Panic \/ snd (push_back E dp v c') = Abort) /\
      (snd (push_front E dp v c') = Panic \/ snd (push_front E dp v c') = Abort).

End Any.
