(** More of src/circular_buffer/circular.rs: compilers whose
    [mem::uninitialized()] panics for element types that may not be left
    uninitialised (references, boxes, vectors, strings, [bool] and so on).
    Everything here is for such a type. *)
From Verif Require Import Base CBModel CBModel2.
Local Open Scope outcome_scope.
Set Implicit Arguments.

Section Refused.
Variable T : Type.
Variable E : machine.
(** which elements have a panicking destructor *)
Variable dp : T -> bool.

(** the loops [for _ in 0..n] of circular.rs:92-94 and 174-176, which call
    [uninitialized()] in every round *)
Definition push_uninit_r (v : list (slot T)) (n : nat) : outcome (list (slot T)) :=
  if n =? 0 then Ret v else Panic.

(** circular.rs:89-100 [with_capacity]. *)
Definition with_capacity_r (capacity : nat) : outcome (cb T) :=
  let* n := uadd E capacity 1 in
  let* v := vec_with_capacity T E n in
  let* m := uadd E capacity 1 in
  let* b := push_uninit_r v m in
  Ret (CB b 0 0).

(** circular.rs:71-73 [new]. *)
Definition new_r (capacity : nat) : outcome (cb T) := with_capacity_r capacity.

(** circular.rs:782-795 [FromIterator<T>] from any iterator (as in [CBModel2]):
    the elements leaked and the outcome; [uninitialized()] is called at 785. *)
Definition from_iter_from_r (evs : list (option T)) : list T * outcome (cb T) :=
  match collect_from E [] evs with
  | (xs, _) => (xs, Panic)
  end.

(** circular.rs:797-809 [FromIterator<&T>]. *)
Definition from_iter_refs_r (cl : T -> option T) (xs : list T) : list T * outcome (cb T) :=
  from_iter_from_r (map cl xs).

(** circular.rs:811-822 [From<Vec<T>>]: [uninitialized()] is called at 814,
    before [push]; the vector is dropped while unwinding.  Gives the elements
    dropped and the outcome. *)
Definition from_vec_r (xs : list T) : list T * outcome (cb T) :=
  (xs, if existsb dp xs then Abort else Panic).

(** circular.rs:165-181 [resize]: [pop_at] (743-748) calls [uninitialized()]
    first, so draining a buffer that is not empty panics. *)
Definition resize_r (cap : nat) : M T (cb T) unit :=
  bind (liftO (uadd E cap 1)) (fun n =>
  bind (liftO (vec_with_capacity T E n)) (fun _ =>
  bind (gets (fun c =>
    let* l := len E c in
    if cap <? l then (let* l' := len E c in usub E l' cap) else Ret 0)) (fun _ =>
  bind (gets (fun c => Ret (is_empty c))) (fun e : bool =>
  if e then
    bind (liftO (let* d := usub E cap 0 in uadd E d 1)) (fun k =>
    bind (liftO (push_uninit_r [] k)) (fun b =>
    modify (fun _ => CB b 0 0)))
  else liftO Panic)))).

End Refused.
