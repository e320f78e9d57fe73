(** Model of src/circular_buffer/circular.rs and src/circular_buffer/iter.rs,
    second part: the iterators step by step, construction and extension from
    arbitrary iterators (which may panic) and from references, [Debug]. *)
From Coq Require Import String DecimalString.
From Verif Require Import Base CBModel.
Local Open Scope outcome_scope.
Local Open Scope list_scope.
Set Implicit Arguments.

(** ** Borrowing iterators *)

(** iter.rs:8 [Iter] and iter.rs:11 [IterMut]: [Chain] of two slice iterators,
    each given by the references it has not yielded yet. *)
Record chain (A : Type) : Type := Chain { chain_a : list A; chain_b : list A }.

Section Chain.
Variable A : Type.

(** [slice::Iter::next_back] of std: takes the last item. *)
Fixpoint take_last (x : A) (l : list A) : list A * A :=
  match l with
  | [] => ([], x)
  | y :: t => let '(r, z) := take_last y t in (x :: r, z)
  end.

(** [Chain::next] of std: the first half until it is exhausted, then the second. *)
Definition chain_next (c : chain A) : chain A * option A :=
  match chain_a c with
  | x :: a => (Chain a (chain_b c), Some x)
  | [] => match chain_b c with
          | x :: b => (Chain [] b, Some x)
          | [] => (Chain [] [], None)
          end
  end.

(** [Chain::next_back] of std: the second half backwards, then the first. *)
Definition chain_next_back (c : chain A) : chain A * option A :=
  match chain_b c with
  | x :: b => let '(r, z) := take_last x b in (Chain (chain_a c) r, Some z)
  | [] => match chain_a c with
          | x :: a => let '(r, z) := take_last x a in (Chain r [], Some z)
          | [] => (Chain [] [], None)
          end
  end.

End Chain.

Section Model.
Variable T : Type.
Variable E : machine.
(** which elements have a panicking destructor *)
Variable dp : T -> bool.

(** circular.rs:388-392 [iter]: the freshly created iterator; a reference is
    modelled by the value it points to. *)
Definition iter_begin (c : cb T) : outcome (chain T) :=
  let* p := slices c in Ret (Chain (fst p) (snd p)).

(** circular.rs:852-859 [IntoIterator for &CircularBuffer]. *)
Definition into_iter_ref (c : cb T) : outcome (chain T) := iter_begin c.

(** circular.rs:411-414 [iter_mut]: the freshly created iterator; a mutable
    reference is modelled by the storage position it points to. *)
Definition iter_mut_begin (c : cb T) : outcome (chain nat) :=
  let* p := slices_mut c in
  let '((oa, a), (ob, b)) := p in
  Ret (Chain (seq oa (length a)) (seq ob (length b))).

(** circular.rs:861-868 [IntoIterator for &mut CircularBuffer]. *)
Definition into_iter_mut_ref (c : cb T) : outcome (chain nat) := iter_mut_begin c.

(** the caller writes through the mutable references obtained so far, in any
    order and any number of times: [(i, f)] applies [f] to the referent of the
    [i]-th of the references [ps] *)
Fixpoint write_refs (ps : list nat) (ws : list (nat * (T -> T))) : M T (cb T) unit :=
  match ws with
  | [] => ret tt
  | (i, f) :: ws' =>
      match nth_error ps i with
      | Some p => bind (modify_slot p f) (fun _ => write_refs ps ws')
      | None => write_refs ps ws'
      end
  end.

(** ** Arbitrary iterators as arguments *)

(** What the [next] of an iterator passed by the user does is given by a list:
    [Some v] yields [v], [None] panics; at the end of the list the iterator is
    exhausted. *)

(** circular.rs:824-831 [Extend<T>] from any iterator.  What the iterator
    itself drops when it is dropped is not part of the model. *)
Fixpoint extend_from (evs : list (option T)) : M T (cb T) unit :=
  match evs with
  | [] => ret tt
  | Some v :: evs' => bind (push_back E dp v) (fun _ => extend_from evs')
  | None :: _ => liftO Panic
  end.

(** circular.rs:833-840 [Extend<&T>]; [cl] is the element's [clone], [None]
    standing for a panic. *)
Definition extend_refs (cl : T -> option T) (xs : list T) : M T (cb T) unit :=
  extend_from (map cl xs).

(** [Vec::from_iter] at circular.rs:784 and 799: the values collected so far,
    and whether the collection went through.  The values are wrapped in
    [ManuallyDrop], so on a panic those collected (and the one whose insertion
    panics) are leaked.  Simplification: the size hint of the iterator does
    not make the initial allocation fail. *)
Fixpoint collect_from (acc : list T) (evs : list (option T)) : list T * outcome unit :=
  match evs with
  | [] => (acc, Ret tt)
  | None :: _ => (acc, Panic)
  | Some v :: evs' =>
      if length acc + 1 <=? alloc_max E then collect_from (acc ++ [v]) evs'
      else (acc ++ [v], Panic)
  end.

(** circular.rs:782-795 [FromIterator<T>] from any iterator: the elements
    leaked (neither dropped nor stored) and the outcome. *)
Definition from_iter_from (evs : list (option T)) : list T * outcome (cb T) :=
  match collect_from [] evs with
  | (xs, Ret _) =>
      match vec_push_uninit E (map Init xs) 1 with
      | Ret b => ([], let* e := usub E (length b) 1 in Ret (CB b 0 e))
      | _ => (xs, Panic)
      end
  | (xs, _) => (xs, Panic)
  end.

(** circular.rs:797-809 [FromIterator<&T>]; [cl] as above. *)
Definition from_iter_refs (cl : T -> option T) (xs : list T) : list T * outcome (cb T) :=
  from_iter_from (map cl xs).

(** ** Debug *)

(** [{}] applied to a [usize]: decimal digits. *)
Definition show_usize (n : nat) : string := NilZero.string_of_uint (Nat.to_uint n).

(** circular.rs:776-780 [Debug]; written by hand with [{}] only, it is the same
    for [{:?}] and [{:#?}]. *)
Definition debug_fmt (c : cb T) : string :=
  ("CircularBuffer{ start: " ++ show_usize (start c) ++ ", end: " ++ show_usize (end_ c)
   ++ ", buf_len: " ++ show_usize (length (buffer c)) ++ " }")%string.

End Model.
