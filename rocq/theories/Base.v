(** Shared vocabulary: outcomes of a Rust call, machine parameters and
    [usize] arithmetic.  Models no file of the repository; it models the
    parts of the Rust language the crate relies on. *)
From Coq Require Export List Arith Bool Lia.
Export ListNotations.

(** How a Rust call ends.
    - [Ret a]   : normal return
    - [Panic]   : unwinding panic
    - [Abort]   : process abort (a destructor panics while unwinding)
    - [UB]      : undefined behaviour (a value is read from uninitialised memory)
    - [NoFuel]  : artefact of fuelled loops; every theorem excludes it *)
Inductive outcome (A : Type) : Type :=
| Ret (a : A)
| Panic
| Abort
| UB
| NoFuel.
Arguments Ret {A} a.
Arguments Panic {A}.
Arguments Abort {A}.
Arguments UB {A}.
Arguments NoFuel {A}.

(** Sequencing: what the first computation ends with, if not a value, is the
    end of the whole (a Rust panic unwinds, an abort ends the process).
    Models no particular lines. *)
Definition obind {A B} (m : outcome A) (f : A -> outcome B) : outcome B :=
  match m with
  | Ret a => f a
  | Panic => Panic
  | Abort => Abort
  | UB => UB
  | NoFuel => NoFuel
  end.

(** applies [f] to the value returned, if any *)
Definition omap {A B} (f : A -> B) (m : outcome A) : outcome B :=
  obind m (fun a => Ret (f a)).

(** The machine: [usize_max] = [usize::MAX]; [alloc_max] = the largest number
    of elements of the element type a [Vec] may hold; [debug_build] = whether
    overflow checks and [debug_assert!] are enabled. All three are arbitrary. *)
Record machine := Machine {
  usize_max : nat;
  alloc_max : nat;
  debug_build : bool
}.

(** Non-zero-sized element type: std guarantees that an allocation never
    exceeds [isize::MAX] bytes, so twice any length still fits [usize]. *)
Definition sized_machine (E : machine) : Prop :=
  2 * alloc_max E <= usize_max E.

(** Element types and machines on which positions of a buffer can be computed
    in [usize]: a [Vec] is never longer than [usize::MAX], and either twice
    the largest capacity fits [usize] (always so for elements of non-zero
    size, see [sized_indexable]) or the build does not check overflow and the
    elements cannot be told apart (elements of size zero). *)
Definition indexable (T : Type) (E : machine) : Prop :=
  alloc_max E <= usize_max E /\
  (2 * alloc_max E <= usize_max E + 2 \/ debug_build E = false /\ forall x y : T, x = y).

Lemma sized_indexable T E : sized_machine E -> indexable T E.
Proof. unfold sized_machine, indexable; intros; split; [lia|left; lia]. Qed.

(** [a + b] on [usize]: panics on overflow in debug builds, wraps in release. *)
Definition uadd (E : machine) (a b : nat) : outcome nat :=
  if a + b <=? usize_max E then Ret (a + b)
  else if debug_build E then Panic
  else Ret (a + b - S (usize_max E)).

(** [a - b] on [usize]. *)
Definition usub (E : machine) (a b : nat) : outcome nat :=
  if b <=? a then Ret (a - b)
  else if debug_build E then Panic
  else Ret (a + S (usize_max E) - b).

Declare Scope outcome_scope.
Delimit Scope outcome_scope with outcome.
(** Rust's [let x = m; k] for computations that may not return *)
Notation "'let*' x := m 'in' k" := (obind m (fun x => k))
  (at level 200, x name, right associativity) : outcome_scope.

Lemma uadd_fits E a b : a + b <= usize_max E -> uadd E a b = Ret (a + b).
Proof. intros H; unfold uadd. apply Nat.leb_le in H. now rewrite H. Qed.

Lemma usub_fits E a b : b <= a -> usub E a b = Ret (a - b).
Proof. intros H; unfold usub. apply Nat.leb_le in H. now rewrite H. Qed.
