(** Running calls on hashbrown's table with an [Eq] and a [Hash] that may change from call to
    call. *)
From Coq Require Import NArith.
From Verif Require Import Base HMModel HTModel GTModel GTSpec GTRun.
Set Implicit Arguments.

Section Run.
Variables K V : Type.
Variable W : nat.
Variable E : machine.

(** a call of the maps of counter.rs:45 and disjoint_set.rs:106 together with what [T: Eq] and
    [T: Hash] (counter.rs:38, disjoint_set.rs:104) answer during it *)
Record mood : Type := Mood { m_eq : K -> K -> bool; m_hash : K -> N; m_call : call K V }.

(** A sequence of such calls (counter.rs:45, disjoint_set.rs:106), with the answers.
    Simplification: within one call [Eq] and [Hash] are functions, and the control byte of a
    stored key is what [Hash] says now (as keys may be told apart, any byte for each). *)
Fixpoint g_runs (cs : list mood) (t : table K V) : table K V * list (outcome (answer K V)) :=
  match cs with
  | [] => (t, [])
  | c :: r =>
      match g_step (m_eq c) (m_hash c) W E (m_call c) t with
      | (t1, o) => match g_runs r t1 with (t2, os) => (t2, o :: os) end
      end
  end.
End Run.
