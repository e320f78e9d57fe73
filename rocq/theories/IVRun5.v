(** How a [dialog] of [IVModel5] may go.

    [runs d es s e]: with the comparisons answered as the list [es] says, in
    order, the call [d] leaves [s] in its receiver and ends with [e]: [Some r]
    if it came to its end with outcome [r], [None] if a comparison panicked. *)
From Verif Require Import Base IVModel IVModel4 IVModel5.

(** one comparison: what was asked about which two elements, and the answer *)
Inductive event (T : Type) :=
| Answered (k : kind) (x y : T) (a : answer k)
| Panicked (k : kind) (x y : T).
Arguments Answered {T} k x y a. Arguments Panicked {T} k x y.

(** All the ways a call may go.  No two answers are related in any way. *)
Inductive runs {T S A} : dialog T S A -> list (event T) -> S -> option (outcome A) -> Prop :=
| runs_done s r : runs (Done s r) [] s (Some r)
| runs_answer s k x y next a es s' e : runs (next a) es s' e -> runs (Ask s k x y next) (Answered k x y a :: es) s' e
| runs_panic s k x y next : runs (Ask s k x y next) [Panicked k x y] s None.

(** what fixed operators answer *)
Definition answers {T} (O : operators T) (k : kind) : T -> T -> answer k :=
  match k with
  | KCmp => o_cmp O | KLt => o_lt O | KLe => o_le O | KGt => o_gt O | KGe => o_ge O | KEq => o_eq O
  end.
(** The one way it goes with fixed operators [O], of which those pairs panic
    that [pn] says. *)
Fixpoint eval {T S A} (O : operators T) (pn : kind -> T -> T -> bool) (d : dialog T S A) : S * outcome A :=
  match d with
  | Done s r => (s, r)
  | Ask s k x y next => if pn k x y then (s, Panic) else eval O pn (next (answers O k x y))
  end.
(** no comparison panics *)
Definition calm {T} (k : kind) (x y : T) : bool := false.
(** the operators that all follow one three-way comparison *)
Definition of_cmp {T} (cmp : T -> T -> comparison) : operators T :=
  Operators cmp (vlt cmp) (vle cmp) (vgt cmp) (vge cmp) (veq cmp).
(** [op] says which orderings panic and [ep] which equality tests *)
Definition nervous {T} (op ep : T -> T -> bool) (k : kind) : T -> T -> bool :=
  match k with KEq => ep | _ => op end.
(** the operators [O] give this answer *)
Definition given_by {T} (O : operators T) (pn : kind -> T -> T -> bool) (e : event T) : Prop :=
  match e with
  | Answered k x y a => pn k x y = false /\ a = answers O k x y
  | Panicked k x y => pn k x y = true
  end.
