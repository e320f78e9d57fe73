(** Counters and answers that cannot be told apart, given that equal keys are
    exchangeable and hash maps are traversed in any order.  Independent of the
    model. *)
From Verif Require Import Base CTSpec.
Set Implicit Arguments.

Section Same.
Variable K : Type.
Variable eqb : K -> K -> bool.

(** the same entry up to equality of keys *)
Definition like_entry (a b : option (K * nat)) : Prop :=
  match a, b with
  | Some (k, n), Some (k', n') => eqb k k' = true /\ n = n'
  | None, None => True
  | _, _ => False
  end.

(** the same counts for the same keys *)
Definition like (f g : fm K) : Prop := forall x, like_entry (f x) (g x).

(** the same outcome, up to equality of keys and the order of traversals *)
Definition same_answer (r r' : outcome (out K)) : Prop :=
  match r, r' with
  | Ret (REntry a), Ret (REntry b) => like_entry a b
  | Ret (RList l), Ret (RList l') =>
      length l = length l' /\
      forall x n, (exists k, In (k, n) l /\ eqb x k = true) <-> (exists k, In (k, n) l' /\ eqb x k = true)
  | _, _ => r = r'
  end.

(** closures do not tell equal keys apart *)
Definition blind (o : op K) : Prop :=
  match o with
  | ORetain p => forall k k' n, eqb k k' = true -> p k n = p k' n
  | OIterMut g => forall k k' n, eqb k k' = true -> g k n = g k' n
  | _ => True
  end.
End Same.
