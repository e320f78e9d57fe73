(** Specification of the counter when the key equality may change at every
    lookup: the steps of [CTSpec3], each under a relation of its own. *)
From Coq Require Import Permutation.
From Verif Require Import Base CTSpec CTSpec3.
Set Implicit Arguments.

Section Spec.
Variable K : Type.

(** one after the other, each lookup answered in its own way *)
Inductive each_q (step : (K -> K -> bool) -> K -> nat -> list (K * nat) -> list (K * nat) -> Prop) :
  list ((K -> K -> bool) * (K * nat)) -> list (K * nat) -> list (K * nat) -> Prop :=
| eachq_nil m : each_q step [] m m
| eachq_cons q k n l m1 m2 m3 : step q k n m1 m2 -> each_q step l m2 m3 -> each_q step ((q, (k, n)) :: l) m1 m3.

(** [n] replaces the number of one entry answering to [k], or becomes an entry of
    its own if there is none *)
Inductive puts (q : K -> K -> bool) (k : K) (n : nat) (m : list (K * nat)) : list (K * nat) -> Prop :=
| put_new m' : (forall e, In e m -> q k (fst e) = false) -> Permutation ((k, n) :: m) m' -> puts q k n m m'
| put_old l1 k' v l2 : m = l1 ++ (k', v) :: l2 -> q k k' = true -> puts q k n m (l1 ++ (k', n) :: l2).

(** calls: those with several lookups, in which every item comes with the answers
    to its lookup, and those with one *)
Inductive qop : Type :=
| QExtend (hint : nat) (xs : list ((K -> K -> bool) * K))
| QExtendRef (hint : nat) (xs : list ((K -> K -> bool) * K))
| QAdd (l : list ((K -> K -> bool) * (K * nat)))
| QAddRef (l : list ((K -> K -> bool) * (K * nat)))
| QSub (l : list ((K -> K -> bool) * (K * nat)))
| QSubRef (l : list ((K -> K -> bool) * (K * nat)))
| QCall (q : K -> K -> bool) (o : op K).

Variable cl : K -> K.

(** what a counting call hands over *)
Definition q_handed (o : qop) : option (list ((K -> K -> bool) * (K * nat))) :=
  match o with
  | QExtend _ xs | QExtendRef _ xs => Some (map (fun x => (fst x, (snd x, 1))) xs)
  | QAdd l => Some l
  | QAddRef l => Some (map (fun e => (fst e, (cl (fst (snd e)), snd (snd e)))) l)
  | QCall q o => option_map (map (pair q)) (handed cl o)
  | _ => None
  end.
(** what a subtracting call hands over *)
Definition q_taken (o : qop) : option (list ((K -> K -> bool) * (K * nat))) :=
  match o with
  | QSub l => Some l
  | QSubRef l => Some (map (fun e => (fst e, (cl (fst (snd e)), snd (snd e)))) l)
  | QCall q o => option_map (map (pair q)) (taken cl o)
  | _ => None
  end.

(** the call asks for room beforehand and there is none *)
Definition q_refused (E : machine) (o : qop) (m : list (K * nat)) : Prop :=
  match o with
  | QExtend h _ | QExtendRef h _ => alloc_max E < length m + h
  | QCall _ o => refused E o m
  | _ => False
  end.

(** every number involved is a [usize] *)
Definition qop_usizes (E : machine) (o : qop) : Prop :=
  match o with
  | QAdd l | QAddRef l | QSub l | QSubRef l => usizes E (map snd l)
  | QCall _ o => op_usizes E o
  | _ => True
  end.
End Spec.
