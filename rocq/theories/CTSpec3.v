(** Specification of the counter when [Eq] and [Hash] of the keys obey no law:
    a counter is a list of entries, and every number handed over goes to one of
    them. *)
From Coq Require Import Permutation.
From Verif Require Import Base CTSpec.
Set Implicit Arguments.

Section Spec.
Variable K : Type.
(** which stored key answers to which key, now *)
Variable eqb : K -> K -> bool.

(** [n] is added to one entry answering to [k], or becomes an entry of its own
    if there is none *)
Inductive adds (k : K) (n : nat) (m : list (K * nat)) : list (K * nat) -> Prop :=
| add_new m' : (forall e, In e m -> eqb k (fst e) = false) -> Permutation ((k, n) :: m) m' -> adds k n m m'
| add_old l1 k' v l2 : m = l1 ++ (k', v) :: l2 -> eqb k k' = true -> adds k n m (l1 ++ (k', v + n) :: l2).

(** up to [n] is taken from one entry answering to [k], which disappears when
    nothing is left; nothing if there is none *)
Inductive takes (k : K) (n : nat) (m : list (K * nat)) : list (K * nat) -> Prop :=
| take_none : (forall e, In e m -> eqb k (fst e) = false) -> takes k n m m
| take_all l1 k' v l2 : m = l1 ++ (k', v) :: l2 -> eqb k k' = true -> v <= n -> takes k n m (l1 ++ l2)
| take_some l1 k' v l2 : m = l1 ++ (k', v) :: l2 -> eqb k k' = true -> n < v -> takes k n m (l1 ++ (k', v - n) :: l2).

(** [n] cannot be counted for [k]: no room for an entry, or the count overflows
    and this is checked *)
Definition stuck (E : machine) (k : K) (n : nat) (m : list (K * nat)) : Prop :=
  (forall e, In e m -> eqb k (fst e) = false) /\ alloc_max E <= length m \/
  (exists e, In e m /\ eqb k (fst e) = true /\ usize_max E < snd e + n) /\ debug_build E = true.

(** one after the other *)
Inductive each (step : K -> nat -> list (K * nat) -> list (K * nat) -> Prop) : list (K * nat) -> list (K * nat) -> list (K * nat) -> Prop :=
| each_nil m : each step [] m m
| each_cons k n l m1 m2 m3 : step k n m1 m2 -> each step l m2 m3 -> each step ((k, n) :: l) m1 m3.

Variable cl : K -> K.

(** what a counting call hands over *)
Definition handed (o : op K) : option (list (K * nat)) :=
  match o with
  | OPush k => Some [(k, 1)]
  | OExtend _ xs | OExtendRef _ xs => Some (map (fun x => (x, 1)) xs)
  | OAdd l => Some l
  | OAddRef l => Some (map (fun e => (cl (fst e), snd e)) l)
  | _ => None
  end.
(** what a subtracting call hands over *)
Definition taken (o : op K) : option (list (K * nat)) :=
  match o with
  | OSub l => Some l
  | OSubRef l => Some (map (fun e => (cl (fst e), snd e)) l)
  | _ => None
  end.

(** the call asks for room beforehand and there is none *)
Definition refused (E : machine) (o : op K) (m : list (K * nat)) : Prop :=
  match o with
  | OExtend h _ | OExtendRef h _ => alloc_max E < length m + h
  | _ => False
  end.

(** every number involved is a [usize] *)
Definition usizes (E : machine) (l : list (K * nat)) : Prop := Forall (fun e => snd e <= usize_max E) l.
Definition op_usizes (E : machine) (o : op K) : Prop :=
  match o with
  | OAdd l | OAddRef l | OSub l | OSubRef l => usizes E l
  | OInsert _ n => n <= usize_max E
  | OGetMut _ g => forall n, g n <= usize_max E
  | OIterMut g => forall k n, g k n <= usize_max E
  | _ => True
  end.
End Spec.
