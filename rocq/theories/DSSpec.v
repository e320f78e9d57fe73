(** Specification of the disjoint set: the log of elements added and pairs
    united since the last [clear], and the equivalence these pairs generate.
    Independent of the model: no forest, no ranks, no indices. *)
From Coq Require Import Permutation.
From Verif Require Import Base.
Set Implicit Arguments.

Section Spec.
Variable K : Type.
Variable eqb : K -> K -> bool.

(** [x] is among [xs] *)
Definition mem (x : K) (xs : list K) : Prop := exists y, In y xs /\ eqb x y = true.
(** the same, as a test *)
Definition memb (x : K) (xs : list K) : bool := existsb (eqb x) xs.

(** the elements of [xs] not equal to an earlier one *)
Fixpoint firsts_from (seen xs : list K) : list K :=
  match xs with
  | [] => []
  | x :: r => if memb x seen then firsts_from seen r else x :: firsts_from (x :: seen) r
  end.
(** the different elements of [xs], each as first met *)
Definition firsts (xs : list K) : list K := firsts_from [] xs.

(** the equivalence generated by the pairs [ps] *)
Inductive conn (ps : list (K * K)) : K -> K -> Prop :=
| conn_eq x y : eqb x y = true -> conn ps x y
| conn_pair x y : In (x, y) ps -> conn ps x y
| conn_sym x y : conn ps x y -> conn ps y x
| conn_trans x y z : conn ps x y -> conn ps y z -> conn ps x z.

(** what has happened since the last [clear]: the elements added, in order of
    time, and the pairs united *)
Record log : Type := Log { added : list K; united : list (K * K) }.
(** nothing has happened *)
Definition empty_log : log := Log [] [].

(** the number of different elements added *)
Definition size (g : log) : nat := length (firsts (added g)).

(** being in one set *)
Definition together (g : log) (x y : K) : Prop :=
  mem x (added g) /\ mem y (added g) /\ conn (united g) x y.

(** [ss] lists the sets of the partition: every element once (as first added),
    no empty set, connected elements together and others apart *)
Definition partition (g : log) (ss : list (list K)) : Prop :=
  Permutation (firsts (added g)) (concat ss) /\
  Forall (fun s => s <> []) ss /\
  Forall (fun s => forall x y, In x s -> In y s -> conn (united g) x y) ss /\
  ForallOrdPairs (fun s t => forall x y, In x s -> In y t -> ~ conn (united g) x y) ss.

(** ** Calls on one disjoint set *)
(** [OIter order pick]: iterate over all sets; [order] and [pick] are the
    orders of the two hash maps involved. *)
Inductive op : Type :=
| OMake (x : K) | OUnion (a b : K) | OExtend (hint : nat) (xs : list K)
| OExtendRef (hint : nat) (xs : list K) | OClear | OReserve (n : nat)
| OContains (x : K) | OInUnion (a b : K) | OIsEmpty | OLen
| OIter (order : list (K * nat) -> list (K * nat))
        (pick : list (nat * list K) -> list (nat * list K)).

(** what calls return *)
Inductive out : Type :=
| RUnit | RBool (b : bool) | RNat (n : nat) | RSets (ss : list (list K)).

(** the calls that only ask *)
Definition is_query (o : op) : bool :=
  match o with
  | OContains _ | OInUnion _ _ | OIsEmpty | OLen | OIter _ _ => true
  | _ => false
  end.

(** hash maps are traversed in some order *)
Definition op_ok (o : op) : Prop :=
  match o with
  | OIter order pick => (forall l, Permutation l (order l)) /\ (forall l, Permutation l (pick l))
  | _ => True
  end.

(** The log after the calls [ops] if none of them panics. *)
Definition record (o : op) (g : log) : log :=
  match o with
  | OMake x => Log (added g ++ [x]) (united g)
  | OUnion a b => Log (added g ++ [a; b]) (united g ++ [(a, b)])
  | OExtend _ xs | OExtendRef _ xs => Log (added g ++ xs) (united g)
  | OClear => empty_log
  | _ => g
  end.
(** the same for a sequence of calls *)
Definition replay (ops : list op) (g : log) : log := fold_left (fun g o => record o g) ops g.

(** [p] is among [ps], in one or the other orientation *)
Definition has_pair (p : K * K) (ps : list (K * K)) : Prop :=
  exists q, In q ps /\
    ((eqb (fst p) (fst q) = true /\ eqb (snd p) (snd q) = true) \/
     (eqb (fst p) (snd q) = true /\ eqb (snd p) (fst q) = true)).

(** the same elements added and the same pairs united, in any order,
    orientation and multiplicity *)
Definition same_facts (g g' : log) : Prop :=
  (forall x, mem x (added g) <-> mem x (added g')) /\
  (forall p, In p (united g) -> has_pair p (united g')) /\
  (forall p, In p (united g') -> has_pair p (united g)).

(** the number of elements a call may need room for *)
Definition demand (o : op) : nat :=
  match o with
  | OMake _ => 1
  | OUnion _ _ => 2
  | OExtend hint xs | OExtendRef hint xs => Nat.max hint (length xs)
  | OReserve n => n
  | _ => 0
  end.

Variable E : machine.

(** there is no room for the new element [x] *)
Definition no_room (x : K) (xs : list K) : Prop :=
  ~ mem x xs /\ length (firsts xs) = alloc_max E.
(** [x] is there already, or there is room for it *)
Definition room (x : K) (xs : list K) : Prop :=
  mem x xs \/ length (firsts xs) < alloc_max E.

(** The outcome of adding [xs] one after the other: all are added, or a panic
    at an element for which there is no room, those before it being added. *)
Definition adds (xs : list K) (g g' : log) (r : outcome out) : Prop :=
  (r = Ret RUnit /\ g' = Log (added g ++ xs) (united g) /\ length (firsts (added g ++ xs)) <= alloc_max E) \/
  (r = Panic /\ exists l1 x l2, xs = l1 ++ x :: l2 /\ g' = Log (added g ++ l1) (united g) /\
     no_room x (added g ++ l1)).

(** [allowed o g g' r]: the call [o] on a set with log [g] may leave the log
    [g'] and end with [r]. *)
Definition allowed (o : op) (g g' : log) (r : outcome out) : Prop :=
  match o with
  | OMake x => adds [x] g g' r
  | OUnion a b =>
      (r = Ret RUnit /\ g' = Log (added g ++ [a; b]) (united g ++ [(a, b)]) /\
         length (firsts (added g ++ [a; b])) <= alloc_max E) \/
      (r = Panic /\ adds [a; b] g g' Panic)
  | OExtend hint xs | OExtendRef hint xs =>
      (size g + hint <= alloc_max E /\ adds xs g g' r) \/
      (alloc_max E < size g + hint /\ g' = g /\ r = Panic)
  | OClear => g' = empty_log /\ r = Ret RUnit
  | OReserve n =>
      g' = g /\ r = if size g + n <=? alloc_max E then Ret RUnit else Panic
  | OContains x => g' = g /\ exists b, (b = true <-> mem x (added g)) /\ r = Ret (RBool b)
  | OInUnion x y => g' = g /\ exists b, (b = true <-> together g x y) /\ r = Ret (RBool b)
  | OIsEmpty => g' = g /\ exists b, (b = true <-> added g = []) /\ r = Ret (RBool b)
  | OLen => g' = g /\ r = Ret (RNat (size g))
  | OIter _ _ => g' = g /\ exists ss, partition g ss /\ r = Ret (RSets ss)
  end.

(** A history of calls, panics being caught by the caller. *)
Inductive history : list op -> log -> log -> list (outcome out) -> Prop :=
| h_nil g : history [] g g []
| h_cons o ops g g1 g2 r tr : allowed o g g1 r -> history ops g1 g2 tr ->
    history (o :: ops) g g2 (r :: tr).

End Spec.
Arguments empty_log {K}.
Arguments RUnit {K}. Arguments RBool {K} b. Arguments RNat {K} n. Arguments RSets {K} ss.
Arguments OClear {K}. Arguments OReserve {K} n. Arguments OIsEmpty {K}. Arguments OLen {K}.
