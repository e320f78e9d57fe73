(** Blocks of heap memory, independently of the model: a block is an address together
    with the number of elements it has room for; a program requests blocks and returns
    them. *)
From Coq Require Import Permutation.
From Verif Require Import Base.
Set Implicit Arguments.

Inductive event : Type :=
| Take (b : nat * nat)
| Give (b : nat * nat).

Definition same_block (b c : nat * nat) : bool := (fst b =? fst c) && (snd b =? snd c).

(** returning a block: it must be there, as requested *)
Fixpoint without (b : nat * nat) (l : list (nat * nat)) : option (list (nat * nat)) :=
  match l with
  | [] => None
  | c :: t => if same_block b c then Some t else option_map (cons c) (without b t)
  end.

(** the blocks in use after [es], starting with [l]; [None] if a block is returned that
    is not in use (or with another size than requested), or handed out twice *)
Fixpoint settle (l : list (nat * nat)) (es : list event) : option (list (nat * nat)) :=
  match es with
  | [] => Some l
  | Take b :: t => if existsb (fun c => fst c =? fst b) l then None else settle (b :: l) t
  | Give b :: t => match without b l with Some l' => settle l' t | None => None end
  end.

(** after the events [es], exactly the blocks [l] are in use *)
Definition in_use (es : list event) (l : list (nat * nat)) : Prop :=
  exists l', settle [] es = Some l' /\ Permutation l' l.

(** an allocator chooses addresses depending on everything that happened, never that
    of a block in use *)
Definition allocator (place : list event -> nat) : Prop :=
  forall es l, in_use es l -> ~ In (place es) (map fst l).

(** the number of blocks requested *)
Definition requests (es : list event) : nat :=
  length (filter (fun e => match e with Take _ => true | Give _ => false end) es).

(** the room in use *)
Definition room (l : list (nat * nat)) : nat := fold_right (fun b n => snd b + n) 0 l.

(** the most room in use at any time *)
Fixpoint peak (l : list (nat * nat)) (es : list event) : nat :=
  match es with
  | [] => room l
  | Take b :: t => Nat.max (room l) (peak (b :: l) t)
  | Give b :: t => Nat.max (room l) (match without b l with Some l' => peak l' t | None => 0 end)
  end.

(** a growth strategy: a full vector gets more room, within the limit *)
Definition growing (max : nat) (grow : nat -> nat) : Prop := forall n, n < max -> n < grow n <= max.
