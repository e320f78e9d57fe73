(** Part 3 of the model of hashbrown's table: the keys a lookup compares with,
    for what src/counter/fast_counter.rs:4-12 and
    src/disjoint_set/fast_disjoint_set.rs:4-12 say about speed and safety. *)
From Coq Require Import NArith.
From Verif Require Import Base HMModel HTModel GTModel GTModel2.
Set Implicit Arguments.

Section Asks.
Variables K V : Type.
Variable eqb : K -> K -> bool.
Variable hash : K -> N.
Variable W : nat.
Notation table := (table K V).

(** The keys of one group compared with [k] (behind counter.rs:219): hashbrown's
    [match_byte] leaves those whose control byte agrees, [find] stops at the
    first that is equal. *)
Fixpoint g_asks_in (k : K) (t : table) (bs : list (option nat)) : list K :=
  match bs with
  | [] => []
  | b :: r =>
      match g_at t b with
      | Full k' _ =>
          if N.eqb (g_tag (hash k')) (g_tag (hash k))
          then k' :: if eqb k k' then [] else g_asks_in k t r
          else g_asks_in k t r
      | _ => g_asks_in k t r
      end
  end.

(** The keys compared with [k] by [GTModel.g_seek], in order (behind
    counter.rs:219, disjoint_set.rs:244). *)
Fixpoint g_asks_from (k : K) (t : table) (pos stride fuel : nat) : list K :=
  match fuel with
  | 0 => []
  | S fuel' =>
      let bs := g_group W (length t) pos in
      g_asks_in k t bs ++
      (if existsb (g_matches eqb hash k t) bs then []
       else if existsb (g_is_empty t) bs then []
       else g_asks_from k t ((pos + (stride + W)) mod length t) (stride + W) fuel')
  end.

(** the same for a whole lookup (counter.rs:219, disjoint_set.rs:244) *)
Definition g_asks (k : K) (t : table) : list K :=
  g_asks_from k t (g_start (hash k) (length t)) 0 (length t).
End Asks.

(** The number of comparisons of keys made by pushing [xs] one after the other
    (counter.rs:218-220, 245-247, 316-318): one lookup for each; writing the
    count and putting a new entry compare nothing, nor does the growth. *)
Fixpoint gc_pushes_cost {K} (eqb : K -> K -> bool) (hash : K -> N) (W : nat) (E : machine)
  (xs : list K) (t : table K nat) : nat :=
  match xs with
  | [] => 0
  | x :: r =>
      length (g_asks eqb hash W x t) +
      gc_pushes_cost eqb hash W E r (fst (gc_push eqb hash W E x t))
  end.

(** The same for [make_set] (disjoint_set.rs:162-164, 242-254, 341-343). *)
Fixpoint gd_makes_cost {K} (eqb : K -> K -> bool) (hash : K -> N) (W : nat) (E : machine)
  (xs : list K) (s : tdset K) : nat :=
  match xs with
  | [] => 0
  | x :: r =>
      length (g_asks eqb hash W x (td_ids s)) +
      gd_makes_cost eqb hash W E r (fst (gd_make_set eqb hash W E x s))
  end.
