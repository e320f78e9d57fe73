(** Part 2 of the model of hash tables: the keys a lookup compares with, for
    what src/counter/fast_counter.rs:4-12 and
    src/disjoint_set/fast_disjoint_set.rs:4-12 say about speed and safety; and
    comparison and cloning of counters with hash functions of their own. *)
From Coq Require Import NArith.
From Verif Require Import Base HMModel HTModel.
Set Implicit Arguments.

Section Model.
Variables K V : Type.
Variable eqb : K -> K -> bool.
Variable hash : K -> N.
Variable P : scheme.
Variable E : machine.

(** The stored keys compared with [k] by [HTModel.ht_seek], in order
    (behind counter.rs:219, disjoint_set.rs:244).  Simplification: std compares
    7 bits of the hash values first and the keys only if these agree; keys with
    equal hash values are always compared. *)
Fixpoint ht_asks_from (k : K) (t : table K V) (i fuel : nat) : list K :=
  match fuel with
  | 0 => []
  | S fuel' =>
      match nth_error t (probe P (hash k) (length t) i) with
      | Some (Full k' _) => k' :: if eqb k k' then [] else ht_asks_from k t (S i) fuel'
      | Some Deleted => ht_asks_from k t (S i) fuel'
      | _ => []
      end
  end.

(** the same for a whole lookup (counter.rs:219, disjoint_set.rs:244) *)
Definition ht_asks (k : K) (t : table K V) : list K := ht_asks_from k t 0 (length t).
End Model.

(** The number of comparisons of keys made by pushing [xs] one after the other
    (counter.rs:218-220, 245-247, 316-318): one lookup for each; writing the
    count and putting a new entry compare nothing, nor does the growth. *)
Fixpoint tc_pushes_cost {K} (eqb : K -> K -> bool) (hash : K -> N) (P : scheme) (E : machine)
  (xs : list K) (t : table K nat) : nat :=
  match xs with
  | [] => 0
  | x :: r =>
      length (ht_asks eqb hash P x t) +
      tc_pushes_cost eqb hash P E r (fst (tc_push eqb hash P E x t))
  end.

(** The same for [make_set] (disjoint_set.rs:162-164, 242-254, 341-343). *)
Fixpoint td_makes_cost {K} (eqb : K -> K -> bool) (hash : K -> N) (P : scheme) (E : machine)
  (xs : list K) (s : tdset K) : nat :=
  match xs with
  | [] => 0
  | x :: r =>
      length (ht_asks eqb hash P x (td_ids s)) +
      td_makes_cost eqb hash P E r (fst (td_make_set eqb hash P E x s))
  end.

(** counter.rs:38 derived [PartialEq], std [PartialEq for HashMap]: the entries
    of the left map are looked up in the right one, with the hash function of
    the right one (with [RandomState] every map has its own). *)
Definition tc_eq {K} (eqb : K -> K -> bool) (hash' : K -> N) (P' : scheme) (t t' : table K nat) : bool :=
  (ht_len t =? ht_len t') &&
  forallb (fun e => match ht_get eqb hash' P' (fst e) t' with
                    | Some n => snd e =? n
                    | None => false
                    end) (ht_entries t).

(** counter.rs:38 derived [Clone]: every slot is cloned where it is, the hash
    function too. *)
Definition tc_clone {K} (cl : K -> K) (t : table K nat) : table K nat :=
  map (fun s => match s with Full k n => Full (cl k) n | _ => s end) t.
