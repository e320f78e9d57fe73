(** Part 4 of the model of hashbrown's table: comparison of counters with hash
    functions of their own (cloning copies slot by slot, [HTModel2.tc_clone]:
    hashbrown copies the control bytes and clones every entry where it is). *)
From Coq Require Import NArith.
From Verif Require Import Base HMModel HTModel GTModel.

(** counter.rs:38 derived [PartialEq], std [PartialEq for HashMap]: the entries
    of the left map are looked up in the right one, with the hash function and
    groups of the right one. *)
Definition gc_eq {K} (eqb : K -> K -> bool) (hash' : K -> N) (W' : nat) (t t' : table K nat) : bool :=
  (ht_len t =? ht_len t') &&
  forallb (fun e => match g_get eqb hash' W' (fst e) t' with
                    | Some n => snd e =? n
                    | None => false
                    end) (ht_entries t).
