(** Counting the calls of [find_with_path_compression], nested ones included:
    the only unbounded work [union], [in_union] and the iteration do apart from
    hashing. *)
From Coq Require Import Permutation NArith.
From Verif Require Import Base HMModel DSModel DSSpec DSRun.
Set Implicit Arguments.

(** disjoint_set.rs:256-263: the number of nested calls made by
    [find_with_path_compression(v, id)]; the vector is not written before the
    innermost call returns. *)
Fixpoint find_calls (fuel : nat) (v : list data) (id : nat) : nat :=
  match fuel with
  | 0 => 0
  | S fuel' =>
      match vec_at v id with
      | Ret d => if parent d =? id then 1 else S (find_calls fuel' v (parent d))
      | _ => 1
      end
  end.

Section Cost.
Variable K : Type.
Variable eqb : K -> K -> bool.
Variable E : machine.

(** disjoint_set.rs:177, 178, 221, 268: the calls of one search
    ([ds_find_in]). *)
Definition calls_in (id : nat) (s : dset K) : nat :=
  find_calls (S (length (ds_data s))) (ds_data s) id.

(** disjoint_set.rs:177-178 and 221: two searches, one after the other. *)
Definition calls_two (ia ib : nat) (s : dset K) : nat :=
  match ds_find_in ia s with
  | (s1, Ret _) => calls_in ia s + calls_in ib s1
  | _ => calls_in ia s
  end.

(** disjoint_set.rs:267-270: one search per entry. *)
Fixpoint calls_group (l : hmap K nat) (s : dset K) : nat :=
  match l with
  | [] => 0
  | (_, val) :: r =>
      match ds_find_in val s with
      | (s1, Ret _) => calls_in val s + calls_group r s1
      | _ => calls_in val s
      end
  end.

(** The calls made by one call of the interface: disjoint_set.rs:174-194
    [union], 210-222 [in_union], 265-272 [build_sets]; none by the others. *)
Definition op_calls (o : op K) (s : dset K) : nat :=
  match o with
  | OUnion a b =>
      match ds_make_or_get eqb E a s with
      | (s1, Ret ia) =>
          match ds_make_or_get eqb E b s1 with
          | (s2, Ret ib) => calls_two ia ib s2
          | _ => 0
          end
      | _ => 0
      end
  | OInUnion a b =>
      match hm_get eqb a (ds_ids s), hm_get eqb b (ds_ids s) with
      | Some ia, Some ib => calls_two ia ib s
      | _, _ => 0
      end
  | OIter order _ => calls_group (order (ds_ids s)) s
  | _ => 0
  end.

(** The searches asked for by one call of the interface: two for [union]
    (disjoint_set.rs:177-178) and [in_union] (221), one per element for an
    iteration (267-270). *)
Definition op_finds (o : op K) (s : dset K) : nat :=
  match o with
  | OUnion _ _ | OInUnion _ _ => 2
  | OIter _ _ => ds_len s
  | _ => 0
  end.

(** The calls of [union] (disjoint_set.rs:174-194). *)
Definition op_unions (o : op K) : nat := match o with OUnion _ _ => 1 | _ => 0 end.

(** Totals of disjoint_set.rs:256-263 over a history. *)
Fixpoint run_calls (ops : list (op K)) (s : dset K) : nat :=
  match ops with
  | [] => 0
  | o :: ops' => op_calls o s + run_calls ops' (fst (ds_step eqb E o s))
  end.
(** Totals of the searches over a history (disjoint_set.rs:177-178, 221, 268). *)
Fixpoint run_finds (ops : list (op K)) (s : dset K) : nat :=
  match ops with
  | [] => 0
  | o :: ops' => op_finds o s + run_finds ops' (fst (ds_step eqb E o s))
  end.
(** The number of calls of [union] (disjoint_set.rs:174-194) in a history. *)
Definition run_unions (ops : list (op K)) : nat := list_sum (map op_unions ops).

End Cost.
