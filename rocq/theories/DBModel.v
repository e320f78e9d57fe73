(** The derived [Debug] of src/counter and src/disjoint_set (the form [{:?}];
    for [{:#?}] see PPModel.v). *)
From Coq Require Import String Ascii Permutation NArith DecimalString.
From Coq Require DecimalNat DecimalN.
From Verif Require Import Base HMModel CTModel DSModel.
From Verif Require CBModel2.
Set Implicit Arguments.

(** std: [Debug] of [usize], decimal digits. *)
Definition usize_debug (n : nat) : string := CBModel2.show_usize n.

(** std: [Debug] of [u32], decimal digits. *)
Definition u32_debug (n : N) : string := NilZero.string_of_uint (N.to_uint n).

(** std: [DebugList]/[DebugMap] put ", " between the items. *)
Fixpoint commas (items : list string) : string :=
  match items with
  | [] => EmptyString
  | [t] => t
  | t :: r => (t ++ ", " ++ commas r)%string
  end.

(** std: [Debug for Vec]. *)
Definition vec_debug {A} (f : A -> string) (v : list A) : string := ("[" ++ commas (map f v) ++ "]")%string.

Section Debug.
Variable K : Type.
(** the element's own [Debug] text, assumed not to fail *)
Variable dbg : K -> string.

(** std: [Debug for HashMap], for [usize] values met in the order [l]. *)
Definition hm_debug (l : hmap K nat) : string :=
  ("{" ++ commas (map (fun e => (dbg (fst e) ++ ": " ++ usize_debug (snd e))%string) l) ++ "}")%string.

(** counter.rs 38-46, derived [Debug]: [t] is a text it may give (the order of
    the entries is that of the hash map). *)
Definition ct_debug (c : counter K) (t : string) : Prop :=
  exists l, iterates (ct_map c) l /\ t = ("Counter { counter: " ++ hm_debug l ++ " }")%string.

(** disjoint_set.rs 10-14, derived [Debug]. *)
Definition data_debug (d : data) : string :=
  ("Data { parent: " ++ usize_debug (parent d) ++ ", rank: " ++ u32_debug (rank d) ++ " }")%string.

(** disjoint_set.rs 104-108, derived [Debug]: [t] is a text it may give. *)
Definition ds_debug (s : dset K) (t : string) : Prop :=
  exists l, iterates (ds_ids s) l /\
    t = ("DisjointSet { ids: " ++ hm_debug l ++ ", data_by_id: " ++ vec_debug data_debug (ds_data s) ++ " }")%string.

End Debug.
