(** What is printed for the values of the crate, as trees (see [TextSpec]). *)
From Coq Require Import String NArith DecimalString.
From Coq Require DecimalNat DecimalN.
From Verif Require Import Base HMModel IVModel CTModel DSModel TextSpec.
Set Implicit Arguments.
Local Open Scope string_scope.

Definition number (n : nat) : doc := Atom (NilZero.string_of_uint (Nat.to_uint n)).
Definition number_N (n : N) : doc := Atom (NilZero.string_of_uint (N.to_uint n)).

Section Docs.
Variable T : Type.
(** the text of an element *)
Variable el : T -> string.

Definition bound_doc (v : T) (closed : bool) : doc :=
  Record "Bound" [("val", Atom (el v)); ("is_closed", Atom (if closed then "true" else "false"))].
Definition lower_doc (l : lower T) : doc := Record "LowerBound" [("bound", bound_doc (lval l) (lclosed l))].
Definition upper_doc (u : upper T) : doc := Record "UpperBound" [("bound", bound_doc (uval u) (uclosed u))].
Definition iv_doc (i : interval T) : doc :=
  Record "Interval" [("imp",
    match imp i with
    | None => Atom "None"
    | Some a => Variant "Some" [Record "NonEmptyInterval" [("lo", lower_doc (lo a)); ("up", upper_doc (up a))]]
    end)].

Definition map_doc (l : list (T * nat)) : doc := Dict (map (fun e => (Atom (el (fst e)), number (snd e))) l).
(** the entries in the order [l] *)
Definition ct_doc (l : list (T * nat)) : doc := Record "Counter" [("counter", map_doc l)].
Definition data_doc (d : data) : doc := Record "Data" [("parent", number (parent d)); ("rank", number_N (rank d))].
Definition ds_doc (l : list (T * nat)) (v : list data) : doc :=
  Record "DisjointSet" [("ids", map_doc l); ("data_by_id", Array (map data_doc v))].
End Docs.
