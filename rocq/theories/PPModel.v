(** The derived [Debug] of src/interval, src/counter and src/disjoint_set asked
    for with [{:#?}], the form spread over several lines.

    The layout is that of the std builders [DebugStruct], [DebugTuple],
    [DebugList] and [DebugMap] with a comma after every item, as they have been
    since 2019; older ones left out the comma after the last item. *)
From Coq Require Import String Ascii.
From Verif Require Import Base HMModel IVModel IVModel2 CTModel DSModel DBModel.
Set Implicit Arguments.
Local Open Scope string_scope.

(** the character that ends a line *)
Definition lf : string := String "010" EmptyString.

(** std, [PadAdapter::write_str]: four spaces are written before the first
    character of every line; [on_newline] is the adapter's state.  What is written
    in several pieces is one string here, the state carrying over. *)
Fixpoint pad (on_newline : bool) (s : string) : string :=
  match s with
  | EmptyString => EmptyString
  | String c r => (if on_newline then "    " else EmptyString) ++ String c (pad (Ascii.eqb c "010") r)
  end.

(** std: what the builders write for each item, with a new adapter per item *)
Fixpoint padded (items : list string) : string :=
  match items with
  | [] => EmptyString
  | t :: r => pad true (t ++ "," ++ lf) ++ padded r
  end.

(** std, [DebugStruct]: one or more fields with their names and texts *)
Definition struct_pp (name : string) (fields : list (string * string)) : string :=
  name ++ " {" ++ lf ++ padded (map (fun f => fst f ++ ": " ++ snd f) fields) ++ "}".

(** std, [DebugTuple]: one field *)
Definition tuple_pp (name text : string) : string := name ++ "(" ++ lf ++ padded [text] ++ ")".

(** std, [DebugList] and [DebugMap] between their brackets: the first line is
    ended with the first item *)
Definition body_pp (items : list string) : string :=
  match items with [] => EmptyString | _ => lf ++ padded items end.

(** std: [Debug for Vec] *)
Definition vec_pp {A} (f : A -> string) (v : list A) : string := "[" ++ body_pp (map f v) ++ "]".

Section Debug.
Variable T : Type.
(** the element's own text with [{:#?}], assumed not to fail *)
Variable dbg : T -> string.

(** bounds.rs 11-15, derived [Debug]; [bool] prints alike in both forms *)
Definition bound_pp (b : bound T) : string :=
  struct_pp "Bound" [("val", dbg (bval b)); ("is_closed", bool_debug (bclosed b))].

(** bounds.rs 149-152, derived [Debug] *)
Definition lower_pp (l : lower T) : string := struct_pp "LowerBound" [("bound", bound_pp (lbound l))].

(** bounds.rs 488-491, derived [Debug] *)
Definition upper_pp (u : upper T) : string := struct_pp "UpperBound" [("bound", bound_pp (ubound u))].

(** interval.rs 12-16, derived [Debug] *)
Definition nonempty_pp (a : nonempty T) : string :=
  struct_pp "NonEmptyInterval" [("lo", lower_pp (lo a)); ("up", upper_pp (up a))].

(** interval.rs 73-76, derived [Debug] *)
Definition iv_pp (i : interval T) : string :=
  struct_pp "Interval" [("imp", match imp i with Some a => tuple_pp "Some" (nonempty_pp a) | None => "None" end)].

(** std: [Debug for HashMap], for [usize] values met in the order [l]; key and
    value share one adapter.  Numbers print alike in both forms. *)
Definition hm_pp (l : hmap T nat) : string :=
  "{" ++ body_pp (map (fun e => dbg (fst e) ++ ": " ++ usize_debug (snd e)) l) ++ "}".

(** counter.rs 38-46, derived [Debug]: [t] is a text it may give. *)
Definition ct_pp (c : counter T) (t : string) : Prop :=
  exists l, iterates (ct_map c) l /\ t = struct_pp "Counter" [("counter", hm_pp l)].

(** disjoint_set.rs 10-14, derived [Debug]. *)
Definition data_pp (d : data) : string :=
  struct_pp "Data" [("parent", usize_debug (parent d)); ("rank", u32_debug (rank d))].

(** disjoint_set.rs 104-108, derived [Debug]: [t] is a text it may give. *)
Definition ds_pp (s : dset T) (t : string) : Prop :=
  exists l, iterates (ds_ids s) l /\
    t = struct_pp "DisjointSet" [("ids", hm_pp l); ("data_by_id", vec_pp data_pp (ds_data s))].

End Debug.
