(** More of src/interval: the derived [Debug]. *)
From Coq Require Import String Ascii.
From Verif Require Import Base IVModel.
Set Implicit Arguments.

Section Debug.
Variable T : Type.
(** the element's own [Debug] text, assumed not to fail *)
Variable dbg : T -> string.

(** std: [Debug] of [bool] *)
Definition bool_debug (b : bool) : string := if b then "true"%string else "false"%string.

(** bounds.rs 11-15, derived [Debug] (the form [{:?}], likewise below; for
    [{:#?}] see PPModel.v) *)
Definition bound_debug (b : bound T) : string :=
  ("Bound { val: " ++ dbg (bval b) ++ ", is_closed: " ++ bool_debug (bclosed b) ++ " }")%string.

(** bounds.rs 149-152, derived [Debug] *)
Definition lower_debug (l : lower T) : string :=
  ("LowerBound { bound: " ++ bound_debug (lbound l) ++ " }")%string.

(** bounds.rs 488-491, derived [Debug] *)
Definition upper_debug (u : upper T) : string :=
  ("UpperBound { bound: " ++ bound_debug (ubound u) ++ " }")%string.

(** interval.rs 12-16, derived [Debug] *)
Definition nonempty_debug (a : nonempty T) : string :=
  ("NonEmptyInterval { lo: " ++ lower_debug (lo a) ++ ", up: " ++ upper_debug (up a) ++ " }")%string.

(** interval.rs 73-76, derived [Debug] *)
Definition iv_debug (i : interval T) : string :=
  ("Interval { imp: " ++
   match imp i with Some a => "Some(" ++ nonempty_debug a ++ ")" | None => "None" end ++ " }")%string.

End Debug.
