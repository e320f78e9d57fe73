(** Model of src/interval (bounds.rs, interval.rs, interval_cmp.rs,
    interval_math.rs).

    The element type is an arbitrary type [T] with one three-way comparison
    [cmp].  Simplifications: [T]'s [PartialEq], [PartialOrd] and [Ord] are
    assumed consistent with one another, as the standard library demands, so
    [==], [<], [<=], [>], [>=] on values are all read off [cmp]; comparisons do
    not panic; references and values are identified; [Clone] returns the same
    value. *)
From Coq Require Import String Ascii.
From Verif Require Import Base.
Set Implicit Arguments.

(** bounds.rs 11-15 *)
Record bound (T : Type) := Bound { bval : T; bclosed : bool }.
(** bounds.rs 149-152 *)
Record lower (T : Type) := Lower { lbound : bound T }.
(** bounds.rs 488-491 *)
Record upper (T : Type) := Upper { ubound : bound T }.
(** interval.rs 12-16 *)
Record nonempty (T : Type) := NonEmpty { lo : lower T; up : upper T }.
(** interval.rs 73-76 *)
Record interval (T : Type) := Interval { imp : option (nonempty T) }.

(** bounds.rs 193-197 and 34-39 *)
Definition lower_new {T} (v : T) (c : bool) : lower T := Lower (Bound v c).
(** bounds.rs 213-215 and 22-24 *)
Definition lval {T} (l : lower T) : T := bval (lbound l).
(** bounds.rs 231-233 and 29-31 *)
Definition lclosed {T} (l : lower T) : bool := bclosed (lbound l).
(** bounds.rs 255-257 and 42-44 *)
Definition lower_into_tuple {T} (l : lower T) : T * bool := (bval (lbound l), bclosed (lbound l)).
(** bounds.rs 553-557 and 34-39 *)
Definition upper_new {T} (v : T) (c : bool) : upper T := Upper (Bound v c).
(** bounds.rs 515-517 *)
Definition uval {T} (u : upper T) : T := bval (ubound u).
(** bounds.rs 533-535 *)
Definition uclosed {T} (u : upper T) : bool := bclosed (ubound u).
(** bounds.rs 575-577 *)
Definition upper_into_tuple {T} (u : upper T) : T * bool := (bval (ubound u), bclosed (ubound u)).
(** bounds.rs 235-237 (mem::swap of the inner bounds) *)
Definition swap_bounds {T} (l : lower T) (u : upper T) : lower T * upper T :=
  (Lower (ubound u), Upper (lbound l)).

Section Cmp.
Variable T : Type.
Variable cmp : T -> T -> comparison.

(** [<] on elements, as used in bounds.rs 366-387 and interval.rs 125-140 *)
Definition vlt x y := match cmp x y with Lt => true | _ => false end.
(** [>] on elements, as used in bounds.rs 366-387 and interval.rs 125-140 *)
Definition vgt x y := match cmp x y with Gt => true | _ => false end.
(** [<=] on elements, as used in bounds.rs 366-387 and interval.rs 125-140 *)
Definition vle x y := match cmp x y with Gt => false | _ => true end.
(** [>=] on elements, as used in bounds.rs 366-387 and interval.rs 125-140 *)
Definition vge x y := match cmp x y with Lt => false | _ => true end.
(** [==] on elements, as used in bounds.rs 366-387 and interval.rs 125-140 *)
Definition veq x y := match cmp x y with Eq => true | _ => false end.

(** *** Bounds: comparison *)

(** bounds.rs 149 (derived PartialEq of LowerBound and, 11, of Bound) *)
Definition lower_eq (a b : lower T) : bool := veq (lval a) (lval b) && Bool.eqb (lclosed a) (lclosed b).
(** bounds.rs 266-284 *)
Definition lower_cmp (a b : lower T) : comparison :=
  match cmp (lval a) (lval b) with
  | Gt => Gt
  | Lt => Lt
  | Eq => if Bool.eqb (lclosed a) (lclosed b) then Eq else if lclosed a then Lt else Gt
  end.
(** bounds.rs 286-304 *)
Definition lower_partial_cmp (a b : lower T) : option comparison :=
  match cmp (lval a) (lval b) with
  | Gt => Some Gt
  | Lt => Some Lt
  | Eq => if Bool.eqb (lclosed a) (lclosed b) then Some Eq else if lclosed a then Some Lt else Some Gt
  end.
(** std: provided method lt of PartialOrd, from bounds.rs 286-304 *)
Definition lower_lt a b := match lower_partial_cmp a b with Some Lt => true | _ => false end.
(** std: provided method le of PartialOrd, from bounds.rs 286-304 *)
Definition lower_le a b := match lower_partial_cmp a b with Some Lt | Some Eq => true | _ => false end.
(** std: provided method gt of PartialOrd, from bounds.rs 286-304 *)
Definition lower_gt a b := match lower_partial_cmp a b with Some Gt => true | _ => false end.
(** std: provided method ge of PartialOrd, from bounds.rs 286-304 *)
Definition lower_ge a b := match lower_partial_cmp a b with Some Gt | Some Eq => true | _ => false end.
(** std: provided method min of Ord, from bounds.rs 266-284; keeps the receiver on equality *)
Definition lower_min a b := match lower_cmp a b with Gt => b | _ => a end.
(** std: provided method max of Ord, from bounds.rs 266-284; takes the argument on equality *)
Definition lower_max a b := match lower_cmp a b with Gt => a | _ => b end.

(** bounds.rs 488 (derived PartialEq) *)
Definition upper_eq (a b : upper T) : bool := veq (uval a) (uval b) && Bool.eqb (uclosed a) (uclosed b).
(** bounds.rs 581-599 *)
Definition upper_cmp (a b : upper T) : comparison :=
  match cmp (uval a) (uval b) with
  | Gt => Gt
  | Lt => Lt
  | Eq => if Bool.eqb (uclosed a) (uclosed b) then Eq else if uclosed a then Gt else Lt
  end.
(** bounds.rs 607-625 *)
Definition upper_partial_cmp (a b : upper T) : option comparison :=
  match cmp (uval a) (uval b) with
  | Gt => Some Gt
  | Lt => Some Lt
  | Eq => if Bool.eqb (uclosed a) (uclosed b) then Some Eq else if uclosed a then Some Gt else Some Lt
  end.
(** std: provided method lt of PartialOrd, from bounds.rs 607-625 *)
Definition upper_lt a b := match upper_partial_cmp a b with Some Lt => true | _ => false end.
(** std: provided method le of PartialOrd, from bounds.rs 607-625 *)
Definition upper_le a b := match upper_partial_cmp a b with Some Lt | Some Eq => true | _ => false end.
(** std: provided method gt of PartialOrd, from bounds.rs 607-625 *)
Definition upper_gt a b := match upper_partial_cmp a b with Some Gt => true | _ => false end.
(** std: provided method ge of PartialOrd, from bounds.rs 607-625 *)
Definition upper_ge a b := match upper_partial_cmp a b with Some Gt | Some Eq => true | _ => false end.
(** std: provided method min of Ord, from bounds.rs 581-599; keeps the receiver on equality *)
Definition upper_min a b := match upper_cmp a b with Gt => b | _ => a end.
(** std: provided method max of Ord, from bounds.rs 581-599; takes the argument on equality *)
Definition upper_max a b := match upper_cmp a b with Gt => a | _ => b end.

(** bounds.rs 317-323 *)
Definition lu_lt (l : lower T) (u : upper T) : bool :=
  match cmp (lval l) (uval u) with Gt => false | Lt => true | Eq => negb (lclosed l) || negb (uclosed u) end.
(** bounds.rs 325-327 *)
Definition lu_le (l : lower T) (u : upper T) : bool := vle (lval l) (uval u).
(** bounds.rs 329-335 *)
Definition lu_gt (l : lower T) (u : upper T) : bool :=
  match cmp (lval l) (uval u) with Gt => true | Lt => false | Eq => negb (lclosed l) || negb (uclosed u) end.
(** bounds.rs 337-339 *)
Definition lu_ge (l : lower T) (u : upper T) : bool := vge (lval l) (uval u).
(** bounds.rs 307-315 *)
Definition lu_partial_cmp l u : option comparison :=
  if lu_lt l u then Some Lt else if lu_gt l u then Some Gt else None.
(** bounds.rs 343-345 *)
Definition lu_eq (_ : lower T) (_ : upper T) : bool := false.
(** bounds.rs 347-349 *)
Definition lu_ne (_ : lower T) (_ : upper T) : bool := false.

(** bounds.rs 638-644 *)
Definition ul_lt (u : upper T) (l : lower T) : bool :=
  match cmp (uval u) (lval l) with Gt => false | Lt => true | Eq => negb (uclosed u) || negb (lclosed l) end.
(** bounds.rs 646-648 *)
Definition ul_le (u : upper T) (l : lower T) : bool := vle (uval u) (lval l).
(** bounds.rs 650-656 *)
Definition ul_gt (u : upper T) (l : lower T) : bool :=
  match cmp (uval u) (lval l) with Gt => true | Lt => false | Eq => negb (uclosed u) || negb (lclosed l) end.
(** bounds.rs 658-660 *)
Definition ul_ge (u : upper T) (l : lower T) : bool := vge (uval u) (lval l).
(** bounds.rs 628-636 *)
Definition ul_partial_cmp u l : option comparison :=
  if ul_lt u l then Some Lt else if ul_gt u l then Some Gt else None.
(** bounds.rs 664-666 *)
Definition ul_eq (_ : upper T) (_ : lower T) : bool := false.
(** bounds.rs 668-670 *)
Definition ul_ne (_ : upper T) (_ : lower T) : bool := false.

(** bounds.rs 354-364 *)
Definition lv_partial_cmp (l : lower T) (v : T) : option comparison :=
  match cmp (lval l) v with
  | Gt => Some Gt | Lt => Some Lt | Eq => if lclosed l then Some Eq else Some Gt
  end.
(** bounds.rs 366-368 *)
Definition lv_lt (l : lower T) (v : T) : bool := vlt (lval l) v.
(** bounds.rs 370-372 *)
Definition lv_le (l : lower T) (v : T) : bool := vlt (lval l) v || veq (lval l) v && lclosed l.
(** bounds.rs 374-376 *)
Definition lv_gt (l : lower T) (v : T) : bool := vgt (lval l) v || veq (lval l) v && negb (lclosed l).
(** bounds.rs 378-380 *)
Definition lv_ge (l : lower T) (v : T) : bool := vge (lval l) v.
(** bounds.rs 384-386 *)
Definition lv_eq (l : lower T) (v : T) : bool := veq (lval l) v && lclosed l.

(** bounds.rs 674-684 *)
Definition uv_partial_cmp (u : upper T) (v : T) : option comparison :=
  match cmp (uval u) v with
  | Gt => Some Gt | Lt => Some Lt | Eq => if uclosed u then Some Eq else Some Lt
  end.
(** bounds.rs 686-688 *)
Definition uv_lt (u : upper T) (v : T) : bool := vlt (uval u) v || veq (uval u) v && negb (uclosed u).
(** bounds.rs 690-692 *)
Definition uv_le (u : upper T) (v : T) : bool := vle (uval u) v.
(** bounds.rs 694-696 *)
Definition uv_gt (u : upper T) (v : T) : bool := vgt (uval u) v.
(** bounds.rs 698-700 *)
Definition uv_ge (u : upper T) (v : T) : bool := vgt (uval u) v || veq (uval u) v && uclosed u.
(** bounds.rs 704-706 *)
Definition uv_eq (u : upper T) (v : T) : bool := veq (uval u) v && uclosed u.

(** bounds.rs 779-781 *)
Definition are_separated (l : lower T) (u : upper T) : bool :=
  vgt (lval l) (uval u) || (veq (uval u) (lval l) && negb (uclosed u) && negb (lclosed l)).
(** bounds.rs 172-174 *)
Definition lower_is_separated_from (l : lower T) (u : upper T) : bool := are_separated l u.
(** bounds.rs 511-513 *)
Definition upper_is_separated_from (u : upper T) (l : lower T) : bool := are_separated l u.

(** *** Interval: construction and destruction *)

(** interval.rs 125-140 *)
Definition create_checked (l : T) (lc : bool) (u : T) (uc : bool) : outcome (interval T) :=
  if vgt l u then Panic
  else if veq l u && (negb lc || negb uc) then Panic
  else Ret (Interval (Some (NonEmpty (lower_new l lc) (upper_new u uc)))).
(** interval.rs 322-335 *)
Definition fix_after_modification (i : interval T) : interval T :=
  match imp i with
  | Some a =>
      let a := if vgt (lval (lo a)) (uval (up a))
               then let '(l, u) := swap_bounds (lo a) (up a) in NonEmpty l u
               else a in
      if veq (lval (lo a)) (uval (up a)) && (negb (lclosed (lo a)) || negb (uclosed (up a)))
      then Interval None
      else Interval (Some a)
  | None => i
  end.
(** interval.rs 144-152 *)
Definition create_friendly (l : T) (lc : bool) (u : T) (uc : bool) : interval T :=
  fix_after_modification (Interval (Some (NonEmpty (lower_new l lc) (upper_new u uc)))).
(** interval.rs 96-98 *)
Definition iv_new l lc u uc := create_checked l lc u uc.
(** interval.rs 118-122 *)
Definition iv_from_bounds (l : lower T) (u : upper T) : outcome (interval T) :=
  let '(lv, lc) := lower_into_tuple l in
  let '(uv, uc) := upper_into_tuple u in
  create_checked lv lc uv uc.
(** interval.rs 166-173 *)
Definition iv_single (v : T) : interval T := Interval (Some (NonEmpty (lower_new v true) (upper_new v true))).
(** interval.rs 190-192 *)
Definition iv_open l u := create_checked l false u false.
(** interval.rs 209-211 *)
Definition iv_closed l u := create_checked l true u true.
(** interval.rs 228-230 *)
Definition iv_lower_closed l u := create_checked l true u false.
(** interval.rs 247-249 *)
Definition iv_upper_closed l u := create_checked l false u true.
(** interval.rs 264-268 *)
Definition iv_empty : interval T := Interval None.
(** interval.rs 286-295 *)
Definition iv_into_tuple (i : interval T) : option (T * bool * T * bool) :=
  match imp i with
  | None => None
  | Some a =>
      let '(l, lc) := lower_into_tuple (lo a) in
      let '(u, uc) := upper_into_tuple (up a) in
      Some (l, lc, u, uc)
  end.
(** interval.rs 315-320 *)
Definition iv_into_bounds (i : interval T) : option (lower T * upper T) :=
  match imp i with None => None | Some a => Some (lo a, up a) end.

(** *** Interval: accessors *)

(** interval.rs 354-359 *)
Definition iv_upper (i : interval T) : option (upper T) :=
  match imp i with None => None | Some a => Some (up a) end.
(** interval.rs 377-382 *)
Definition iv_lower (i : interval T) : option (lower T) :=
  match imp i with None => None | Some a => Some (lo a) end.
(** interval.rs 402-410 *)
Definition iv_bounds (i : interval T) : option (lower T * upper T) :=
  match imp i with None => None | Some a => Some (lo a, up a) end.
(** interval.rs 426-428 *)
Definition iv_is_empty (i : interval T) : bool := match imp i with None => true | Some _ => false end.
(** interval.rs 443-449 *)
Definition iv_is_single (i : interval T) : bool :=
  match imp i with Some a => veq (lval (lo a)) (uval (up a)) | None => false end.
(** interval.rs 466-471 *)
Definition iv_is_lower_closed (i : interval T) : option bool :=
  match imp i with None => None | Some a => Some (lclosed (lo a)) end.
(** interval.rs 488-493 *)
Definition iv_is_upper_closed (i : interval T) : option bool :=
  match imp i with None => None | Some a => Some (uclosed (up a)) end.

(** *** Interval: comparison *)

(** interval_cmp.rs 21-26 *)
Definition ivv_lt (i : interval T) (v : T) : bool := match iv_upper i with None => false | Some u => uv_lt u v end.
(** interval_cmp.rs 28-33 *)
Definition ivv_le (i : interval T) (v : T) : bool := match iv_upper i with None => false | Some u => uv_le u v end.
(** interval_cmp.rs 35-40 *)
Definition ivv_gt (i : interval T) (v : T) : bool := match iv_lower i with None => false | Some l => lv_gt l v end.
(** interval_cmp.rs 42-47 *)
Definition ivv_ge (i : interval T) (v : T) : bool := match iv_lower i with None => false | Some l => lv_ge l v end.
(** interval_cmp.rs 51-56 *)
Definition ivv_eq (i : interval T) (v : T) : bool :=
  match iv_bounds i with None => false | Some (a, b) => lv_eq a v && uv_eq b v end.
(** interval_cmp.rs 7-19 *)
Definition ivv_partial_cmp (i : interval T) (v : T) : option comparison :=
  if ivv_lt i v then Some Lt
  else if ivv_gt i v then Some Gt
  else if ivv_eq i v then Some Eq else None.

(** interval.rs 73 and 12 (derived PartialEq) *)
Definition iv_eq (a b : interval T) : bool :=
  match imp a, imp b with
  | None, None => true
  | Some x, Some y => lower_eq (lo x) (lo y) && upper_eq (up x) (up y)
  | _, _ => false
  end.
(** interval_cmp.rs 73-81 *)
Definition iv_lt (a b : interval T) : bool :=
  match iv_upper a with
  | None => false
  | Some s => match iv_lower b with None => false | Some o => ul_lt s o end
  end.
(** interval_cmp.rs 83-91 *)
Definition iv_le (a b : interval T) : bool :=
  match iv_upper a with
  | None => false
  | Some s => match iv_lower b with None => false | Some o => ul_le s o end
  end.
(** interval_cmp.rs 93-101 *)
Definition iv_gt (a b : interval T) : bool :=
  match iv_lower a with
  | None => false
  | Some s => match iv_upper b with None => false | Some o => lu_gt s o end
  end.
(** interval_cmp.rs 103-111 *)
Definition iv_ge (a b : interval T) : bool :=
  match iv_lower a with
  | None => false
  | Some s => match iv_upper b with None => false | Some o => lu_ge s o end
  end.
(** interval_cmp.rs 60-71 *)
Definition iv_partial_cmp (a b : interval T) : option comparison :=
  if iv_gt a b then Some Gt
  else if iv_lt a b then Some Lt
  else if iv_eq a b then Some Eq else None.

(** *** Interval: set operations *)

(** interval.rs 511-513 *)
Definition iv_contains_val (i : interval T) (v : T) : bool := negb (ivv_gt i v || ivv_lt i v).
(** interval.rs 529-541 *)
Definition iv_contains_interval (a b : interval T) : bool :=
  match iv_bounds a with
  | None => iv_is_empty b
  | Some (l, u) =>
      match iv_bounds b with
      | None => true
      | Some (ol, ou) => lower_le l ol && upper_ge u ou
      end
  end.
(** interval.rs 558-569 *)
Definition iv_can_be_merged (a b : interval T) : bool :=
  match iv_bounds a with
  | None => true
  | Some (l, u) =>
      match iv_bounds b with
      | None => true
      | Some (ol, ou) => negb (upper_is_separated_from u ol || upper_is_separated_from ou l)
      end
  end.

(** std: Option::unwrap *)
Definition unwrap {A} (o : option A) : outcome A := match o with Some a => Ret a | None => Panic end.

(** interval.rs 587-602.  [inl i] is [Ok(i)], [inr (a, b)] is [Err((a, b))]. *)
Definition iv_into_merged (a b : interval T) : outcome (interval T + interval T * interval T) :=
  if negb (iv_can_be_merged a b) then Ret (inr (a, b))
  else if iv_is_empty b then Ret (inl a)
  else if iv_is_empty a then Ret (inl b)
  else obind (unwrap (iv_into_bounds a)) (fun '(l1, u1) =>
       obind (unwrap (iv_into_bounds b)) (fun '(l2, u2) =>
       obind (iv_from_bounds (lower_min l1 l2) (upper_max u1 u2)) (fun i => Ret (inl i)))).
(** interval.rs 619-642.  Returns the receiver left behind and the result:
    [inl tt] is [Ok(())], [inr b] is [Err(b)].  The argument is consumed, so
    what the swaps leave in it is dropped. *)
Definition iv_merge (a b : interval T) : interval T * (unit + interval T) :=
  if negb (iv_can_be_merged a b) then (a, inr b)
  else match imp a with
  | None => (b, inl tt)
  | Some s =>
      match imp b with
      | None => (a, inl tt)
      | Some o =>
          let l := if lower_lt (lo o) (lo s) then lo o else lo s in
          let u := if upper_gt (up o) (up s) then up o else up s in
          (Interval (Some (NonEmpty l u)), inl tt)
      end
  end.
(** interval.rs 660-662 *)
Definition iv_intersects (a b : interval T) : bool := negb (iv_gt a b || iv_lt a b).
(** interval.rs 678-692 *)
Definition iv_into_intersection (a b : interval T) : outcome (interval T) :=
  if iv_is_empty a then Ret a
  else if iv_is_empty b then Ret b
  else if negb (iv_intersects a b) then Ret iv_empty
  else obind (unwrap (iv_into_bounds a)) (fun '(l1, u1) =>
       obind (unwrap (iv_into_bounds b)) (fun '(l2, u2) =>
       iv_from_bounds (lower_max l1 l2) (upper_min u1 u2))).
(** interval.rs 709-725: the receiver left behind *)
Definition iv_intersection (a b : interval T) : outcome (interval T) :=
  if iv_is_empty a || iv_is_empty b || iv_gt a b || iv_lt a b then Ret (Interval None)
  else obind (unwrap (imp a)) (fun s =>
       obind (unwrap (imp b)) (fun o =>
       let l := if lower_lt (lo s) (lo o) then lo o else lo s in
       let u := if upper_gt (up s) (up o) then up o else up s in
       Ret (Interval (Some (NonEmpty l u))))).
(** interval.rs 742-753 *)
Definition iv_into_span (a b : interval T) : outcome (interval T) :=
  if iv_is_empty b then Ret a
  else if iv_is_empty a then Ret b
  else obind (unwrap (iv_into_bounds a)) (fun '(l1, u1) =>
       obind (unwrap (iv_into_bounds b)) (fun '(l2, u2) =>
       iv_from_bounds (lower_min l1 l2) (upper_max u1 u2))).
(** interval.rs 770-789: the receiver left behind *)
Definition iv_span (a b : interval T) : outcome (interval T) :=
  if iv_is_empty b then Ret a
  else if iv_is_empty a then Ret b
  else obind (unwrap (imp a)) (fun s =>
       obind (unwrap (imp b)) (fun o =>
       let l := if lower_lt (lo o) (lo s) then lo o else lo s in
       let u := if upper_gt (up o) (up s) then up o else up s in
       Ret (Interval (Some (NonEmpty l u))))).

(** *** Arithmetic

    The element operators are arbitrary functions that may panic.  [x op y] is
    [op x y : outcome T]; [x op= y] is [opa x y], the value left in [x] together
    with the outcome. *)
Section Math.
Variable U : Type.

(** bounds.rs 51-60 *)
Definition bound_add (add : T -> U -> outcome T) (b : bound T) (k : U) : outcome (bound T) :=
  obind (add (bval b) k) (fun v => Ret (Bound v (bclosed b))).
(** bounds.rs 62-71 *)
Definition bound_sub (sub : T -> U -> outcome T) (b : bound T) (k : U) : outcome (bound T) :=
  obind (sub (bval b) k) (fun v => Ret (Bound v (bclosed b))).
(** bounds.rs 73-82 *)
Definition bound_mul (mul : T -> U -> outcome T) (b : bound T) (k : U) : outcome (bound T) :=
  obind (mul (bval b) k) (fun v => Ret (Bound v (bclosed b))).
(** bounds.rs 84-93 *)
Definition bound_div (div : T -> U -> outcome T) (b : bound T) (k : U) : outcome (bound T) :=
  obind (div (bval b) k) (fun v => Ret (Bound v (bclosed b))).
(** bounds.rs 95-99 *)
Definition bound_add_assign (adda : T -> U -> T * outcome unit) (b : bound T) (k : U) : bound T * outcome unit :=
  let '(v, o) := adda (bval b) k in (Bound v (bclosed b), o).
(** bounds.rs 101-105 *)
Definition bound_sub_assign (suba : T -> U -> T * outcome unit) (b : bound T) (k : U) : bound T * outcome unit :=
  let '(v, o) := suba (bval b) k in (Bound v (bclosed b), o).
(** bounds.rs 107-111 *)
Definition bound_mul_assign (mula : T -> U -> T * outcome unit) (b : bound T) (k : U) : bound T * outcome unit :=
  let '(v, o) := mula (bval b) k in (Bound v (bclosed b), o).
(** bounds.rs 113-117 *)
Definition bound_div_assign (diva : T -> U -> T * outcome unit) (b : bound T) (k : U) : bound T * outcome unit :=
  let '(v, o) := diva (bval b) k in (Bound v (bclosed b), o).

(** bounds.rs 393-401 *)
Definition lower_add add (l : lower T) (k : U) := omap (@Lower T) (bound_add add (lbound l) k).
(** bounds.rs 409-417 *)
Definition lower_sub sub (l : lower T) (k : U) := omap (@Lower T) (bound_sub sub (lbound l) k).
(** bounds.rs 425-433 *)
Definition lower_mul mul (l : lower T) (k : U) := omap (@Lower T) (bound_mul mul (lbound l) k).
(** bounds.rs 441-449 *)
Definition lower_div div (l : lower T) (k : U) := omap (@Lower T) (bound_div div (lbound l) k).
(** bounds.rs 403-407 *)
Definition lower_add_assign adda (l : lower T) (k : U) :=
  let '(b, o) := bound_add_assign adda (lbound l) k in (Lower b, o).
(** bounds.rs 419-423 *)
Definition lower_sub_assign suba (l : lower T) (k : U) :=
  let '(b, o) := bound_sub_assign suba (lbound l) k in (Lower b, o).
(** bounds.rs 435-439 *)
Definition lower_mul_assign mula (l : lower T) (k : U) :=
  let '(b, o) := bound_mul_assign mula (lbound l) k in (Lower b, o).
(** bounds.rs 451-455 *)
Definition lower_div_assign diva (l : lower T) (k : U) :=
  let '(b, o) := bound_div_assign diva (lbound l) k in (Lower b, o).

(** bounds.rs 713-721 *)
Definition upper_add add (u : upper T) (k : U) := omap (@Upper T) (bound_add add (ubound u) k).
(** bounds.rs 729-737 *)
Definition upper_sub sub (u : upper T) (k : U) := omap (@Upper T) (bound_sub sub (ubound u) k).
(** bounds.rs 745-753 *)
Definition upper_mul mul (u : upper T) (k : U) := omap (@Upper T) (bound_mul mul (ubound u) k).
(** bounds.rs 761-769 *)
Definition upper_div div (u : upper T) (k : U) := omap (@Upper T) (bound_div div (ubound u) k).
(** bounds.rs 723-727 *)
Definition upper_add_assign adda (u : upper T) (k : U) :=
  let '(b, o) := bound_add_assign adda (ubound u) k in (Upper b, o).
(** bounds.rs 739-743 *)
Definition upper_sub_assign suba (u : upper T) (k : U) :=
  let '(b, o) := bound_sub_assign suba (ubound u) k in (Upper b, o).
(** bounds.rs 755-759 *)
Definition upper_mul_assign mula (u : upper T) (k : U) :=
  let '(b, o) := bound_mul_assign mula (ubound u) k in (Upper b, o).
(** bounds.rs 771-775 *)
Definition upper_div_assign diva (u : upper T) (k : U) :=
  let '(b, o) := bound_div_assign diva (ubound u) k in (Upper b, o).

(** interval_math.rs 4-19 *)
Definition iv_add add (i : interval T) (k : U) : outcome (interval T) :=
  match imp i with
  | Some a =>
      obind (upper_add add (up a) k) (fun u =>
      obind (lower_add add (lo a) k) (fun l =>
      Ret (fix_after_modification (Interval (Some (NonEmpty l u))))))
  | None => Ret i
  end.
(** interval_math.rs 33-47 *)
Definition iv_sub sub (i : interval T) (k : U) : outcome (interval T) :=
  match imp i with
  | Some a =>
      obind (upper_sub sub (up a) k) (fun u =>
      obind (lower_sub sub (lo a) k) (fun l =>
      Ret (fix_after_modification (Interval (Some (NonEmpty l u))))))
  | None => Ret i
  end.
(** interval_math.rs 60-74 *)
Definition iv_mul mul (i : interval T) (k : U) : outcome (interval T) :=
  match imp i with
  | Some a =>
      obind (upper_mul mul (up a) k) (fun u =>
      obind (lower_mul mul (lo a) k) (fun l =>
      Ret (fix_after_modification (Interval (Some (NonEmpty l u))))))
  | None => Ret i
  end.
(** interval_math.rs 90-104 *)
Definition iv_div div (i : interval T) (k : U) : outcome (interval T) :=
  match imp i with
  | Some a =>
      obind (upper_div div (up a) k) (fun u =>
      obind (lower_div div (lo a) k) (fun l =>
      Ret (fix_after_modification (Interval (Some (NonEmpty l u))))))
  | None => Ret i
  end.

(** interval_math.rs 22-30: the receiver left behind and the outcome.  The
    second operand has the element type there; nothing in the code depends on
    it. *)
Definition iv_add_assign adda (i : interval T) (k : U) : interval T * outcome unit :=
  match imp i with
  | Some a =>
      let '(l, o1) := lower_add_assign adda (lo a) k in
      match o1 with
      | Ret _ =>
          let '(u, o2) := upper_add_assign adda (up a) k in
          match o2 with
          | Ret _ => (fix_after_modification (Interval (Some (NonEmpty l u))), Ret tt)
          | e => (Interval (Some (NonEmpty l u)), e)
          end
      | e => (Interval (Some (NonEmpty l (up a))), e)
      end
  | None => (fix_after_modification i, Ret tt)
  end.
(** interval_math.rs 49-57 *)
Definition iv_sub_assign suba (i : interval T) (k : U) : interval T * outcome unit :=
  match imp i with
  | Some a =>
      let '(l, o1) := lower_sub_assign suba (lo a) k in
      match o1 with
      | Ret _ =>
          let '(u, o2) := upper_sub_assign suba (up a) k in
          match o2 with
          | Ret _ => (fix_after_modification (Interval (Some (NonEmpty l u))), Ret tt)
          | e => (Interval (Some (NonEmpty l u)), e)
          end
      | e => (Interval (Some (NonEmpty l (up a))), e)
      end
  | None => (fix_after_modification i, Ret tt)
  end.
(** interval_math.rs 77-85 *)
Definition iv_mul_assign mula (i : interval T) (k : U) : interval T * outcome unit :=
  match imp i with
  | Some a =>
      let '(l, o1) := lower_mul_assign mula (lo a) k in
      match o1 with
      | Ret _ =>
          let '(u, o2) := upper_mul_assign mula (up a) k in
          match o2 with
          | Ret _ => (fix_after_modification (Interval (Some (NonEmpty l u))), Ret tt)
          | e => (Interval (Some (NonEmpty l u)), e)
          end
      | e => (Interval (Some (NonEmpty l (up a))), e)
      end
  | None => (fix_after_modification i, Ret tt)
  end.
(** interval_math.rs 107-115 *)
Definition iv_div_assign diva (i : interval T) (k : U) : interval T * outcome unit :=
  match imp i with
  | Some a =>
      let '(l, o1) := lower_div_assign diva (lo a) k in
      match o1 with
      | Ret _ =>
          let '(u, o2) := upper_div_assign diva (up a) k in
          match o2 with
          | Ret _ => (fix_after_modification (Interval (Some (NonEmpty l u))), Ret tt)
          | e => (Interval (Some (NonEmpty l u)), e)
          end
      | e => (Interval (Some (NonEmpty l (up a))), e)
      end
  | None => (fix_after_modification i, Ret tt)
  end.
End Math.

(** interval_math.rs 118-127; [-u] is evaluated before [-l] *)
Definition iv_neg (neg : T -> outcome T) (i : interval T) : outcome (interval T) :=
  match iv_into_tuple i with
  | None => Ret iv_empty
  | Some (l, lc, u, uc) =>
      obind (neg u) (fun u' => obind (neg l) (fun l' => Ret (create_friendly u' uc l' lc)))
  end.

(** interval.rs 806-817.  A string is its UTF-8 bytes: the letter for the empty
    interval is C3 98.  [show] is the element's own Display, assumed not to fail. *)
Definition iv_display (show : T -> string) (i : interval T) : string :=
  match imp i with
  | None => String (ascii_of_nat 195) (String (ascii_of_nat 152) EmptyString)
  | Some a =>
      let l := if lclosed (lo a) then "["%char else "("%char in
      let r := if uclosed (up a) then "]"%char else ")"%char in
      (String l (show (lval (lo a)) ++ "," ++ show (uval (up a)) ++ String r EmptyString))%string
  end.

(** interval.rs 73 and 12, bounds.rs 149, 488, 11 (derived Hash): what is fed to
    the hasher, in order: the discriminant of the option, then the fields.
    [hv] is what an element feeds; a bool feeds one byte. *)
Definition iv_hash (hv : T -> list nat) (i : interval T) : list nat :=
  match imp i with
  | None => [0]
  | Some a => [1] ++ hv (lval (lo a)) ++ [Nat.b2n (lclosed (lo a))] ++ hv (uval (up a)) ++ [Nat.b2n (uclosed (up a))]
  end.
End Cmp.
