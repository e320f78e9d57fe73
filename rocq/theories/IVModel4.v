(** More of src/interval: the same calls for elements whose operators need not
    agree.  [T: Ord] brings [cmp], [<], [<=], [>], [>=] and [==], and the
    compiler does not check that they describe one order: a type may well derive
    [==] over all its fields and order by one of them.  The code uses [cmp] in
    some places and the operators in others, so which one it asks matters here.

    What asks [cmp] only is taken from [IVModel]: the bounds among themselves
    ([lower_lt], [lower_min], [lu_gt], ...), [iv_lt], [iv_gt],
    [iv_contains_interval], [iv_intersects], [iv_intersection] and [iv_span].

    Simplifications: no comparison panics; [!=] is the negation of [==]. *)
From Verif Require Import Base IVModel.
Local Open Scope outcome_scope.
Set Implicit Arguments.

(** The comparisons that [T: Ord] supplies, each on its own (std: the traits
    [Ord], [PartialOrd] and [PartialEq] demanded by bounds.rs 12 and interval.rs 75) *)
Record operators (T : Type) := Operators {
  o_cmp : T -> T -> comparison;
  o_lt : T -> T -> bool;
  o_le : T -> T -> bool;
  o_gt : T -> T -> bool;
  o_ge : T -> T -> bool;
  o_eq : T -> T -> bool
}.

Section Ops.
Variable T : Type.
Variable O : operators T.
Notation cmp := (o_cmp O).

(** bounds.rs 149 (derived PartialEq of LowerBound and, 11, of Bound) *)
Definition lower_eq_o (a b : lower T) : bool := o_eq O (lval a) (lval b) && Bool.eqb (lclosed a) (lclosed b).
(** bounds.rs 488 (derived PartialEq) *)
Definition upper_eq_o (a b : upper T) : bool := o_eq O (uval a) (uval b) && Bool.eqb (uclosed a) (uclosed b).
(** bounds.rs 325-327 *)
Definition lu_le_o (l : lower T) (u : upper T) : bool := o_le O (lval l) (uval u).
(** bounds.rs 337-339 *)
Definition lu_ge_o (l : lower T) (u : upper T) : bool := o_ge O (lval l) (uval u).
(** bounds.rs 646-648 *)
Definition ul_le_o (u : upper T) (l : lower T) : bool := o_le O (uval u) (lval l).
(** bounds.rs 658-660 *)
Definition ul_ge_o (u : upper T) (l : lower T) : bool := o_ge O (uval u) (lval l).
(** bounds.rs 366-368 *)
Definition lv_lt_o (l : lower T) (v : T) : bool := o_lt O (lval l) v.
(** bounds.rs 370-372 *)
Definition lv_le_o (l : lower T) (v : T) : bool := o_lt O (lval l) v || o_eq O (lval l) v && lclosed l.
(** bounds.rs 374-376 *)
Definition lv_gt_o (l : lower T) (v : T) : bool := o_gt O (lval l) v || o_eq O (lval l) v && negb (lclosed l).
(** bounds.rs 378-380 *)
Definition lv_ge_o (l : lower T) (v : T) : bool := o_ge O (lval l) v.
(** bounds.rs 384-386 *)
Definition lv_eq_o (l : lower T) (v : T) : bool := o_eq O (lval l) v && lclosed l.
(** bounds.rs 686-688 *)
Definition uv_lt_o (u : upper T) (v : T) : bool := o_lt O (uval u) v || o_eq O (uval u) v && negb (uclosed u).
(** bounds.rs 690-692 *)
Definition uv_le_o (u : upper T) (v : T) : bool := o_le O (uval u) v.
(** bounds.rs 694-696 *)
Definition uv_gt_o (u : upper T) (v : T) : bool := o_gt O (uval u) v.
(** bounds.rs 698-700 *)
Definition uv_ge_o (u : upper T) (v : T) : bool := o_gt O (uval u) v || o_eq O (uval u) v && uclosed u.
(** bounds.rs 704-706 *)
Definition uv_eq_o (u : upper T) (v : T) : bool := o_eq O (uval u) v && uclosed u.
(** bounds.rs 779-781, called from 172-174 and 511-513 *)
Definition are_separated_o (l : lower T) (u : upper T) : bool :=
  o_gt O (lval l) (uval u) || (o_eq O (uval u) (lval l) && negb (uclosed u) && negb (lclosed l)).

(** interval.rs 125-140; [new], [open], [closed], [lower_closed] and
    [upper_closed] (96-98, 190-192, 209-211, 228-230, 247-249) only choose the
    flags *)
Definition create_checked_o (l : T) (lc : bool) (u : T) (uc : bool) : outcome (interval T) :=
  if o_gt O l u then Panic
  else if o_eq O l u && (negb lc || negb uc) then Panic
  else Ret (Interval (Some (NonEmpty (lower_new l lc) (upper_new u uc)))).
(** interval.rs 322-335 *)
Definition fix_after_modification_o (i : interval T) : interval T :=
  match imp i with
  | Some a =>
      let a := if o_gt O (lval (lo a)) (uval (up a))
               then let '(l, u) := swap_bounds (lo a) (up a) in NonEmpty l u
               else a in
      if o_eq O (lval (lo a)) (uval (up a)) && (negb (lclosed (lo a)) || negb (uclosed (up a)))
      then Interval None
      else Interval (Some a)
  | None => i
  end.
(** interval.rs 144-152 *)
Definition create_friendly_o (l : T) (lc : bool) (u : T) (uc : bool) : interval T :=
  fix_after_modification_o (Interval (Some (NonEmpty (lower_new l lc) (upper_new u uc)))).
(** interval.rs 118-122 *)
Definition iv_from_bounds_o (l : lower T) (u : upper T) : outcome (interval T) :=
  let '(lv, lc) := lower_into_tuple l in
  let '(uv, uc) := upper_into_tuple u in
  create_checked_o lv lc uv uc.
(** interval.rs 443-449 *)
Definition iv_is_single_o (i : interval T) : bool :=
  match imp i with Some a => o_eq O (lval (lo a)) (uval (up a)) | None => false end.

(** interval_cmp.rs 21-26 *)
Definition ivv_lt_o (i : interval T) (v : T) : bool := match iv_upper i with None => false | Some u => uv_lt_o u v end.
(** interval_cmp.rs 28-33 *)
Definition ivv_le_o (i : interval T) (v : T) : bool := match iv_upper i with None => false | Some u => uv_le_o u v end.
(** interval_cmp.rs 35-40 *)
Definition ivv_gt_o (i : interval T) (v : T) : bool := match iv_lower i with None => false | Some l => lv_gt_o l v end.
(** interval_cmp.rs 42-47 *)
Definition ivv_ge_o (i : interval T) (v : T) : bool := match iv_lower i with None => false | Some l => lv_ge_o l v end.
(** interval_cmp.rs 51-56 *)
Definition ivv_eq_o (i : interval T) (v : T) : bool :=
  match iv_bounds i with None => false | Some (a, b) => lv_eq_o a v && uv_eq_o b v end.
(** interval_cmp.rs 7-19 *)
Definition ivv_partial_cmp_o (i : interval T) (v : T) : option comparison :=
  if ivv_lt_o i v then Some Lt
  else if ivv_gt_o i v then Some Gt
  else if ivv_eq_o i v then Some Eq else None.
(** interval.rs 73 and 12 (derived PartialEq) *)
Definition iv_eq_o (a b : interval T) : bool :=
  match imp a, imp b with
  | None, None => true
  | Some x, Some y => lower_eq_o (lo x) (lo y) && upper_eq_o (up x) (up y)
  | _, _ => false
  end.
(** interval_cmp.rs 83-91 *)
Definition iv_le_o (a b : interval T) : bool :=
  match iv_upper a with
  | None => false
  | Some s => match iv_lower b with None => false | Some o => ul_le_o s o end
  end.
(** interval_cmp.rs 103-111 *)
Definition iv_ge_o (a b : interval T) : bool :=
  match iv_lower a with
  | None => false
  | Some s => match iv_upper b with None => false | Some o => lu_ge_o s o end
  end.
(** interval_cmp.rs 60-71 *)
Definition iv_partial_cmp_o (a b : interval T) : option comparison :=
  if iv_gt cmp a b then Some Gt
  else if iv_lt cmp a b then Some Lt
  else if iv_eq_o a b then Some Eq else None.

(** interval.rs 511-513 *)
Definition iv_contains_val_o (i : interval T) (v : T) : bool := negb (ivv_gt_o i v || ivv_lt_o i v).
(** interval.rs 558-569 *)
Definition iv_can_be_merged_o (a b : interval T) : bool :=
  match iv_bounds a with
  | None => true
  | Some (l, u) =>
      match iv_bounds b with
      | None => true
      | Some (ol, ou) => negb (are_separated_o ol u || are_separated_o l ou)
      end
  end.
(** interval.rs 587-602 *)
Definition iv_into_merged_o (a b : interval T) : outcome (interval T + interval T * interval T) :=
  if negb (iv_can_be_merged_o a b) then Ret (inr (a, b))
  else if iv_is_empty b then Ret (inl a)
  else if iv_is_empty a then Ret (inl b)
  else obind (unwrap (iv_into_bounds a)) (fun '(l1, u1) =>
       obind (unwrap (iv_into_bounds b)) (fun '(l2, u2) =>
       obind (iv_from_bounds_o (lower_min cmp l1 l2) (upper_max cmp u1 u2)) (fun i => Ret (inl i)))).
(** interval.rs 619-642 *)
Definition iv_merge_o (a b : interval T) : interval T * (unit + interval T) :=
  if negb (iv_can_be_merged_o a b) then (a, inr b)
  else match imp a with
  | None => (b, inl tt)
  | Some s =>
      match imp b with
      | None => (a, inl tt)
      | Some o =>
          let l := if lower_lt cmp (lo o) (lo s) then lo o else lo s in
          let u := if upper_gt cmp (up o) (up s) then up o else up s in
          (Interval (Some (NonEmpty l u)), inl tt)
      end
  end.
(** interval.rs 678-692 *)
Definition iv_into_intersection_o (a b : interval T) : outcome (interval T) :=
  if iv_is_empty a then Ret a
  else if iv_is_empty b then Ret b
  else if negb (iv_intersects cmp a b) then Ret (iv_empty T)
  else obind (unwrap (iv_into_bounds a)) (fun '(l1, u1) =>
       obind (unwrap (iv_into_bounds b)) (fun '(l2, u2) =>
       iv_from_bounds_o (lower_max cmp l1 l2) (upper_min cmp u1 u2))).
(** interval.rs 742-753 *)
Definition iv_into_span_o (a b : interval T) : outcome (interval T) :=
  if iv_is_empty b then Ret a
  else if iv_is_empty a then Ret b
  else obind (unwrap (iv_into_bounds a)) (fun '(l1, u1) =>
       obind (unwrap (iv_into_bounds b)) (fun '(l2, u2) =>
       iv_from_bounds_o (lower_min cmp l1 l2) (upper_max cmp u1 u2))).

Variable U : Type.

(** interval_math.rs 4-19, 33-47, 60-74 and 90-104, which differ in the operator
    only *)
Definition iv_arith_o (lower_op : lower T -> U -> outcome (lower T)) (upper_op : upper T -> U -> outcome (upper T))
  (i : interval T) (k : U) : outcome (interval T) :=
  match imp i with
  | Some a =>
      let* u := upper_op (up a) k in
      let* l := lower_op (lo a) k in
      Ret (fix_after_modification_o (Interval (Some (NonEmpty l u))))
  | None => Ret i
  end.
(** interval_math.rs 4-19 *)
Definition iv_add_o add := iv_arith_o (lower_add add) (upper_add add).
(** interval_math.rs 33-47 *)
Definition iv_sub_o sub := iv_arith_o (lower_sub sub) (upper_sub sub).
(** interval_math.rs 60-74 *)
Definition iv_mul_o mul := iv_arith_o (lower_mul mul) (upper_mul mul).
(** interval_math.rs 90-104 *)
Definition iv_div_o div := iv_arith_o (lower_div div) (upper_div div).
(** interval_math.rs 22-30, 49-57, 77-85 and 107-115, which differ in the
    operator only *)
Definition iv_assign_o (lower_op : lower T -> U -> lower T * outcome unit)
  (upper_op : upper T -> U -> upper T * outcome unit) (i : interval T) (k : U) : interval T * outcome unit :=
  match imp i with
  | Some a =>
      let '(l, o1) := lower_op (lo a) k in
      match o1 with
      | Ret _ =>
          let '(u, o2) := upper_op (up a) k in
          match o2 with
          | Ret _ => (fix_after_modification_o (Interval (Some (NonEmpty l u))), Ret tt)
          | e => (Interval (Some (NonEmpty l u)), e)
          end
      | e => (Interval (Some (NonEmpty l (up a))), e)
      end
  | None => (fix_after_modification_o i, Ret tt)
  end.
(** interval_math.rs 22-30 *)
Definition iv_add_assign_o adda := iv_assign_o (lower_add_assign adda) (upper_add_assign adda).
(** interval_math.rs 49-57 *)
Definition iv_sub_assign_o suba := iv_assign_o (lower_sub_assign suba) (upper_sub_assign suba).
(** interval_math.rs 77-85 *)
Definition iv_mul_assign_o mula := iv_assign_o (lower_mul_assign mula) (upper_mul_assign mula).
(** interval_math.rs 107-115 *)
Definition iv_div_assign_o diva := iv_assign_o (lower_div_assign diva) (upper_div_assign diva).

(** interval_math.rs 118-127 *)
Definition iv_neg_o (neg : T -> outcome T) (i : interval T) : outcome (interval T) :=
  match iv_into_tuple i with
  | None => Ret (iv_empty T)
  | Some (l, lc, u, uc) =>
      let* u' := neg u in
      let* l' := neg l in
      Ret (create_friendly_o u' uc l' lc)
  end.
End Ops.
