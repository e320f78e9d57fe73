(** More of src/interval: every call as the questions it asks about its elements.
    A comparison is user code: it may panic, and nothing makes it answer the same
    twice (an element may hold a [Cell], a [RefCell] or read a clock).  A call is
    a [dialog]: it either is over, or asks for one comparison and goes on with
    whatever is answered.  Nothing is assumed about the answers.

    [left] is what the receiver of an in-place call ([&mut self]) holds when the
    comparison panics, which is observable after [catch_unwind].  The other calls
    borrow or consume their operands and have [unit] there.

    Simplifications: references and values are identified (a comparison does not
    change the place of an element; what is inside a [Cell] is part of how it
    answers); destructors of elements do not panic; [!=] asks [==]; a derived
    [==] compares the value of a bound before its flag, as written in the struct
    (some compilers look at the flag first and then ask less). *)
From Verif Require Import Base IVModel.
Local Open Scope outcome_scope.
Set Implicit Arguments.

(** The comparisons that [T: Ord] supplies (std: the traits [Ord], [PartialOrd]
    and [PartialEq] demanded by bounds.rs 12 and interval.rs 75) *)
Inductive kind := KCmp | KLt | KLe | KGt | KGe | KEq.
(** what a comparison answers (std: [cmp] gives an [Ordering], the operators a
    [bool]; bounds.rs 12) *)
Definition answer (k : kind) : Type := match k with KCmp => comparison | _ => bool end.

Section Dialogs.
Variable T : Type.

(** A call in progress (bounds.rs, interval.rs, interval_cmp.rs and
    interval_math.rs all reach the elements through comparisons only) *)
Inductive dialog (S A : Type) : Type :=
| Done (left : S) (r : outcome A)
| Ask (left : S) (k : kind) (x y : T) (next : answer k -> dialog S A).
Arguments Done {S A} left r.
Arguments Ask {S A} left k x y next.

(** a call that only borrows or consumes (interval.rs 96-800: the methods without
    [&mut self]) *)
Definition query (A : Type) := dialog unit A.
(** the value of a block *)
Definition ret {A} (a : A) : query A := Done tt (Ret a).
(** one comparison of two elements *)
Definition ask (k : kind) (x y : T) : query (answer k) := Ask tt k x y (fun a => ret a).
(** [d; f], where the receiver holds [s] as long as [d] lasts *)
Fixpoint then_ {S A B} (s : S) (d : query A) (f : A -> dialog S B) : dialog S B :=
  match d with
  | Done _ (Ret a) => f a
  | Done _ Panic => Done s Panic
  | Done _ Abort => Done s Abort
  | Done _ UB => Done s UB
  | Done _ NoFuel => Done s NoFuel
  | Ask _ k x y next => Ask s k x y (fun a => then_ s (next a) f)
  end.
(** [d; f] in a call without [&mut self] *)
Definition qbind {A B} (d : query A) (f : A -> query B) : query B := then_ tt d f.
Notation "'ask*' x := d 'in' e" := (qbind d (fun x => e)) (at level 200, x ident, d at level 100, e at level 200).
(** [a || b] *)
Definition qor (a b : query bool) : query bool := ask* x := a in if x then ret true else b.
(** [a && b] *)
Definition qand (a b : query bool) : query bool := ask* x := a in if x then b else ret false.
(** [!a] *)
Definition qnot (a : query bool) : query bool := ask* x := a in ret (negb x).

(** *** Bounds *)

(** bounds.rs 149 (derived PartialEq of LowerBound and, 11, of Bound) *)
Definition lower_eq_d (a b : lower T) : query bool :=
  qand (ask KEq (lval a) (lval b)) (ret (Bool.eqb (lclosed a) (lclosed b))).
(** bounds.rs 266-284 *)
Definition lower_cmp_d (a b : lower T) : query comparison :=
  ask* c := ask KCmp (lval a) (lval b) in
  ret match c with
  | Gt => Gt
  | Lt => Lt
  | Eq => if Bool.eqb (lclosed a) (lclosed b) then Eq else if lclosed a then Lt else Gt
  end.
(** bounds.rs 286-304 *)
Definition lower_partial_cmp_d (a b : lower T) : query (option comparison) :=
  ask* c := ask KCmp (lval a) (lval b) in
  ret match c with
  | Gt => Some Gt
  | Lt => Some Lt
  | Eq => if Bool.eqb (lclosed a) (lclosed b) then Some Eq else if lclosed a then Some Lt else Some Gt
  end.
(** std: provided method lt of PartialOrd, from bounds.rs 286-304 *)
Definition lower_lt_d (a b : lower T) : query bool :=
  ask* c := lower_partial_cmp_d a b in ret match c with Some Lt => true | _ => false end.
(** std: provided method le of PartialOrd, from bounds.rs 286-304 *)
Definition lower_le_d (a b : lower T) : query bool :=
  ask* c := lower_partial_cmp_d a b in ret match c with Some Lt | Some Eq => true | _ => false end.
(** std: provided method gt of PartialOrd, from bounds.rs 286-304 *)
Definition lower_gt_d (a b : lower T) : query bool :=
  ask* c := lower_partial_cmp_d a b in ret match c with Some Gt => true | _ => false end.
(** std: provided method ge of PartialOrd, from bounds.rs 286-304 *)
Definition lower_ge_d (a b : lower T) : query bool :=
  ask* c := lower_partial_cmp_d a b in ret match c with Some Gt | Some Eq => true | _ => false end.
(** std: provided method min of Ord, from bounds.rs 266-284 *)
Definition lower_min_d (a b : lower T) : query (lower T) :=
  ask* c := lower_cmp_d a b in ret match c with Gt => b | _ => a end.
(** std: provided method max of Ord, from bounds.rs 266-284 *)
Definition lower_max_d (a b : lower T) : query (lower T) :=
  ask* c := lower_cmp_d a b in ret match c with Gt => a | _ => b end.
(** bounds.rs 488 (derived PartialEq) *)
Definition upper_eq_d (a b : upper T) : query bool :=
  qand (ask KEq (uval a) (uval b)) (ret (Bool.eqb (uclosed a) (uclosed b))).
(** bounds.rs 581-599 *)
Definition upper_cmp_d (a b : upper T) : query comparison :=
  ask* c := ask KCmp (uval a) (uval b) in
  ret match c with
  | Gt => Gt
  | Lt => Lt
  | Eq => if Bool.eqb (uclosed a) (uclosed b) then Eq else if uclosed a then Gt else Lt
  end.
(** bounds.rs 607-625 *)
Definition upper_partial_cmp_d (a b : upper T) : query (option comparison) :=
  ask* c := ask KCmp (uval a) (uval b) in
  ret match c with
  | Gt => Some Gt
  | Lt => Some Lt
  | Eq => if Bool.eqb (uclosed a) (uclosed b) then Some Eq else if uclosed a then Some Gt else Some Lt
  end.
(** std: provided method lt of PartialOrd, from bounds.rs 607-625 *)
Definition upper_lt_d (a b : upper T) : query bool :=
  ask* c := upper_partial_cmp_d a b in ret match c with Some Lt => true | _ => false end.
(** std: provided method le of PartialOrd, from bounds.rs 607-625 *)
Definition upper_le_d (a b : upper T) : query bool :=
  ask* c := upper_partial_cmp_d a b in ret match c with Some Lt | Some Eq => true | _ => false end.
(** std: provided method gt of PartialOrd, from bounds.rs 607-625 *)
Definition upper_gt_d (a b : upper T) : query bool :=
  ask* c := upper_partial_cmp_d a b in ret match c with Some Gt => true | _ => false end.
(** std: provided method ge of PartialOrd, from bounds.rs 607-625 *)
Definition upper_ge_d (a b : upper T) : query bool :=
  ask* c := upper_partial_cmp_d a b in ret match c with Some Gt | Some Eq => true | _ => false end.
(** std: provided method min of Ord, from bounds.rs 581-599 *)
Definition upper_min_d (a b : upper T) : query (upper T) :=
  ask* c := upper_cmp_d a b in ret match c with Gt => b | _ => a end.
(** std: provided method max of Ord, from bounds.rs 581-599 *)
Definition upper_max_d (a b : upper T) : query (upper T) :=
  ask* c := upper_cmp_d a b in ret match c with Gt => a | _ => b end.
(** bounds.rs 317-323 *)
Definition lu_lt_d (a : lower T) (b : upper T) : query bool :=
  ask* c := ask KCmp (lval a) (uval b) in
  ret match c with Gt => false | Lt => true | Eq => negb (lclosed a) || negb (uclosed b) end.
(** bounds.rs 325-327 *)
Definition lu_le_d (a : lower T) (b : upper T) : query bool := ask KLe (lval a) (uval b).
(** bounds.rs 329-335 *)
Definition lu_gt_d (a : lower T) (b : upper T) : query bool :=
  ask* c := ask KCmp (lval a) (uval b) in
  ret match c with Gt => true | Lt => false | Eq => negb (lclosed a) || negb (uclosed b) end.
(** bounds.rs 337-339 *)
Definition lu_ge_d (a : lower T) (b : upper T) : query bool := ask KGe (lval a) (uval b).
(** bounds.rs 307-315 *)
Definition lu_partial_cmp_d (a : lower T) (b : upper T) : query (option comparison) :=
  ask* x := lu_lt_d a b in
  if x then ret (Some Lt)
  else ask* y := lu_gt_d a b in ret (if y then Some Gt else None).
(** bounds.rs 638-644 *)
Definition ul_lt_d (a : upper T) (b : lower T) : query bool :=
  ask* c := ask KCmp (uval a) (lval b) in
  ret match c with Gt => false | Lt => true | Eq => negb (uclosed a) || negb (lclosed b) end.
(** bounds.rs 646-648 *)
Definition ul_le_d (a : upper T) (b : lower T) : query bool := ask KLe (uval a) (lval b).
(** bounds.rs 650-656 *)
Definition ul_gt_d (a : upper T) (b : lower T) : query bool :=
  ask* c := ask KCmp (uval a) (lval b) in
  ret match c with Gt => true | Lt => false | Eq => negb (uclosed a) || negb (lclosed b) end.
(** bounds.rs 658-660 *)
Definition ul_ge_d (a : upper T) (b : lower T) : query bool := ask KGe (uval a) (lval b).
(** bounds.rs 628-636 *)
Definition ul_partial_cmp_d (a : upper T) (b : lower T) : query (option comparison) :=
  ask* x := ul_lt_d a b in
  if x then ret (Some Lt)
  else ask* y := ul_gt_d a b in ret (if y then Some Gt else None).
(** bounds.rs 354-364 *)
Definition lv_partial_cmp_d (l : lower T) (v : T) : query (option comparison) :=
  ask* c := ask KCmp (lval l) v in
  ret match c with Gt => Some Gt | Lt => Some Lt | Eq => if lclosed l then Some Eq else Some Gt end.
(** bounds.rs 366-368 *)
Definition lv_lt_d (l : lower T) (v : T) : query bool := ask KLt (lval l) v.
(** bounds.rs 370-372 *)
Definition lv_le_d (l : lower T) (v : T) : query bool :=
  qor (ask KLt (lval l) v) (qand (ask KEq (lval l) v) (ret (lclosed l))).
(** bounds.rs 374-376 *)
Definition lv_gt_d (l : lower T) (v : T) : query bool :=
  qor (ask KGt (lval l) v) (qand (ask KEq (lval l) v) (ret (negb (lclosed l)))).
(** bounds.rs 378-380 *)
Definition lv_ge_d (l : lower T) (v : T) : query bool := ask KGe (lval l) v.
(** bounds.rs 384-386 *)
Definition lv_eq_d (l : lower T) (v : T) : query bool := qand (ask KEq (lval l) v) (ret (lclosed l)).
(** bounds.rs 674-684 *)
Definition uv_partial_cmp_d (u : upper T) (v : T) : query (option comparison) :=
  ask* c := ask KCmp (uval u) v in
  ret match c with Gt => Some Gt | Lt => Some Lt | Eq => if uclosed u then Some Eq else Some Lt end.
(** bounds.rs 686-688 *)
Definition uv_lt_d (u : upper T) (v : T) : query bool :=
  qor (ask KLt (uval u) v) (qand (ask KEq (uval u) v) (ret (negb (uclosed u)))).
(** bounds.rs 690-692 *)
Definition uv_le_d (u : upper T) (v : T) : query bool := ask KLe (uval u) v.
(** bounds.rs 694-696 *)
Definition uv_gt_d (u : upper T) (v : T) : query bool := ask KGt (uval u) v.
(** bounds.rs 698-700 *)
Definition uv_ge_d (u : upper T) (v : T) : query bool :=
  qor (ask KGt (uval u) v) (qand (ask KEq (uval u) v) (ret (uclosed u))).
(** bounds.rs 704-706 *)
Definition uv_eq_d (u : upper T) (v : T) : query bool := qand (ask KEq (uval u) v) (ret (uclosed u)).
(** bounds.rs 779-781, called from 172-174 and 511-513 *)
Definition are_separated_d (l : lower T) (u : upper T) : query bool :=
  qor (ask KGt (lval l) (uval u))
      (qand (ask KEq (uval u) (lval l)) (ret (negb (uclosed u) && negb (lclosed l)))).

(** *** Intervals: construction *)

(** interval.rs 125-140; [new], [open], [closed], [lower_closed] and
    [upper_closed] (96-98, 190-192, 209-211, 228-230, 247-249) only choose the
    flags *)
Definition create_checked_d (l : T) (lc : bool) (u : T) (uc : bool) : query (interval T) :=
  ask* g := ask KGt l u in
  if g then Done tt Panic
  else ask* e := qand (ask KEq l u) (ret (negb lc || negb uc)) in
       if e then Done tt Panic
       else ret (Interval (Some (NonEmpty (lower_new l lc) (upper_new u uc)))).
(** interval.rs 322-335 *)
Definition fix_after_modification_d (i : interval T) : dialog (interval T) unit :=
  match imp i with
  | Some a =>
      then_ i (ask KGt (lval (lo a)) (uval (up a))) (fun g =>
      let a := if g then let '(l, u) := swap_bounds (lo a) (up a) in NonEmpty l u else a in
      then_ (Interval (Some a))
        (qand (ask KEq (lval (lo a)) (uval (up a))) (ret (negb (lclosed (lo a)) || negb (uclosed (up a))))) (fun e =>
      Done (if e then Interval None else Interval (Some a)) (Ret tt)))
  | None => Done i (Ret tt)
  end.
(** what is left in a local of a call that owns it (interval.rs 144-152,
    interval_math.rs 4-104): nobody sees it when the call is interrupted *)
Fixpoint local (d : dialog (interval T) unit) : query (interval T) :=
  match d with
  | Done i (Ret _) => Done tt (Ret i)
  | Done _ Panic => Done tt Panic
  | Done _ Abort => Done tt Abort
  | Done _ UB => Done tt UB
  | Done _ NoFuel => Done tt NoFuel
  | Ask _ k x y next => Ask tt k x y (fun a => local (next a))
  end.
(** interval.rs 144-152 *)
Definition create_friendly_d (l : T) (lc : bool) (u : T) (uc : bool) : query (interval T) :=
  local (fix_after_modification_d (Interval (Some (NonEmpty (lower_new l lc) (upper_new u uc))))).
(** interval.rs 118-122 *)
Definition iv_from_bounds_d (l : lower T) (u : upper T) : query (interval T) :=
  let '(lv, lc) := lower_into_tuple l in
  let '(uv, uc) := upper_into_tuple u in
  create_checked_d lv lc uv uc.
(** interval.rs 443-449 *)
Definition iv_is_single_d (i : interval T) : query bool :=
  match imp i with Some a => ask KEq (lval (lo a)) (uval (up a)) | None => ret false end.

(** *** Intervals: comparison *)

(** interval_cmp.rs 21-26 *)
Definition ivv_lt_d (i : interval T) (v : T) : query bool :=
  match iv_upper i with None => ret false | Some u => uv_lt_d u v end.
(** interval_cmp.rs 28-33 *)
Definition ivv_le_d (i : interval T) (v : T) : query bool :=
  match iv_upper i with None => ret false | Some u => uv_le_d u v end.
(** interval_cmp.rs 35-40 *)
Definition ivv_gt_d (i : interval T) (v : T) : query bool :=
  match iv_lower i with None => ret false | Some l => lv_gt_d l v end.
(** interval_cmp.rs 42-47 *)
Definition ivv_ge_d (i : interval T) (v : T) : query bool :=
  match iv_lower i with None => ret false | Some l => lv_ge_d l v end.
(** interval_cmp.rs 51-56 *)
Definition ivv_eq_d (i : interval T) (v : T) : query bool :=
  match iv_bounds i with None => ret false | Some (a, b) => qand (lv_eq_d a v) (uv_eq_d b v) end.
(** interval_cmp.rs 7-19 *)
Definition ivv_partial_cmp_d (i : interval T) (v : T) : query (option comparison) :=
  ask* x := ivv_lt_d i v in
  if x then ret (Some Lt)
  else ask* y := ivv_gt_d i v in
       if y then ret (Some Gt)
       else ask* z := ivv_eq_d i v in ret (if z then Some Eq else None).
(** interval.rs 73 and 12 (derived PartialEq) *)
Definition iv_eq_d (a b : interval T) : query bool :=
  match imp a, imp b with
  | None, None => ret true
  | Some x, Some y => qand (lower_eq_d (lo x) (lo y)) (upper_eq_d (up x) (up y))
  | _, _ => ret false
  end.
(** interval_cmp.rs 73-81 *)
Definition iv_lt_d (a b : interval T) : query bool :=
  match iv_upper a with
  | None => ret false
  | Some s => match iv_lower b with None => ret false | Some o => ul_lt_d s o end
  end.
(** interval_cmp.rs 83-91 *)
Definition iv_le_d (a b : interval T) : query bool :=
  match iv_upper a with
  | None => ret false
  | Some s => match iv_lower b with None => ret false | Some o => ul_le_d s o end
  end.
(** interval_cmp.rs 93-101 *)
Definition iv_gt_d (a b : interval T) : query bool :=
  match iv_lower a with
  | None => ret false
  | Some s => match iv_upper b with None => ret false | Some o => lu_gt_d s o end
  end.
(** interval_cmp.rs 103-111 *)
Definition iv_ge_d (a b : interval T) : query bool :=
  match iv_lower a with
  | None => ret false
  | Some s => match iv_upper b with None => ret false | Some o => lu_ge_d s o end
  end.
(** interval_cmp.rs 60-71 *)
Definition iv_partial_cmp_d (a b : interval T) : query (option comparison) :=
  ask* x := iv_gt_d a b in
  if x then ret (Some Gt)
  else ask* y := iv_lt_d a b in
       if y then ret (Some Lt)
       else ask* z := iv_eq_d a b in ret (if z then Some Eq else None).

(** *** Intervals: set operations *)

(** interval.rs 511-513 *)
Definition iv_contains_val_d (i : interval T) (v : T) : query bool := qnot (qor (ivv_gt_d i v) (ivv_lt_d i v)).
(** interval.rs 529-541 *)
Definition iv_contains_interval_d (a b : interval T) : query bool :=
  match iv_bounds a with
  | None => ret (iv_is_empty b)
  | Some (l, u) =>
      match iv_bounds b with
      | None => ret true
      | Some (ol, ou) => qand (lower_le_d l ol) (upper_ge_d u ou)
      end
  end.
(** interval.rs 558-569 *)
Definition iv_can_be_merged_d (a b : interval T) : query bool :=
  match iv_bounds a with
  | None => ret true
  | Some (l, u) =>
      match iv_bounds b with
      | None => ret true
      | Some (ol, ou) => qnot (qor (are_separated_d ol u) (are_separated_d l ou))
      end
  end.
(** interval.rs 660-662 *)
Definition iv_intersects_d (a b : interval T) : query bool := qnot (qor (iv_gt_d a b) (iv_lt_d a b)).
(** std: Option::unwrap, interval.rs 598-599, 689-690 and 749-750 *)
Definition unwrap_d {A} (o : option A) : query A := match o with Some a => ret a | None => Done tt Panic end.
(** interval.rs 587-602 *)
Definition iv_into_merged_d (a b : interval T) : query (interval T + interval T * interval T) :=
  ask* m := iv_can_be_merged_d a b in
  if negb m then ret (inr (a, b))
  else if iv_is_empty b then ret (inl a)
  else if iv_is_empty a then ret (inl b)
  else ask* p := unwrap_d (iv_into_bounds a) in
       ask* q := unwrap_d (iv_into_bounds b) in
       ask* l := lower_min_d (fst p) (fst q) in
       ask* u := upper_max_d (snd p) (snd q) in
       ask* i := iv_from_bounds_d l u in ret (inl i).
(** interval.rs 635-640 and 782-787: the two [swap]s of [merge] and [span] *)
Definition iv_widen_d {A} (s o : nonempty T) (r : A) : dialog (interval T) A :=
  then_ (Interval (Some s)) (lower_lt_d (lo o) (lo s)) (fun x =>
  let l := if x then lo o else lo s in
  then_ (Interval (Some (NonEmpty l (up s)))) (upper_gt_d (up o) (up s)) (fun y =>
  Done (Interval (Some (NonEmpty l (if y then up o else up s)))) (Ret r))).
(** interval.rs 619-642 *)
Definition iv_merge_d (a b : interval T) : dialog (interval T) (unit + interval T) :=
  then_ a (iv_can_be_merged_d a b) (fun m =>
  if negb m then Done a (Ret (inr b))
  else match imp a with
  | None => Done b (Ret (inl tt))
  | Some s =>
      match imp b with
      | None => Done a (Ret (inl tt))
      | Some o => iv_widen_d s o (inl tt)
      end
  end).
(** interval.rs 678-692 *)
Definition iv_into_intersection_d (a b : interval T) : query (interval T) :=
  if iv_is_empty a then ret a
  else if iv_is_empty b then ret b
  else ask* m := iv_intersects_d a b in
       if negb m then ret (iv_empty T)
       else ask* p := unwrap_d (iv_into_bounds a) in
            ask* q := unwrap_d (iv_into_bounds b) in
            ask* l := lower_max_d (fst p) (fst q) in
            ask* u := upper_min_d (snd p) (snd q) in
            iv_from_bounds_d l u.
(** interval.rs 709-725 *)
Definition iv_intersection_d (a b : interval T) : dialog (interval T) unit :=
  if iv_is_empty a || iv_is_empty b then Done (Interval None) (Ret tt)
  else then_ a (qor (iv_gt_d a b) (iv_lt_d a b)) (fun m =>
  if m then Done (Interval None) (Ret tt)
  else match imp a, imp b with
  | Some s, Some o =>
      then_ a (lower_lt_d (lo s) (lo o)) (fun x =>
      let l := if x then lo o else lo s in
      then_ (Interval (Some (NonEmpty l (up s)))) (upper_gt_d (up s) (up o)) (fun y =>
      Done (Interval (Some (NonEmpty l (if y then up o else up s)))) (Ret tt)))
  | _, _ => Done a Panic
  end).
(** interval.rs 742-753 *)
Definition iv_into_span_d (a b : interval T) : query (interval T) :=
  if iv_is_empty b then ret a
  else if iv_is_empty a then ret b
  else ask* p := unwrap_d (iv_into_bounds a) in
       ask* q := unwrap_d (iv_into_bounds b) in
       ask* l := lower_min_d (fst p) (fst q) in
       ask* u := upper_max_d (snd p) (snd q) in
       iv_from_bounds_d l u.
(** interval.rs 770-789 *)
Definition iv_span_d (a b : interval T) : dialog (interval T) unit :=
  if iv_is_empty b then Done a (Ret tt)
  else if iv_is_empty a then Done b (Ret tt)
  else match imp a, imp b with
  | Some s, Some o => iv_widen_d s o tt
  | _, _ => Done a Panic
  end.

(** *** Arithmetic *)

Variable U : Type.

(** an operator of the element that panics ends the call *)
Definition lift {A} (o : outcome A) : query A := Done tt o.
(** interval_math.rs 4-19, 33-47, 60-74 and 90-104, which differ in the operator
    only *)
Definition iv_arith_d (lower_op : lower T -> U -> outcome (lower T)) (upper_op : upper T -> U -> outcome (upper T))
  (i : interval T) (k : U) : query (interval T) :=
  match imp i with
  | Some a =>
      ask* u := lift (upper_op (up a) k) in
      ask* l := lift (lower_op (lo a) k) in
      local (fix_after_modification_d (Interval (Some (NonEmpty l u))))
  | None => ret i
  end.
(** interval_math.rs 4-19 *)
Definition iv_add_d add := iv_arith_d (lower_add add) (upper_add add).
(** interval_math.rs 33-47 *)
Definition iv_sub_d sub := iv_arith_d (lower_sub sub) (upper_sub sub).
(** interval_math.rs 60-74 *)
Definition iv_mul_d mul := iv_arith_d (lower_mul mul) (upper_mul mul).
(** interval_math.rs 90-104 *)
Definition iv_div_d div := iv_arith_d (lower_div div) (upper_div div).
(** interval_math.rs 22-30, 49-57, 77-85 and 107-115, which differ in the
    operator only *)
Definition iv_assign_d (lower_op : lower T -> U -> lower T * outcome unit)
  (upper_op : upper T -> U -> upper T * outcome unit) (i : interval T) (k : U) : dialog (interval T) unit :=
  match imp i with
  | Some a =>
      let '(l, o1) := lower_op (lo a) k in
      match o1 with
      | Ret _ =>
          let '(u, o2) := upper_op (up a) k in
          match o2 with
          | Ret _ => fix_after_modification_d (Interval (Some (NonEmpty l u)))
          | e => Done (Interval (Some (NonEmpty l u))) e
          end
      | e => Done (Interval (Some (NonEmpty l (up a)))) e
      end
  | None => fix_after_modification_d i
  end.
(** interval_math.rs 22-30 *)
Definition iv_add_assign_d adda := iv_assign_d (lower_add_assign adda) (upper_add_assign adda).
(** interval_math.rs 49-57 *)
Definition iv_sub_assign_d suba := iv_assign_d (lower_sub_assign suba) (upper_sub_assign suba).
(** interval_math.rs 77-85 *)
Definition iv_mul_assign_d mula := iv_assign_d (lower_mul_assign mula) (upper_mul_assign mula).
(** interval_math.rs 107-115 *)
Definition iv_div_assign_d diva := iv_assign_d (lower_div_assign diva) (upper_div_assign diva).
(** interval_math.rs 118-127 *)
Definition iv_neg_d (neg : T -> outcome T) (i : interval T) : query (interval T) :=
  match iv_into_tuple i with
  | None => ret (iv_empty T)
  | Some (l, lc, u, uc) =>
      ask* u' := lift (neg u) in
      ask* l' := lift (neg l) in
      create_friendly_d u' uc l' lc
  end.
End Dialogs.
Arguments Done {T S A} left r.
Arguments Ask {T S A} left k x y next.
