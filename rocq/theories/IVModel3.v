(** More of src/interval: the operations that change an interval in place, for
    elements whose comparisons may panic.  The interval left behind is observable
    after [catch_unwind].

    Simplifications: whether a comparison panics depends on the two values and
    on whether it is an ordering ([cmp], [<], [>]) or an equality ([==]) only;
    destructors of elements do not panic. *)
From Verif Require Import Base IVModel.
Local Open Scope outcome_scope.
Set Implicit Arguments.

Section Panics.
Variable T : Type.
(** [T: Ord] where it does not panic *)
Variable cmp : T -> T -> comparison.
(** the pairs whose ordering panics *)
Variable op : T -> T -> bool.
(** the pairs whose equality test panics *)
Variable ep : T -> T -> bool.

(** [>] on elements, interval.rs 325 and bounds.rs 780 *)
Definition vgt_p (x y : T) : outcome bool := if op x y then Panic else Ret (vgt cmp x y).
(** [==] on elements, interval.rs 328 and bounds.rs 780 *)
Definition veq_p (x y : T) : outcome bool := if ep x y then Panic else Ret (veq cmp x y).
(** bounds.rs 286-304, one [cmp] on the values *)
Definition lower_lt_p (a b : lower T) : outcome bool :=
  if op (lval a) (lval b) then Panic else Ret (lower_lt cmp a b).
(** bounds.rs 607-625, one [cmp] on the values *)
Definition upper_gt_p (a b : upper T) : outcome bool :=
  if op (uval a) (uval b) then Panic else Ret (upper_gt cmp a b).
(** bounds.rs 329-335, one [cmp] on the values *)
Definition lu_gt_p (l : lower T) (u : upper T) : outcome bool :=
  if op (lval l) (uval u) then Panic else Ret (lu_gt cmp l u).
(** bounds.rs 638-644, one [cmp] on the values *)
Definition ul_lt_p (u : upper T) (l : lower T) : outcome bool :=
  if op (uval u) (lval l) then Panic else Ret (ul_lt cmp u l).
(** bounds.rs 779-781: the equality is only tested when the first operand of
    [||] is false *)
Definition are_separated_p (l : lower T) (u : upper T) : outcome bool :=
  let* g := vgt_p (lval l) (uval u) in
  if g then Ret true
  else let* e := veq_p (uval u) (lval l) in Ret (e && negb (uclosed u) && negb (lclosed l)).

(** interval.rs 558-569 *)
Definition iv_can_be_merged_p (a b : interval T) : outcome bool :=
  match iv_bounds a with
  | None => Ret true
  | Some (l, u) =>
      match iv_bounds b with
      | None => Ret true
      | Some (ol, ou) =>
          let* x := are_separated_p ol u in
          if x then Ret false
          else let* y := are_separated_p l ou in Ret (negb y)
      end
  end.
(** interval_cmp.rs 93-101 *)
Definition iv_gt_p (a b : interval T) : outcome bool :=
  match iv_lower a with
  | None => Ret false
  | Some s => match iv_upper b with None => Ret false | Some o => lu_gt_p s o end
  end.
(** interval_cmp.rs 73-81 *)
Definition iv_lt_p (a b : interval T) : outcome bool :=
  match iv_upper a with
  | None => Ret false
  | Some s => match iv_lower b with None => Ret false | Some o => ul_lt_p s o end
  end.

(** interval.rs 635-640 and 782-787: the two [swap]s of [merge] and [span] *)
Definition iv_widen_p (s o : nonempty T) : interval T * outcome unit :=
  match lower_lt_p (lo o) (lo s) with
  | Ret x =>
      let l := if x then lo o else lo s in
      match upper_gt_p (up o) (up s) with
      | Ret y => (Interval (Some (NonEmpty l (if y then up o else up s))), Ret tt)
      | _ => (Interval (Some (NonEmpty l (up s))), Panic)
      end
  | _ => (Interval (Some s), Panic)
  end.

(** interval.rs 619-642 *)
Definition iv_merge_p (a b : interval T) : interval T * outcome (unit + interval T) :=
  match iv_can_be_merged_p a b with
  | Ret false => (a, Ret (inr b))
  | Ret true =>
      match imp a with
      | None => (b, Ret (inl tt))
      | Some s =>
          match imp b with
          | None => (a, Ret (inl tt))
          | Some o => match iv_widen_p s o with (a', r) => (a', omap inl r) end
          end
      end
  | _ => (a, Panic)
  end.

(** interval.rs 770-789 *)
Definition iv_span_p (a b : interval T) : interval T * outcome unit :=
  if iv_is_empty b then (a, Ret tt)
  else if iv_is_empty a then (b, Ret tt)
  else match imp a, imp b with
  | Some s, Some o => iv_widen_p s o
  | _, _ => (a, Panic)
  end.

(** interval.rs 709-725; the test of 710 first *)
Definition iv_intersection_p (a b : interval T) : interval T * outcome unit :=
  if iv_is_empty a || iv_is_empty b then (Interval None, Ret tt)
  else match iv_gt_p a b with
  | Ret true => (Interval None, Ret tt)
  | Ret false =>
      match iv_lt_p a b with
      | Ret true => (Interval None, Ret tt)
      | Ret false =>
          match imp a, imp b with
          | Some s, Some o =>
              match lower_lt_p (lo s) (lo o) with
              | Ret x =>
                  let l := if x then lo o else lo s in
                  match upper_gt_p (up s) (up o) with
                  | Ret y => (Interval (Some (NonEmpty l (if y then up o else up s))), Ret tt)
                  | _ => (Interval (Some (NonEmpty l (up s))), Panic)
                  end
              | _ => (a, Panic)
              end
          | _, _ => (a, Panic)
          end
      | _ => (a, Panic)
      end
  | _ => (a, Panic)
  end.

(** interval.rs 322-335 *)
Definition fix_after_modification_p (i : interval T) : interval T * outcome unit :=
  match imp i with
  | Some a =>
      match vgt_p (lval (lo a)) (uval (up a)) with
      | Ret g =>
          let a := if g then let '(l, u) := swap_bounds (lo a) (up a) in NonEmpty l u else a in
          match veq_p (lval (lo a)) (uval (up a)) with
          | Ret e =>
              (if e && (negb (lclosed (lo a)) || negb (uclosed (up a))) then Interval None else Interval (Some a), Ret tt)
          | _ => (Interval (Some a), Panic)
          end
      | _ => (i, Panic)
      end
  | None => (i, Ret tt)
  end.

Variable U : Type.

(** interval_math.rs 22-30, 49-57, 77-85 and 107-115, which differ in the
    operator only: the two ends are updated and then put in order *)
Definition iv_assign_p (lower_op : lower T -> U -> lower T * outcome unit)
  (upper_op : upper T -> U -> upper T * outcome unit) (i : interval T) (k : U) : interval T * outcome unit :=
  match imp i with
  | Some a =>
      let '(l, o1) := lower_op (lo a) k in
      match o1 with
      | Ret _ =>
          let '(u, o2) := upper_op (up a) k in
          match o2 with
          | Ret _ => fix_after_modification_p (Interval (Some (NonEmpty l u)))
          | e => (Interval (Some (NonEmpty l u)), e)
          end
      | e => (Interval (Some (NonEmpty l (up a))), e)
      end
  | None => fix_after_modification_p i
  end.
(** interval_math.rs 22-30 *)
Definition iv_add_assign_p adda := iv_assign_p (lower_add_assign adda) (upper_add_assign adda).
(** interval_math.rs 49-57 *)
Definition iv_sub_assign_p suba := iv_assign_p (lower_sub_assign suba) (upper_sub_assign suba).
(** interval_math.rs 77-85 *)
Definition iv_mul_assign_p mula := iv_assign_p (lower_mul_assign mula) (upper_mul_assign mula).
(** interval_math.rs 107-115 *)
Definition iv_div_assign_p diva := iv_assign_p (lower_div_assign diva) (upper_div_assign diva).
End Panics.
