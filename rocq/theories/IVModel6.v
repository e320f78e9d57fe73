(** More of src/interval: what becomes of the ends.  An interval owns its ends; a
    call may compare them, clone them, hand them to an operator, move them and
    drop them.  Here a call is a trace of everything it does to a value through
    code of the user: comparisons, clones, operators and destructors.  Each of
    the first three may panic, and answers as it likes: what it answers may
    depend on everything that happened before.  Written out at each such place
    is what the unwinding drops, in order, and what the receiver of an in-place
    call holds then.

    Simplifications: destructors of elements do not panic (what happens to a
    return value when a destructor panics differs between compilers);
    [LowerBound] and [UpperBound] are dropped by dropping their value; the
    questions are those of [IVModel5], with the simplifications stated there. *)
From Verif Require Import Base IVModel IVModel5.
Set Implicit Arguments.

Section Owned.
Variable T : Type.
Variable U : Type.

(** a value with a destructor: an end of an interval or the second operand of an
    operator (interval_math.rs 4, 22: [T] and [U]) *)
Inductive thing := El (x : T) | Arg (k : U).

(** what a call does to values through code of the user, with what came of it;
    [None] is a panic (bounds.rs 11-117: every such call) *)
Inductive act :=
| Asked (k : kind) (x y : T) (a : option (answer k))   (* a comparison *)
| ClonedEl (x : T) (r : option T)                      (* [x.clone()] of an end *)
| ClonedArg (k : U) (r : option U)                     (* [rhs.clone()] *)
| Combined (x : T) (k : U) (r : option T)              (* [x op k] by value *)
| Changed (x : T) (k : U) (x' : T) (ok : bool)         (* [x op= k] *)
| Negated (x : T) (r : option T)                       (* [-x] by value *)
| Dropped (v : thing).                                 (* the destructor *)

(** the code of the user: each answers by all that happened before
    (bounds.rs 11-117: the traits demanded of [T] and [U]) *)
Record user := User {
  u_ask : list act -> forall k, T -> T -> option (answer k);
  u_clone_el : list act -> T -> option T;
  u_clone_arg : list act -> U -> option U;
  u_combine : list act -> T -> U -> option T;
  u_change : list act -> T -> U -> T * bool;
  u_negate : list act -> T -> option T }.

(** a call: from what happened before to what it does, what it leaves in its
    receiver ([unit] if it has none) and how it ends (interval.rs 78-790) *)
Definition call (S A : Type) : Type := list act -> list act * S * outcome A.
(** the end of a call *)
Definition over {S A} (s : S) (o : outcome A) : call S A := fun _ => ([], s, o).
(** the value of a block *)
Definition give {A} (a : A) : call unit A := over tt (Ret a).
(** one call of user code *)
Definition happens {S A} (s : S) (e : act) (o : option A) : list act * S * outcome A :=
  ([e], s, match o with Some a => Ret a | None => Panic end).
(** values go out of scope, in this order (std: drop glue; interval.rs 12-16: [lo]
    before [up]) *)
Definition drops (vs : list thing) : call unit unit := fun _ => (map Dropped vs, tt, Ret tt).
(** [panic!], with what the unwinding drops (interval.rs 127, 131) *)
Definition panics {A} (vs : list thing) : call unit A := fun _ => (map Dropped vs, tt, Panic).
(** [m; f]: if [m] panics, the unwinding drops [lost] and the receiver holds
    [keep], both seen from what [m] left *)
Definition after {S A S' B} (m : call S A) (keep : S -> S') (lost : S -> list thing) (f : S -> A -> call S' B) : call S' B :=
  fun h =>
    let '(t, s, o) := m h in
    match o with
    | Ret a => let '(t', s', o') := f s a (h ++ t) in (t ++ t', s', o')
    | Panic => (t ++ map Dropped (lost s), keep s, Panic)
    | Abort => (t, keep s, Abort)
    | UB => (t, keep s, UB)
    | NoFuel => (t, keep s, NoFuel)
    end.
(** [m; f], where [m] has no receiver of its own *)
Definition seq {S A B} (s : S) (lost : list thing) (m : call unit A) (f : A -> call S B) : call S B :=
  after m (fun _ => s) (fun _ => lost) (fun _ => f).

Variable us : user.

(** a comparison (bounds.rs 266-387, interval.rs 126, 130, 325, 328) *)
Definition ask_o (k : kind) (x y : T) : call unit (answer k) :=
  fun h => let r := u_ask us h k x y in happens tt (Asked k x y r) r.
(** [x.clone()] (interval.rs 169; derived Clone of bounds.rs 11) *)
Definition clone_el (x : T) : call unit T :=
  fun h => let r := u_clone_el us h x in happens tt (ClonedEl x r) r.
(** [rhs.clone()] (interval_math.rs 9, 25, 38, 52, 65, 80, 95, 110) *)
Definition clone_arg (k : U) : call unit U :=
  fun h => let r := u_clone_arg us h k in happens tt (ClonedArg k r) r.
(** [x op k]: the operator owns both (bounds.rs 56, 67, 78, 89) *)
Definition combine (x : T) (k : U) : call unit T :=
  fun h => let r := u_combine us h x k in happens tt (Combined x k r) r.
(** [x op= k]: the operator owns [k] and leaves something in [x], also when it
    panics (bounds.rs 97, 103, 109, 115) *)
Definition change (x : T) (k : U) : call T unit :=
  fun h => let '(x', ok) := u_change us h x k in happens x' (Changed x k x' ok) (if ok then Some tt else None).
(** [-x] (interval_math.rs 124) *)
Definition negate (x : T) : call unit T :=
  fun h => let r := u_negate us h x in happens tt (Negated x r) r.
(** questions only: nothing is moved (interval.rs 350-800: the methods that
    borrow) *)
Fixpoint consult {S A} (d : dialog T S A) : call S A :=
  match d with
  | Done s o => over s o
  | Ask s k x y next => seq s [] (ask_o k x y) (fun a => consult (next a))
  end.

(** the values that an interval owns, in the order of their destructors
    (interval.rs 12-16, 73-76) *)
Definition lower_things (l : lower T) : list thing := [El (lval l)].
(** the value that an upper bound owns (bounds.rs 488-491) *)
Definition upper_things (u : upper T) : list thing := [El (uval u)].
(** the values that a non-empty interval owns (interval.rs 12-16) *)
Definition nonempty_things (a : nonempty T) : list thing := lower_things (lo a) ++ upper_things (up a).
(** the values that an interval owns (interval.rs 73-76) *)
Definition things (i : interval T) : list thing := match imp i with Some a => nonempty_things a | None => [] end.

(** *** Bounds *)

(** std: [Ord::min] is [min_by(self, other, Ord::cmp)], from bounds.rs 266-284;
    the one not returned is dropped *)
Definition lower_min_o (a b : lower T) : call unit (lower T) :=
  seq tt (lower_things b ++ lower_things a) (consult (lower_cmp_d a b)) (fun c =>
  match c with
  | Gt => seq tt [] (drops (lower_things a)) (fun _ => give b)
  | _ => seq tt [] (drops (lower_things b)) (fun _ => give a)
  end).
(** std: [Ord::max], from bounds.rs 266-284 *)
Definition lower_max_o (a b : lower T) : call unit (lower T) :=
  seq tt (lower_things b ++ lower_things a) (consult (lower_cmp_d a b)) (fun c =>
  match c with
  | Gt => seq tt [] (drops (lower_things b)) (fun _ => give a)
  | _ => seq tt [] (drops (lower_things a)) (fun _ => give b)
  end).
(** std: [Ord::min], from bounds.rs 581-599 *)
Definition upper_min_o (a b : upper T) : call unit (upper T) :=
  seq tt (upper_things b ++ upper_things a) (consult (upper_cmp_d a b)) (fun c =>
  match c with
  | Gt => seq tt [] (drops (upper_things a)) (fun _ => give b)
  | _ => seq tt [] (drops (upper_things b)) (fun _ => give a)
  end).
(** std: [Ord::max], from bounds.rs 581-599 *)
Definition upper_max_o (a b : upper T) : call unit (upper T) :=
  seq tt (upper_things b ++ upper_things a) (consult (upper_cmp_d a b)) (fun c =>
  match c with
  | Gt => seq tt [] (drops (upper_things b)) (fun _ => give a)
  | _ => seq tt [] (drops (upper_things a)) (fun _ => give b)
  end).
(** bounds.rs 393-401, 409-417, 425-433 and 441-449 (with 51-93), which differ in
    the operator only *)
Definition lower_arith_o (l : lower T) (k : U) : call unit (lower T) :=
  seq tt [] (combine (lval l) k) (fun v => give (lower_new v (lclosed l))).
(** bounds.rs 713-721, 729-737, 745-753 and 761-769 (with 51-93) *)
Definition upper_arith_o (u : upper T) (k : U) : call unit (upper T) :=
  seq tt [] (combine (uval u) k) (fun v => give (upper_new v (uclosed u))).
(** bounds.rs 403-407, 419-423, 435-439 and 451-455 (with 95-117) *)
Definition lower_assign_o (l : lower T) (k : U) : call (lower T) unit :=
  after (change (lval l) k) (fun v => lower_new v (lclosed l)) (fun _ => []) (fun v _ => over (lower_new v (lclosed l)) (Ret tt)).
(** bounds.rs 723-727, 739-743, 755-759 and 771-775 (with 95-117) *)
Definition upper_assign_o (u : upper T) (k : U) : call (upper T) unit :=
  after (change (uval u) k) (fun v => upper_new v (uclosed u)) (fun _ => []) (fun v _ => over (upper_new v (uclosed u)) (Ret tt)).
(** bounds.rs 149 and 11 (derived Clone) *)
Definition lower_clone_o (l : lower T) : call unit (lower T) :=
  seq tt [] (clone_el (lval l)) (fun v => give (lower_new v (lclosed l))).
(** bounds.rs 488 and 11 (derived Clone) *)
Definition upper_clone_o (u : upper T) : call unit (upper T) :=
  seq tt [] (clone_el (uval u)) (fun v => give (upper_new v (uclosed u))).

(** *** Construction *)

(** interval.rs 125-140; parameters are dropped last first.  [new], [open],
    [closed], [lower_closed] and [upper_closed] only choose the flags. *)
Definition create_checked_o (l : T) (lc : bool) (u : T) (uc : bool) : call unit (interval T) :=
  seq tt [El u; El l] (ask_o KGt l u) (fun g =>
  if g then panics [El u; El l]
  else seq tt [El u; El l] (consult (qand (ask KEq l u) (ret T (negb lc || negb uc)))) (fun e =>
  if e then panics [El u; El l]
  else give (Interval (Some (NonEmpty (lower_new l lc) (upper_new u uc)))))).
(** interval.rs 118-122 *)
Definition iv_from_bounds_o (l : lower T) (u : upper T) : call unit (interval T) :=
  let '(lv, lc) := lower_into_tuple l in
  let '(uv, uc) := upper_into_tuple u in
  create_checked_o lv lc uv uc.
(** interval.rs 166-173 *)
Definition iv_single_o (v : T) : call unit (interval T) :=
  seq tt [El v] (clone_el v) (fun v' => give (Interval (Some (NonEmpty (lower_new v' true) (upper_new v true))))).
(** [self.imp = None] drops what was there (interval.rs 333, 711) *)
Definition emptied (i : interval T) : call (interval T) unit :=
  seq (Interval None) [] (drops (things i)) (fun _ => over (Interval None) (Ret tt)).
(** interval.rs 322-335 *)
Definition fix_after_modification_o (i : interval T) : call (interval T) unit :=
  match imp i with
  | Some a =>
      seq i [] (ask_o KGt (lval (lo a)) (uval (up a))) (fun g =>
      let a := if g then let '(l, u) := swap_bounds (lo a) (up a) in NonEmpty l u else a in
      seq (Interval (Some a)) []
        (consult (qand (ask KEq (lval (lo a)) (uval (up a))) (ret T (negb (lclosed (lo a)) || negb (uclosed (up a)))))) (fun e =>
      if e then emptied (Interval (Some a)) else over (Interval (Some a)) (Ret tt)))
  | None => over i (Ret tt)
  end.
(** a local interval that is put right and returned (interval.rs 150-151,
    interval_math.rs 12-13): if that panics the local is dropped *)
Definition fixed (i : interval T) : call unit (interval T) :=
  after (fix_after_modification_o i) (fun _ => tt) things (fun i' _ => give i').
(** interval.rs 144-152 *)
Definition create_friendly_o (l : T) (lc : bool) (u : T) (uc : bool) : call unit (interval T) :=
  fixed (Interval (Some (NonEmpty (lower_new l lc) (upper_new u uc)))).
(** interval.rs 12 and 73 (derived Clone): [lo] is cloned before [up] *)
Definition iv_clone_o (i : interval T) : call unit (interval T) :=
  match imp i with
  | None => give (Interval None)
  | Some a =>
      seq tt [] (lower_clone_o (lo a)) (fun l =>
      seq tt (lower_things l) (upper_clone_o (up a)) (fun u =>
      give (Interval (Some (NonEmpty l u)))))
  end.
(** std: provided method [clone_from]: [*self = source.clone()], from interval.rs 73 *)
Definition iv_clone_from_o (i source : interval T) : call (interval T) unit :=
  seq i [] (iv_clone_o source) (fun c => seq c [] (drops (things i)) (fun _ => over c (Ret tt))).

(** *** Set operations *)

(** interval.rs 587-602 *)
Definition iv_into_merged_o (a b : interval T) : call unit (interval T + interval T * interval T) :=
  seq tt (things b ++ things a) (consult (iv_can_be_merged_d a b)) (fun m =>
  if negb m then give (inr (a, b))
  else if iv_is_empty b then give (inl a)
  else if iv_is_empty a then give (inl b)
  else match iv_into_bounds a with
  | None => panics (things b)
  | Some (l1, u1) =>
      match iv_into_bounds b with
      | None => panics (upper_things u1 ++ lower_things l1)
      | Some (l2, u2) =>
          seq tt (upper_things u2 ++ upper_things u1) (lower_min_o l1 l2) (fun l =>
          seq tt (lower_things l) (upper_max_o u1 u2) (fun u =>
          seq tt [] (iv_from_bounds_o l u) (fun i => give (inl i))))
      end
  end).
(** interval.rs 635-640 and 782-787: the two [swap]s of [merge] and [span]; what
    is in [other] then is dropped at the end *)
Definition iv_widen_o {A} (s o : nonempty T) (r : A) : call (interval T) A :=
  seq (Interval (Some s)) (nonempty_things o) (consult (lower_lt_d (lo o) (lo s))) (fun x =>
  let '(sl, ol) := if x then (lo o, lo s) else (lo s, lo o) in
  seq (Interval (Some (NonEmpty sl (up s)))) (nonempty_things (NonEmpty ol (up o))) (consult (upper_gt_d (up o) (up s))) (fun y =>
  let '(su, ou) := if y then (up o, up s) else (up s, up o) in
  let s' := Interval (Some (NonEmpty sl su)) in
  seq s' [] (drops (nonempty_things (NonEmpty ol ou))) (fun _ => over s' (Ret r)))).
(** interval.rs 619-642 *)
Definition iv_merge_o (a b : interval T) : call (interval T) (unit + interval T) :=
  seq a (things b) (consult (iv_can_be_merged_d a b)) (fun m =>
  if negb m then over a (Ret (inr b))
  else match imp a with
  | None => over b (Ret (inl tt))
  | Some s =>
      match imp b with
      | None => over a (Ret (inl tt))
      | Some o => iv_widen_o s o (inl tt)
      end
  end).
(** interval.rs 678-692 *)
Definition iv_into_intersection_o (a b : interval T) : call unit (interval T) :=
  if iv_is_empty a then seq tt [] (drops (things b)) (fun _ => give a)
  else if iv_is_empty b then seq tt [] (drops (things a)) (fun _ => give b)
  else seq tt (things b ++ things a) (consult (iv_intersects_d a b)) (fun m =>
  if negb m then seq tt [] (drops (things b ++ things a)) (fun _ => give (iv_empty T))
  else match iv_into_bounds a with
  | None => panics (things b)
  | Some (l1, u1) =>
      match iv_into_bounds b with
      | None => panics (upper_things u1 ++ lower_things l1)
      | Some (l2, u2) =>
          seq tt (upper_things u2 ++ upper_things u1) (lower_max_o l1 l2) (fun l =>
          seq tt (lower_things l) (upper_min_o u1 u2) (fun u =>
          iv_from_bounds_o l u))
      end
  end).
(** interval.rs 709-725 *)
Definition iv_intersection_o (a b : interval T) : call (interval T) unit :=
  if iv_is_empty a || iv_is_empty b
  then after (emptied a) (fun i => i) (fun _ => []) (fun i _ => seq i [] (drops (things b)) (fun _ => over i (Ret tt)))
  else seq a (things b) (consult (qor (iv_gt_d a b) (iv_lt_d a b))) (fun m =>
  if m
  then after (emptied a) (fun i => i) (fun _ => []) (fun i _ => seq i [] (drops (things b)) (fun _ => over i (Ret tt)))
  else match imp a, imp b with
  | Some s, Some o =>
      seq a (nonempty_things o) (consult (lower_lt_d (lo s) (lo o))) (fun x =>
      let '(sl, ol) := if x then (lo o, lo s) else (lo s, lo o) in
      seq (Interval (Some (NonEmpty sl (up s)))) (nonempty_things (NonEmpty ol (up o))) (consult (upper_gt_d (up s) (up o))) (fun y =>
      let '(su, ou) := if y then (up o, up s) else (up s, up o) in
      let s' := Interval (Some (NonEmpty sl su)) in
      seq s' [] (drops (nonempty_things (NonEmpty ol ou))) (fun _ => over s' (Ret tt))))
  | _, _ => seq a [] (panics (things b)) (fun r : unit => over a (Ret r))
  end).
(** interval.rs 742-753 *)
Definition iv_into_span_o (a b : interval T) : call unit (interval T) :=
  if iv_is_empty b then give a
  else if iv_is_empty a then give b
  else match iv_into_bounds a with
  | None => panics (things b)
  | Some (l1, u1) =>
      match iv_into_bounds b with
      | None => panics (upper_things u1 ++ lower_things l1)
      | Some (l2, u2) =>
          seq tt (upper_things u2 ++ upper_things u1) (lower_min_o l1 l2) (fun l =>
          seq tt (lower_things l) (upper_max_o u1 u2) (fun u =>
          iv_from_bounds_o l u))
      end
  end.
(** interval.rs 770-789 *)
Definition iv_span_o (a b : interval T) : call (interval T) unit :=
  if iv_is_empty b then over a (Ret tt)
  else if iv_is_empty a then over b (Ret tt)
  else match imp a, imp b with
  | Some s, Some o => iv_widen_o s o tt
  | _, _ => seq a [] (panics (things b)) (fun r : unit => over a (Ret r))
  end.

(** *** Arithmetic *)

(** interval_math.rs 4-19, 33-47, 60-74 and 90-104, which differ in the operator
    only: the upper end first, with a clone of [rhs] *)
Definition iv_arith_o (i : interval T) (k : U) : call unit (interval T) :=
  match imp i with
  | Some a =>
      seq tt (upper_things (up a) ++ lower_things (lo a) ++ [Arg k]) (clone_arg k) (fun k' =>
      seq tt (lower_things (lo a) ++ [Arg k]) (upper_arith_o (up a) k') (fun u =>
      seq tt (upper_things u) (lower_arith_o (lo a) k) (fun l =>
      fixed (Interval (Some (NonEmpty l u))))))
  | None => seq tt [] (drops [Arg k]) (fun _ => give i)
  end.
(** interval_math.rs 22-30, 49-57, 77-85 and 107-115, which differ in the
    operator only: the lower end first, with a clone of [rhs] *)
Definition iv_assign_o (i : interval T) (k : U) : call (interval T) unit :=
  match imp i with
  | Some a =>
      seq i [Arg k] (clone_arg k) (fun k' =>
      after (lower_assign_o (lo a) k') (fun l => Interval (Some (NonEmpty l (up a)))) (fun _ => [Arg k]) (fun l _ =>
      after (upper_assign_o (up a) k) (fun u => Interval (Some (NonEmpty l u))) (fun _ => []) (fun u _ =>
      fix_after_modification_o (Interval (Some (NonEmpty l u))))))
  | None =>
      after (fix_after_modification_o i) (fun i' => i') (fun _ => [Arg k]) (fun i' _ =>
      seq i' [] (drops [Arg k]) (fun _ => over i' (Ret tt)))
  end.
(** interval_math.rs 118-127: [-u] before [-l] *)
Definition iv_neg_o (i : interval T) : call unit (interval T) :=
  match iv_into_tuple i with
  | None => give (iv_empty T)
  | Some (l, lc, u, uc) =>
      seq tt [El l] (negate u) (fun u' =>
      seq tt [El u'] (negate l) (fun l' =>
      create_friendly_o u' uc l' lc))
  end.

(** *** A program with intervals *)

(** what a program may do with the intervals it has, the latest first.  A
    binary call takes the latest as its argument and the one before as its
    receiver (interval.rs 78-800, interval_math.rs: the calls that move ends) *)
Inductive deal :=
| DNew (l : T) (lc : bool) (u : T) (uc : bool) | DSingle (v : T) | DEmpty
| DClone | DCloneFrom | DDrop | DIntoTuple
| DIntoMerged | DMerge | DIntoIntersection | DIntersection | DIntoSpan | DSpan
| DArith (k : U) | DAssign (k : U) | DNeg.

(** the result of a consuming call, or nothing if it panicked and was caught
    (interval.rs 587-753) *)
Definition got_back (o : outcome (interval T)) : list (interval T) := match o with Ret i => [i] | _ => [] end.
(** what a program does next (interval.rs 78-800, interval_math.rs): it catches a
    panic (std: catch_unwind) and goes on with what is left.  The last component
    are the values it has outside of intervals: those of [into_tuple] (interval.rs
    286-295) and an operand for which there is no interval. *)
Definition iv_deal_o (d : deal) (is : list (interval T)) (h : list act) : list act * list (interval T) * list thing :=
  let made (m : call unit (interval T)) rest := let '(t, _, o) := m h in (t, got_back o ++ rest, []) in
  match d, is with
  | DNew l lc u uc, _ => made (create_checked_o l lc u uc) is
  | DSingle v, _ => made (iv_single_o v) is
  | DEmpty, _ => ([], iv_empty T :: is, [])
  | DClone, i :: _ => made (iv_clone_o i) is
  | DCloneFrom, b :: a :: r => let '(t, a', _) := iv_clone_from_o a b h in (t, b :: a' :: r, [])
  | DDrop, i :: r => (map Dropped (things i), r, [])
  | DIntoTuple, i :: r =>
      ([], r, match iv_into_tuple i with Some (l, _, u, _) => [El l; El u] | None => [] end)
  | DIntoMerged, b :: a :: r =>
      let '(t, _, o) := iv_into_merged_o a b h in
      (t, match o with Ret (inl i) => [i] | Ret (inr (x, y)) => [y; x] | _ => [] end ++ r, [])
  | DMerge, b :: a :: r =>
      let '(t, a', o) := iv_merge_o a b h in
      (t, match o with Ret (inr x) => [x] | _ => [] end ++ a' :: r, [])
  | DIntoIntersection, b :: a :: r => made (iv_into_intersection_o a b) r
  | DIntersection, b :: a :: r => let '(t, a', _) := iv_intersection_o a b h in (t, a' :: r, [])
  | DIntoSpan, b :: a :: r => made (iv_into_span_o a b) r
  | DSpan, b :: a :: r => let '(t, a', _) := iv_span_o a b h in (t, a' :: r, [])
  | DArith k, i :: r => made (iv_arith_o i k) r
  | DAssign k, i :: r => let '(t, i', _) := iv_assign_o i k h in (t, i' :: r, [])
  | DNeg, i :: r => made (iv_neg_o i) r
  | DArith k, [] | DAssign k, [] => ([], [], [Arg k])
  | _, _ => ([], is, [])
  end.
(** one after the other; what happened, the intervals left and the values that
    were taken out *)
Fixpoint iv_deals_o (ds : list deal) (is : list (interval T)) (h : list act) : list act * list (interval T) * list thing :=
  match ds with
  | [] => ([], is, [])
  | d :: ds =>
      let '(t, is1, g) := iv_deal_o d is h in
      let '(t', is2, g') := iv_deals_o ds is1 (h ++ t) in
      (t ++ t', is2, g ++ g')
  end.
End Owned.
Arguments El {T U} x.
Arguments Arg {T U} k.
Arguments Asked {T U} k x y a.
Arguments ClonedEl {T U} x r.
Arguments ClonedArg {T U} k r.
Arguments Combined {T U} x k r.
Arguments Changed {T U} x k x' ok.
Arguments Negated {T U} x r.
Arguments Dropped {T U} v.
