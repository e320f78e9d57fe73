(** The intervals a program can hold, and the element types used in the
    arithmetic properties. *)
From Coq Require Import ZArith QArith Qabs.
From Verif Require Import Base IVModel IVSpec.
Set Implicit Arguments.

(** Every way of obtaining an interval through the public functions of
    interval.rs and interval_math.rs, with arbitrary element operators.
    Missing on purpose: the interval left behind by an operator that panicked
    half way (property C39). *)
Inductive obtainable (T : Type) (cmp : T -> T -> comparison) : interval T -> Prop :=
| ob_empty : obtainable cmp (iv_empty T)
| ob_single v : obtainable cmp (iv_single v)
| ob_new l lc u uc i : iv_new cmp l lc u uc = Ret i -> obtainable cmp i
| ob_from_bounds l u i : iv_from_bounds cmp l u = Ret i -> obtainable cmp i
| ob_open l u i : iv_open cmp l u = Ret i -> obtainable cmp i
| ob_closed l u i : iv_closed cmp l u = Ret i -> obtainable cmp i
| ob_lower_closed l u i : iv_lower_closed cmp l u = Ret i -> obtainable cmp i
| ob_upper_closed l u i : iv_upper_closed cmp l u = Ret i -> obtainable cmp i
| ob_into_merged a b i : obtainable cmp a -> obtainable cmp b ->
    iv_into_merged cmp a b = Ret (inl i) -> obtainable cmp i
| ob_into_merged_err a b c d : obtainable cmp a -> obtainable cmp b ->
    iv_into_merged cmp a b = Ret (inr (c, d)) -> forall i, i = c \/ i = d -> obtainable cmp i
| ob_merge a b : obtainable cmp a -> obtainable cmp b -> obtainable cmp (fst (iv_merge cmp a b))
| ob_merge_err a b i : obtainable cmp a -> obtainable cmp b ->
    snd (iv_merge cmp a b) = inr i -> obtainable cmp i
| ob_into_intersection a b i : obtainable cmp a -> obtainable cmp b ->
    iv_into_intersection cmp a b = Ret i -> obtainable cmp i
| ob_intersection a b i : obtainable cmp a -> obtainable cmp b ->
    iv_intersection cmp a b = Ret i -> obtainable cmp i
| ob_into_span a b i : obtainable cmp a -> obtainable cmp b ->
    iv_into_span cmp a b = Ret i -> obtainable cmp i
| ob_span a b i : obtainable cmp a -> obtainable cmp b -> iv_span cmp a b = Ret i -> obtainable cmp i
| ob_add (U : Type) f a (k : U) i : obtainable cmp a -> iv_add cmp f a k = Ret i -> obtainable cmp i
| ob_sub (U : Type) f a (k : U) i : obtainable cmp a -> iv_sub cmp f a k = Ret i -> obtainable cmp i
| ob_mul (U : Type) f a (k : U) i : obtainable cmp a -> iv_mul cmp f a k = Ret i -> obtainable cmp i
| ob_div (U : Type) f a (k : U) i : obtainable cmp a -> iv_div cmp f a k = Ret i -> obtainable cmp i
| ob_add_assign (U : Type) f a (k : U) i : obtainable cmp a ->
    iv_add_assign cmp f a k = (i, Ret tt) -> obtainable cmp i
| ob_sub_assign (U : Type) f a (k : U) i : obtainable cmp a ->
    iv_sub_assign cmp f a k = (i, Ret tt) -> obtainable cmp i
| ob_mul_assign (U : Type) f a (k : U) i : obtainable cmp a ->
    iv_mul_assign cmp f a k = (i, Ret tt) -> obtainable cmp i
| ob_div_assign (U : Type) f a (k : U) i : obtainable cmp a ->
    iv_div_assign cmp f a k = (i, Ret tt) -> obtainable cmp i
| ob_neg f a i : obtainable cmp a -> iv_neg cmp f a = Ret i -> obtainable cmp i.

(** [x op= y] of an element type whose [op=] behaves as [x = x op y] and leaves
    [x] alone when it panics (true of the primitive integers) *)
Definition assign_of {T U} (op : T -> U -> outcome T) (x : T) (y : U) : T * outcome unit :=
  match op x y with
  | Ret z => (z, Ret tt)
  | Panic => (x, Panic)
  | Abort => (x, Abort)
  | UB => (x, UB)
  | NoFuel => (x, NoFuel)
  end.

(** A Rust integer type: its range, and whether overflow checks are on. *)
Record int_type := IntType { imin : Z; imax : Z; ichecked : bool }.
(** the values of the type *)
Definition in_range (I : int_type) (z : Z) : Prop := (imin I <= z <= imax I)%Z.
(** two's complement wrap-around into the range *)
Definition wrap (I : int_type) (z : Z) : Z := (imin I + (z - imin I) mod (imax I - imin I + 1))%Z.
(** the result of +, -, * and unary - : exact, or panic / wrap on overflow *)
Definition int_result (I : int_type) (z : Z) : outcome Z :=
  if ((imin I <=? z) && (z <=? imax I))%Z then Ret z
  else if ichecked I then Panic else Ret (wrap I z).
(** + on the integer type *)
Definition int_add I x y := int_result I (x + y).
(** binary - *)
Definition int_sub I x y := int_result I (x - y).
(** multiplication *)
Definition int_mul I x y := int_result I (x * y).
(** unary - *)
Definition int_neg I x := int_result I (- x).
(** / truncates towards zero; it panics on a zero divisor and on overflow
    (MIN / -1) in every build *)
Definition int_div (I : int_type) x y : outcome Z :=
  if (y =? 0)%Z then Panic
  else if ((imin I <=? Z.quot x y) && (Z.quot x y <=? imax I))%Z then Ret (Z.quot x y) else Panic.

(** [u8] *)
Definition u8 checked := IntType 0 255 checked.
(** [i32] *)
Definition i32 checked := IntType (-2147483648) 2147483647 checked.

(** Exact rationals: a dense order in which different representations are equal
    ([Qcompare] is not Leibniz equality). *)
Definition q_add (x y : Q) : outcome Q := Ret (x + y)%Q.
(** - on rationals *)
Definition q_sub (x y : Q) : outcome Q := Ret (x - y)%Q.
(** * on rationals *)
Definition q_mul (x y : Q) : outcome Q := Ret (x * y)%Q.
(** unary - on rationals *)
Definition q_neg (x : Q) : outcome Q := Ret (- x)%Q.
(** / on rationals, with a panic on zero as for integers *)
Definition q_div (x y : Q) : outcome Q := if Qeq_bool y 0 then Panic else Ret (x / y)%Q.

(** membership of a point, seen through [into_tuple] (interval.rs 286-295) *)
Definition has {T} (cmp : T -> T -> comparison) (i : interval T) (x : T) : Prop := mem cmp (iv_into_tuple i) x.
