(** Dispatch of the calls of [IVSpec3] to the model's functions. *)
From Verif Require Import Base IVModel IVSpec3.
Set Implicit Arguments.

(** the operators of an element type *)
Record arith (T U : Type) : Type := Arith {
  ar_op : oper -> T -> U -> outcome T;
  ar_assign : oper -> T -> U -> T * outcome unit;
  ar_neg : T -> outcome T }.

Section Run.
Variables T U : Type.
Variable cmp : T -> T -> comparison.
Variable A : arith T U.

(** a store: which interval is where *)
Definition store : Type := nat -> interval T.
Definition put (d : nat) (i : interval T) (s : store) : store := fun n => if n =? d then i else s n.
(** the result goes to [d]; a panic leaves the store as it was *)
Definition put_out (d : nat) (r : outcome (interval T)) (s : store) : store * outcome (answer T) :=
  (match r with Ret i => put d i s | _ => s end, omap (fun _ => AUnit) r).

(** the constructors of src/interval/interval.rs (each cites its lines in [IVModel]) *)
Definition run_make (m : make T) : outcome (interval T) :=
  match m with
  | MEmpty => Ret (iv_empty T)
  | MSingle v => Ret (iv_single v)
  | MNew l lc u uc => iv_new cmp l lc u uc
  | MOpen l u => iv_open cmp l u
  | MClosed l u => iv_closed cmp l u
  | MLowerClosed l u => iv_lower_closed cmp l u
  | MUpperClosed l u => iv_upper_closed cmp l u
  end.

(** src/interval/interval_math.rs: [i op k] *)
Definition run_oper (o : oper) : interval T -> U -> outcome (interval T) :=
  match o with
  | Plus => iv_add cmp (ar_op A Plus) | Minus => iv_sub cmp (ar_op A Minus)
  | Times => iv_mul cmp (ar_op A Times) | Over => iv_div cmp (ar_op A Over)
  end.
(** src/interval/interval_math.rs: [i op= k] *)
Definition run_assign (o : oper) : interval T -> U -> interval T * outcome unit :=
  match o with
  | Plus => iv_add_assign cmp (ar_assign A Plus) | Minus => iv_sub_assign cmp (ar_assign A Minus)
  | Times => iv_mul_assign cmp (ar_assign A Times) | Over => iv_div_assign cmp (ar_assign A Over)
  end.

(** one call: the function of [IVModel] each call stands for (each cites its lines
    there).  Functions that consume intervals get clones; [merge] hands a refused
    operand back. *)
Definition run_call (c : call T U) (s : store) : store * outcome (answer T) :=
  match c with
  | KMake d m => put_out d (run_make m) s
  | KMerge d a =>
      match iv_merge cmp (s d) (s a) with
      | (i, inl _) => (put d i s, Ret (AMerged true))
      | (i, inr j) => (put a j (put d i s), Ret (AMerged false))
      end
  | KIntoMerged d e a b =>
      match iv_into_merged cmp (s a) (s b) with
      | Ret (inl i) => (put d i s, Ret (AMerged true))
      | Ret (inr (i, j)) => (put e j (put d i s), Ret (AMerged false))
      | Panic => (s, Panic) | Abort => (s, Abort) | UB => (s, UB) | NoFuel => (s, NoFuel)
      end
  | KIntersection d a => put_out d (iv_intersection cmp (s d) (s a)) s
  | KIntoIntersection d a b => put_out d (iv_into_intersection cmp (s a) (s b)) s
  | KSpan d a => put_out d (iv_span cmp (s d) (s a)) s
  | KIntoSpan d a b => put_out d (iv_into_span cmp (s a) (s b)) s
  | KOper o d a k => put_out d (run_oper o (s a) k) s
  | KAssign o d k => match run_assign o (s d) k with (i, r) => (put d i s, omap (fun _ => AUnit) r) end
  | KNeg d a => put_out d (iv_neg cmp (ar_neg A) (s a)) s
  | KCompare a b =>
      (s, Ret (ABools [iv_lt cmp (s a) (s b); iv_le cmp (s a) (s b); iv_gt cmp (s a) (s b); iv_ge cmp (s a) (s b); iv_eq cmp (s a) (s b);
                       iv_contains_interval cmp (s a) (s b); iv_can_be_merged cmp (s a) (s b); iv_intersects cmp (s a) (s b);
                       iv_is_empty (s a); iv_is_single cmp (s a)]
                      (iv_partial_cmp cmp (s a) (s b))))
  | KCompareVal a v =>
      (s, Ret (ABools [iv_contains_val cmp (s a) v; ivv_lt cmp (s a) v; ivv_le cmp (s a) v; ivv_gt cmp (s a) v; ivv_ge cmp (s a) v; ivv_eq cmp (s a) v]
                      (ivv_partial_cmp cmp (s a) v)))
  | KEnds a => (s, Ret (AEnds (iv_into_tuple (s a))))
  end.

(** a program; panics are caught *)
Fixpoint run (cs : list (call T U)) (s : store) : store * list (outcome (answer T)) :=
  match cs with
  | [] => (s, [])
  | c :: cs' => let (s1, r) := run_call c s in let (s2, tr) := run cs' s1 in (s2, r :: tr)
  end.
End Run.
