(** The calls of src/circular_buffer/circular.rs together with the storage slots
    they touch, in order, with repetitions: the indexing expressions
    [self.buffer[i]] and the slots std's slice functions go through.  A slot is
    touched when its content is read, written or exchanged; the fields [start]
    and [end] and the length of the storage are not slots. *)
From Verif Require Import Base CBSpec CBModel.
Local Open Scope outcome_scope.
Set Implicit Arguments.

Section Model.
Variable T : Type.
Variable E : machine.
(** which elements have a panicking destructor *)
Variable dp : T -> bool.

(** A computation of [CBModel] and the slots touched; [P] names the slots. *)
Definition W (P S A : Type) : Type := S -> (S * list T * outcome A) * list P.

(** a computation touching no slot: any Rust expression with only fields *)
Definition plain {P S A} (m : M T S A) : W P S A := fun s => (m s, []).

(** sequencing of two Rust statements, as [bind] of [CBModel] *)
Definition wbind {P S A B} (m : W P S A) (f : A -> W P S B) : W P S B := fun s =>
  match m s with
  | ((s1, d1, Ret a), t1) => match f a s1 with ((s2, d2, o), t2) => ((s2, d1 ++ d2, o), t1 ++ t2) end
  | ((s1, d1, Panic), t1) => ((s1, d1, Panic), t1)
  | ((s1, d1, Abort), t1) => ((s1, d1, Abort), t1)
  | ((s1, d1, UB), t1) => ((s1, d1, UB), t1)
  | ((s1, d1, NoFuel), t1) => ((s1, d1, NoFuel), t1)
  end.

(** Rust's [let x = m; k] and [m; k] *)
Notation "x <- m ;; k" := (wbind m (fun x => k)) (at level 61, m at next level, right associativity).
Notation "m ;;; k" := (wbind m (fun _ => k)) (at level 61, right associativity).

(** [m] runs while the local variable [v] is alive, as in [CBModel] *)
Definition unwinding_w {P S A} (v : T) (m : W P S A) : W P S A := fun s =>
  (unwinding dp v (fun s => fst (m s)) s, snd (m s)).

(** the same for an iterator still holding [vs] *)
Definition unwinding_list_w {P S A} (vs : list T) (m : W P S A) : W P S A := fun s =>
  (unwinding_list dp vs (fun s => fst (m s)) s, snd (m s)).

(** the slot [self.buffer[i]] of an indexing expression; out of range the
    expression panics before touching anything *)
Definition slot_of (c : cb T) (i : nat) : list nat := if i <? length (buffer c) then [i] else [].

(** circular.rs:743-748 [pop_at]: the exchange of line 746. *)
Definition pop_at_w (i : nat) : W nat (cb T) T := fun c => (pop_at i c, slot_of c i).

(** circular.rs:750-753 [push_at]: the write of line 752. *)
Definition push_at_w (val : T) (i : nat) : W nat (cb T) unit := fun c => (push_at val i c, slot_of c i).

(** circular.rs:315-322 [pop_back]. *)
Definition pop_back_w : W nat (cb T) (option T) :=
  e <- plain (gets (fun c => Ret (is_empty c))) ;;
  if e : bool then plain (ret None)
  else
    plain (decr_end E) ;;;
    i <- plain (gets (fun c => Ret (end_ c))) ;;
    v <- pop_at_w i ;;
    plain (ret (Some v)).

(** circular.rs:341-349 [pop_front]. *)
Definition pop_front_w : W nat (cb T) (option T) :=
  e <- plain (gets (fun c => Ret (is_empty c))) ;;
  if e : bool then plain (ret None)
  else
    i <- plain (gets (fun c => Ret (start c))) ;;
    tmp <- pop_at_w i ;;
    unwinding_w tmp (plain (incr_start E)) ;;;
    plain (ret (Some tmp)).

(** circular.rs:250-260 [push_back]. *)
Definition push_back_w (val : T) : W nat (cb T) unit :=
  proceed <- unwinding_w val (
    full <- plain (gets (is_full E)) ;;
    if full : bool then
      k <- plain (gets (capacity E)) ;;
      if k =? 0 then plain (ret false)
      else (x <- pop_front_w ;; plain (drop_opt dp x) ;;; plain (ret true))
    else plain (ret true)) ;;
  if proceed : bool then
    (i <- plain (gets (fun c => Ret (end_ c))) ;; push_at_w val i) ;;;
    plain (incr_end E)
  else plain (drop_val dp val).

(** circular.rs:286-296 [push_front]. *)
Definition push_front_w (val : T) : W nat (cb T) unit :=
  proceed <- unwinding_w val (
    full <- plain (gets (is_full E)) ;;
    if full : bool then
      k <- plain (gets (capacity E)) ;;
      if k =? 0 then plain (ret false)
      else (x <- pop_back_w ;; plain (drop_opt dp x) ;;; plain (ret true))
    else plain (ret true)) ;;
  if proceed : bool then
    unwinding_w val (plain (decr_start E)) ;;;
    i <- plain (gets (fun c => Ret (start c))) ;;
    push_at_w val i
  else plain (drop_val dp val).

(** circular.rs:366-370 [clear], the loop. *)
Fixpoint clear_loop_w (fuel : nat) : W nat (cb T) unit :=
  match fuel with
  | 0 => plain (liftO NoFuel)
  | S f =>
      x <- pop_back_w ;;
      match x with
      | None => plain (ret tt)
      | Some v => plain (drop_val dp v) ;;; clear_loop_w f
      end
  end.

(** circular.rs:366-370 [clear]. *)
Definition clear_w : W nat (cb T) unit := fun c => clear_loop_w (S (length (buffer c))) c.

(** the first [n] items of a [Drain] dropped one by one (std [Skip]) *)
Fixpoint drain_skip_w (n : nat) : W nat (cb T) unit :=
  match n with
  | 0 => plain (ret tt)
  | S n' =>
      x <- pop_front_w ;;
      match x with
      | None => plain (ret tt)
      | Some v => plain (drop_val dp v) ;;; drain_skip_w n'
      end
  end.

(** collecting the remaining items of a [Drain] *)
Fixpoint drain_all_w (fuel : nat) : W nat (cb T) (list T) :=
  match fuel with
  | 0 => plain (liftO NoFuel)
  | S f =>
      x <- pop_front_w ;;
      match x with
      | None => plain (ret [])
      | Some v => vs <- drain_all_w f ;; plain (ret (v :: vs))
      end
  end.

(** [cb.drain().take(n).collect()]: iter.rs:29-31 called at most [n] times. *)
Fixpoint drain_take_w (n : nat) : W nat (cb T) (list T) :=
  match n with
  | 0 => plain (ret [])
  | S n' =>
      x <- pop_front_w ;;
      match x with
      | None => plain (ret [])
      | Some v => vs <- drain_take_w n' ;; plain (ret (v :: vs))
      end
  end.

(** circular.rs:165-181 [resize].  The slots touched are [inl i] of the old
    storage and [inr i] of the new one, each written once when it is filled. *)
Definition resize_w (cap : nat) : W (nat + nat) (cb T) unit :=
  let old {A} (m : W nat (cb T) A) : W (nat + nat) (cb T) A := fun c => (fst (m c), map inl (snd (m c))) in
  n <- plain (liftO (uadd E cap 1)) ;;
  _v <- plain (liftO (vec_with_capacity T E n)) ;;
  to_be_skipped <- plain (gets (fun c =>
    let* l := len E c in
    if cap <? l then (let* l' := len E c in usub E l' cap) else Ret 0)) ;;
  old (drain_skip_w to_be_skipped) ;;;
  vs <- old (fun c => drain_all_w (S (length (buffer c))) c) ;;
  let new_buf := map Init vs in
  let elem_num := length new_buf in
  k <- plain (liftO (let* d := usub E cap (length new_buf) in uadd E d 1)) ;;
  new_buf' <- plain (liftO (vec_push_uninit E new_buf k)) ;;
  fun c => (modify (fun _ => CB new_buf' 0 elem_num) c, map inr (seq 0 (length new_buf'))).

(** circular.rs:824-831 [Extend<T>] and 833-840 [Extend<&T>]. *)
Fixpoint extend_w (xs : list T) : W nat (cb T) unit :=
  match xs with
  | [] => plain (ret tt)
  | x :: xs' => unwinding_list_w xs' (push_back_w x) ;;; extend_w xs'
  end.

(** running a computation on one of two buffers: [inl] are the slots of the
    first, [inr] those of the second *)
Definition on_fst_w {S1 S2 A} (m : W nat S1 A) : W (nat + nat) (S1 * S2) A := fun s =>
  (on_fst (fun s => fst (m s)) s, map inl (snd (m (fst s)))).
(** the same for the second buffer *)
Definition on_snd_w {S1 S2 A} (m : W nat S2 A) : W (nat + nat) (S1 * S2) A := fun s =>
  (on_snd (fun s => fst (m s)) s, map inr (snd (m (snd s)))).

(** circular.rs:436-438 [append], the loop. *)
Fixpoint append_loop_w (fuel : nat) : W (nat + nat) (cb T * cb T) unit :=
  match fuel with
  | 0 => plain (liftO NoFuel)
  | S f =>
      x <- on_snd_w pop_front_w ;;
      match x with
      | None => plain (ret tt)
      | Some v => on_fst_w (push_back_w v) ;;; append_loop_w f
      end
  end.

(** circular.rs:436-438 [append]. *)
Definition append_w : W (nat + nat) (cb T * cb T) unit := fun s =>
  append_loop_w (S (length (buffer (snd s)))) s.

(** circular.rs:842-849 and iter.rs:35-53 [IntoIter]: [n] items taken, the rest
    dropped. *)
Definition into_iter_take_w (n : nat) : W nat (cb T) (list T) :=
  vs <- drain_take_w n ;;
  clear_w ;;;
  plain (ret vs).

(** dereferencing [&*self.buffer[i]] *)
Definition read_slot_w (i : nat) : W nat (cb T) T := fun c => (gets (fun c => read_slot c i) c, slot_of c i).

(** writing through [&mut *self.buffer[i]] *)
Definition modify_slot_w (i : nat) (f : T -> T) : W nat (cb T) unit := fun c => (modify_slot i f c, slot_of c i).

(** circular.rs:762-768 [Index]. *)
Definition index_w (i : nat) : W nat (cb T) T :=
  j <- plain (gets (fun c => internal_index E c i)) ;; read_slot_w j.

(** circular.rs:770-774 [IndexMut]. *)
Definition index_mut_w (i : nat) (f : T -> T) : W nat (cb T) unit :=
  j <- plain (gets (fun c => internal_index E c i)) ;; modify_slot_w j f.

(** circular.rs:477-483 [first]. *)
Definition first_w : W nat (cb T) (option T) :=
  e <- plain (gets (fun c => Ret (is_empty c))) ;;
  if e : bool then plain (ret None)
  else (j <- plain (gets (fun c => internal_index E c 0)) ;; v <- read_slot_w j ;; plain (ret (Some v))).

(** circular.rs:502-508 [first_mut]. *)
Definition first_mut_w (f : T -> T) : W nat (cb T) bool :=
  e <- plain (gets (fun c => Ret (is_empty c))) ;;
  if e : bool then plain (ret false)
  else (j <- plain (gets (fun c => internal_index E c 0)) ;; modify_slot_w j f ;;; plain (ret true)).

(** circular.rs:526-532 [last]. *)
Definition last_w : W nat (cb T) (option T) :=
  e <- plain (gets (fun c => Ret (is_empty c))) ;;
  if e : bool then plain (ret None)
  else (j <- plain (gets (fun c => let* l := len E c in let* k := usub E l 1 in internal_index E c k)) ;;
        v <- read_slot_w j ;; plain (ret (Some v))).

(** circular.rs:551-557 [last_mut]. *)
Definition last_mut_w (f : T -> T) : W nat (cb T) bool :=
  e <- plain (gets (fun c => Ret (is_empty c))) ;;
  if e : bool then plain (ret false)
  else (j <- plain (gets (fun c => let* l := len E c in let* k := usub E l 1 in internal_index E c k)) ;;
        modify_slot_w j f ;;; plain (ret true)).

(** the slots of the two slices of circular.rs:579-588 and 614-625 *)
Definition sliced (c : cb T) : list nat :=
  if start c <=? end_ c then seq (start c) (end_ c - start c)
  else seq (start c) (length (buffer c) - start c) ++ seq 0 (end_ c).

(** circular.rs:388-392 [iter], traversed to the end: every item of the two
    slices is dereferenced. *)
Definition iter_w : W nat (cb T) (list T) := fun c => (gets (@iter T) c, sliced c).

(** circular.rs:411-414 [iter_mut], traversed to the end. *)
Definition iter_mut_with_w (g : list T -> list T) : W nat (cb T) unit := fun c => (iter_mut_with g c, sliced c).

(** circular.rs:645, [rotate_left]: std moves the content of every slot. *)
Definition rotate_w : W nat (cb T) unit :=
  b <- (fun c => (gets (fun c => rotate_left (buffer c) (start c)) c, seq 0 (length (buffer c)))) ;;
  plain (modify (set_buffer b)).

(** circular.rs:644-650 [linearize], and the reading of the slice. *)
Definition linearize_w : W nat (cb T) (list T) :=
  rotate_w ;;;
  e <- plain (gets (len E)) ;;
  plain (modify (set_end e)) ;;;
  plain (modify (set_start 0)) ;;;
  fun c => (gets (fun c => let* s := slice_range (buffer c) 0 (end_ c) in read_slots s) c, seq 0 (end_ c)).

(** the caller rewrites the slice returned by [linearize] with [g] *)
Definition linearize_with_w (g : list T -> list T) : W nat (cb T) unit :=
  l <- linearize_w ;;
  plain (modify (fun c => set_buffer (write_at 0 (g l) (buffer c)) c)).

(** std [slice::swap], circular.rs:670 and 691: both slots. *)
Definition slice_swap_w (i j : nat) : W nat (cb T) unit := fun c =>
  (bind (gets (fun c => slice_swap (buffer c) i j)) (fun b => modify (set_buffer b)) c,
   if (i <? length (buffer c)) && (j <? length (buffer c)) then [i; j] else []).

(** circular.rs:669-671 [swap]. *)
Definition swap_w (a b : nat) : W nat (cb T) unit :=
  i <- plain (gets (fun c => internal_index E c a)) ;;
  j <- plain (gets (fun c => internal_index E c b)) ;;
  slice_swap_w i j.

(** circular.rs:690-691, the body of the loop of [reverse]. *)
Definition reverse_body_w (a : nat) : W nat (cb T) unit :=
  b <- plain (gets (fun c => let* l := len E c in let* t := usub E l a in usub E t 1)) ;;
  swap_w a b.

(** circular.rs:689 [for a in 0..self.len()/2]. *)
Fixpoint reverse_loop_w (range : list nat) : W nat (cb T) unit :=
  match range with
  | [] => plain (ret tt)
  | a :: r => reverse_body_w a ;;; reverse_loop_w r
  end.

(** circular.rs:688-693 [reverse]. *)
Definition reverse_w : W nat (cb T) unit :=
  l <- plain (gets (len E)) ;;
  reverse_loop_w (seq 0 (Nat.div2 l)).

(** the result of a call turned into what is returned *)
Definition wmap {P S A B} (f : A -> B) (m : W P S A) : W P S B := v <- m ;; plain (ret (f v)).

(** the slots of the old storage among those touched by [resize] *)
Definition lefts (t : list (nat + nat)) : list nat :=
  flat_map (fun x => match x with inl i => [i] | inr _ => [] end) t.

(** Every call a user can make on one buffer ([CBSpec.op]); for [resize] only
    the slots of the old storage are listed. *)
Definition cb_step_w (o : op T) : W nat (cb T) (out T) :=
  match o with
  | OPushBack v => wmap (fun _ => RUnit) (push_back_w v)
  | OPushFront v => wmap (fun _ => RUnit) (push_front_w v)
  | OPopBack => wmap (@ROpt T) pop_back_w
  | OPopFront => wmap (@ROpt T) pop_front_w
  | OClear => wmap (fun _ => RUnit) clear_w
  | OResize k => wmap (fun _ => RUnit) (fun c => (fst (resize_w k c), lefts (snd (resize_w k c))))
  | OLen => plain (gets (fun c => omap RNat (len E c)))
  | OCapacity => plain (gets (fun c => omap RNat (capacity E c)))
  | OIsEmpty => plain (gets (fun c => Ret (RBool (is_empty c))))
  | OIsFull => plain (gets (fun c => omap RBool (is_full E c)))
  | OIndex i => wmap (@RElem T) (index_w i)
  | OIndexMut i f => wmap (fun _ => RUnit) (index_mut_w i f)
  | OFirst => wmap (@ROpt T) first_w
  | OFirstMut f => wmap RBool (first_mut_w f)
  | OLast => wmap (@ROpt T) last_w
  | OLastMut f => wmap RBool (last_mut_w f)
  | OIter => wmap (@RList T) iter_w
  | OIterMut g => wmap (fun _ => RUnit) (iter_mut_with_w g)
  | OLinearize => wmap (@RList T) linearize_w
  | OLinearizeMut g => wmap (fun _ => RUnit) (linearize_with_w g)
  | OSwap a b => wmap (fun _ => RUnit) (swap_w a b)
  | OReverse => wmap (fun _ => RUnit) reverse_w
  | OExtend xs => wmap (fun _ => RUnit) (extend_w xs)
  | ODrain n => wmap (@RList T) (drain_take_w n)
  end.

End Model.
