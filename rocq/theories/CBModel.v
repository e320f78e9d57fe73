(** Model of src/circular_buffer/circular.rs and src/circular_buffer/iter.rs.

    A method taking [&mut self] becomes a computation [M S A]: from the state
    it produces the state left behind, the list of elements whose destructor
    ran (in order) and the outcome.  References returned by accessors are
    modelled by the value they point to; mutable references by the function
    the caller applies to the referent. *)
From Verif Require Import Base.
Local Open Scope outcome_scope.

Set Implicit Arguments.

(** circular.rs:51 [ManuallyDrop<T>] element of the storage; [Uninit] is the
    content produced by [mem::uninitialized()]. *)
Inductive slot (T : Type) : Type :=
| Uninit
| Init (v : T).
Arguments Uninit {T}.
Arguments Init {T} v.

(** circular.rs:49-54 [struct CircularBuffer]. *)
Record cb (T : Type) : Type := CB {
  buffer : list (slot T);
  start : nat;
  end_ : nat
}.

(** [l[i] = x] for an index known to be in range (no effect otherwise; every
    use below checks the range first). *)
Fixpoint upd {A} (l : list A) (i : nat) (x : A) : list A :=
  match l, i with
  | [], _ => []
  | _ :: t, 0 => x :: t
  | h :: t, S j => h :: upd t j x
  end.

Section Model.
Variable T : Type.
Variable E : machine.
(** which elements have a panicking destructor *)
Variable dp : T -> bool.

(** ** The monad *)
Definition M (S A : Type) : Type := S -> S * list T * outcome A.

(** returning a value: no effect (any Rust expression without one) *)
Definition ret {S A} (a : A) : M S A := fun s => (s, [], Ret a).

(** sequencing of two Rust statements: the second runs only if the first
    returned; the destructor logs are concatenated *)
Definition bind {S A B} (m : M S A) (f : A -> M S B) : M S B := fun s =>
  match m s with
  | (s1, d1, Ret a) => match f a s1 with (s2, d2, o) => (s2, d1 ++ d2, o) end
  | (s1, d1, Panic) => (s1, d1, Panic)
  | (s1, d1, Abort) => (s1, d1, Abort)
  | (s1, d1, UB) => (s1, d1, UB)
  | (s1, d1, NoFuel) => (s1, d1, NoFuel)
  end.

(** Rust's [let x = m; k] and [m; k] *)
Notation "x <- m ;; k" := (bind m (fun x => k)) (at level 61, m at next level, right associativity).
Notation "m ;;; k" := (bind m (fun _ => k)) (at level 61, right associativity).

(** a Rust expression that touches no buffer *)
Definition liftO {S A} (o : outcome A) : M S A := fun s => (s, [], o).
(** a call of a [&self] method *)
Definition gets {S A} (f : S -> outcome A) : M S A := fun s => (s, [], f s).
(** an assignment to fields of the buffer *)
Definition modify {S} (f : S -> S) : M S unit := fun s => (f s, [], Ret tt).

(** a value goes out of scope normally: its destructor runs and may panic *)
Definition drop_val {S} (v : T) : M S unit := fun s =>
  (s, [v], if dp v then Panic else Ret tt).

(** [m] runs while the local variable [v] is alive: if [m] unwinds, [v] is
    dropped; a second panic aborts *)
Definition unwinding {S A} (v : T) (m : M S A) : M S A := fun s =>
  match m s with
  | (s1, d, Panic) => (s1, d ++ [v], if dp v then Abort else Panic)
  | r => r
  end.

(** the same for a whole owned iterator (e.g. [vec::IntoIter]) still holding
    [vs].  If the outcome is [Abort] the process stops at the first of [vs]
    whose destructor panics; the log lists all of [vs] even then. *)
Definition unwinding_list {S A} (vs : list T) (m : M S A) : M S A := fun s =>
  match m s with
  | (s1, d, Panic) => (s1, d ++ vs, if existsb dp vs then Abort else Panic)
  | r => r
  end.

(** circular.rs:51 assignment to the field [buffer] *)
Definition set_buffer (b : list (slot T)) (c : cb T) : cb T := CB b (start c) (end_ c).
(** circular.rs:52 assignment to the field [start] *)
Definition set_start (i : nat) (c : cb T) : cb T := CB (buffer c) i (end_ c).
(** circular.rs:53 assignment to the field [end] *)
Definition set_end (i : nat) (c : cb T) : cb T := CB (buffer c) (start c) i.

(** ** Construction *)

(** [Vec] growth: appending [n] uninitialised slots one by one; growth beyond
    [alloc_max] panics (capacity overflow). *)
Definition vec_push_uninit (v : list (slot T)) (n : nat) : outcome (list (slot T)) :=
  if length v + n <=? alloc_max E then Ret (v ++ repeat Uninit n) else Panic.

(** [Vec::with_capacity(n)]: an empty vector; panics if [n] cannot be allocated. *)
Definition vec_with_capacity (n : nat) : outcome (list (slot T)) :=
  if n <=? alloc_max E then Ret [] else Panic.

(** circular.rs:89-100 [with_capacity]. *)
Definition with_capacity (capacity : nat) : outcome (cb T) :=
  let* n := uadd E capacity 1 in
  let* v := vec_with_capacity n in
  let* m := uadd E capacity 1 in
  let* b := vec_push_uninit v m in
  Ret (CB b 0 0).

(** circular.rs:71-73 [new]. *)
Definition new (capacity : nat) : outcome (cb T) := with_capacity capacity.

(** circular.rs:782-795 [FromIterator<T>] and 797-809 [FromIterator<&T>]
    (the latter clones each element; [Clone] of elements is the identity here). *)
Definition from_iter (xs : list T) : outcome (cb T) :=
  let* b := vec_push_uninit (map Init xs) 1 in
  let* e := usub E (length b) 1 in
  Ret (CB b 0 e).

(** circular.rs:811-822 [From<Vec<T>>].  The uninitialised value pushed at
    814 is a plain [T], not a [ManuallyDrop<T>]: if [Vec::push] panics
    (capacity overflow) it is dropped while unwinding, which is UB when [T]
    has drop glue ([droppable]). *)
Definition from_vec (droppable : bool) (xs : list T) : outcome (cb T) :=
  let buf_len := length xs in
  match vec_push_uninit (map Init xs) 1 with
  | Panic => if droppable then UB else Panic
  | r => let* b := r in Ret (CB b 0 buf_len)
  end.

(** ** Observers *)

(** circular.rs:119-125 [len]. *)
Definition len (c : cb T) : outcome nat :=
  if start c <=? end_ c then usub E (end_ c) (start c)
  else let* t := uadd E (length (buffer c)) (end_ c) in usub E t (start c).

(** circular.rs:144-146 [capacity]. *)
Definition capacity (c : cb T) : outcome nat := usub E (length (buffer c)) 1.

(** circular.rs:201-203 [is_empty]. *)
Definition is_empty (c : cb T) : bool := end_ c =? start c.

(** circular.rs:223-225 [is_full]. *)
Definition is_full (c : cb T) : outcome bool :=
  let* l := len c in
  let* k := capacity c in
  Ret (l =? k).

(** ** Private helpers *)

(** circular.rs:697-707 [internal_index]. *)
Definition internal_index (c : cb T) (index : nat) : outcome nat :=
  let* l := len c in
  if l <=? index then Panic
  else
    let* s := uadd E (start c) index in
    if s <? length (buffer c) then uadd E (start c) index
    else let* t := uadd E index (start c) in usub E t (length (buffer c)).

(** [debug_assert!(cond)]. *)
Definition debug_assert (cond : outcome bool) : outcome unit :=
  if debug_build E then let* b := cond in if b then Ret tt else Panic
  else Ret tt.

(** circular.rs:709-715 [incr_end]. *)
Definition incr_end : M (cb T) unit :=
  gets (fun c => debug_assert (omap negb (is_full c))) ;;;
  e <- gets (fun c => uadd E (end_ c) 1) ;;
  modify (set_end e) ;;;
  modify (fun c => if end_ c =? length (buffer c) then set_end 0 c else c).

(** circular.rs:717-724 [decr_end]. *)
Definition decr_end : M (cb T) unit :=
  gets (fun c => debug_assert (Ret (negb (is_empty c)))) ;;;
  e <- gets (fun c => if end_ c =? 0 then usub E (length (buffer c)) 1
                      else usub E (end_ c) 1) ;;
  modify (set_end e).

(** circular.rs:726-732 [incr_start]. *)
Definition incr_start : M (cb T) unit :=
  gets (fun c => debug_assert (Ret (negb (is_empty c)))) ;;;
  s <- gets (fun c => uadd E (start c) 1) ;;
  modify (set_start s) ;;;
  modify (fun c => if start c =? length (buffer c) then set_start 0 c else c).

(** circular.rs:734-741 [decr_start]. *)
Definition decr_start : M (cb T) unit :=
  gets (fun c => debug_assert (omap negb (is_full c))) ;;;
  s <- gets (fun c => if start c =? 0 then usub E (length (buffer c)) 1
                      else usub E (start c) 1) ;;
  modify (set_start s).

(** circular.rs:743-748 [pop_at]: the slot is swapped with an uninitialised
    one and its value moved out; moving out of an uninitialised slot is UB. *)
Definition pop_at (index : nat) : M (cb T) T := fun c =>
  match nth_error (buffer c) index with
  | None => (c, [], Panic)
  | Some Uninit => (c, [], UB)
  | Some (Init v) => (set_buffer (upd (buffer c) index Uninit) c, [], Ret v)
  end.

(** circular.rs:750-753 [push_at]: overwrites the slot without dropping the
    old content (ManuallyDrop).  If the index is out of range the new value,
    already wrapped in ManuallyDrop, is leaked. *)
Definition push_at (val : T) (index : nat) : M (cb T) unit := fun c =>
  if index <? length (buffer c)
  then (set_buffer (upd (buffer c) index (Init val)) c, [], Ret tt)
  else (c, [], Panic).

(** ** Push and pop *)

(** circular.rs:315-322 [pop_back]. *)
Definition pop_back : M (cb T) (option T) :=
  e <- gets (fun c => Ret (is_empty c)) ;;
  if e : bool then ret None
  else
    decr_end ;;;
    i <- gets (fun c => Ret (end_ c)) ;;
    v <- pop_at i ;;
    ret (Some v).

(** circular.rs:341-349 [pop_front]. *)
Definition pop_front : M (cb T) (option T) :=
  e <- gets (fun c => Ret (is_empty c)) ;;
  if e : bool then ret None
  else
    i <- gets (fun c => Ret (start c)) ;;
    tmp <- pop_at i ;;
    unwinding tmp incr_start ;;;
    ret (Some tmp).

(** the temporary returned by a discarded [self.pop_front();] is dropped *)
Definition drop_opt {S} (o : option T) : M S unit :=
  match o with None => ret tt | Some v => drop_val v end.

(** circular.rs:250-260 [push_back].  [val] is alive until it is moved into
    the storage, hence [unwinding]; on the early return it is dropped. *)
Definition push_back (val : T) : M (cb T) unit :=
  proceed <- unwinding val (
    full <- gets is_full ;;
    if full : bool then
      k <- gets capacity ;;
      if k =? 0 then ret false
      else (x <- pop_front ;; drop_opt x ;;; ret true)
    else ret true) ;;
  if proceed : bool then
    (i <- gets (fun c => Ret (end_ c)) ;; push_at val i) ;;;
    incr_end
  else drop_val val.

(** circular.rs:286-296 [push_front]. *)
Definition push_front (val : T) : M (cb T) unit :=
  proceed <- unwinding val (
    full <- gets is_full ;;
    if full : bool then
      k <- gets capacity ;;
      if k =? 0 then ret false
      else (x <- pop_back ;; drop_opt x ;;; ret true)
    else ret true) ;;
  if proceed : bool then
    unwinding val decr_start ;;;
    i <- gets (fun c => Ret (start c)) ;;
    push_at val i
  else drop_val val.

(** circular.rs:366-370 [clear]: [while let Some(val) = self.pop_back() { drop(val) }]. *)
Fixpoint clear_loop (fuel : nat) : M (cb T) unit :=
  match fuel with
  | 0 => liftO NoFuel
  | S f =>
      x <- pop_back ;;
      match x with
      | None => ret tt
      | Some v => drop_val v ;;; clear_loop f
      end
  end.

(** circular.rs:366-370 [clear] with enough fuel for the loop *)
Definition clear : M (cb T) unit := fun c => clear_loop (S (length (buffer c))) c.

(** circular.rs:756-760 [Drop]: after [clear] the storage is freed without
    running element destructors (ManuallyDrop). *)
Definition drop_cb : M (cb T) unit := clear.

(** ** Drain and the operations built on it (circular.rs:457-459, iter.rs:14-32;
    [Drain] has no destructor, so unconsumed elements stay) *)

(** [Skip::next] / [Iterator::nth] of std: drops the first [n] items one by one. *)
Fixpoint drain_skip (n : nat) : M (cb T) unit :=
  match n with
  | 0 => ret tt
  | S n' =>
      x <- pop_front ;;
      match x with
      | None => ret tt
      | Some v => drop_val v ;;; drain_skip n'
      end
  end.

(** collecting the remaining items of a [Drain] *)
Fixpoint drain_all (fuel : nat) : M (cb T) (list T) :=
  match fuel with
  | 0 => liftO NoFuel
  | S f =>
      x <- pop_front ;;
      match x with
      | None => ret []
      | Some v => vs <- drain_all f ;; ret (v :: vs)
      end
  end.

(** [cb.drain().take(n).collect()]: iter.rs:29-31 called at most [n] times. *)
Fixpoint drain_take (n : nat) : M (cb T) (list T) :=
  match n with
  | 0 => ret []
  | S n' =>
      x <- pop_front ;;
      match x with
      | None => ret []
      | Some v => vs <- drain_take n' ;; ret (v :: vs)
      end
  end.

(** circular.rs:165-181 [resize].  The drained values live in [new_buf] as
    ManuallyDrop, so they are leaked (not dropped) should a later step panic. *)
Definition resize (cap : nat) : M (cb T) unit :=
  n <- liftO (uadd E cap 1) ;;
  _v <- liftO (vec_with_capacity n) ;;
  to_be_skipped <- gets (fun c =>
    let* l := len c in
    if cap <? l then (let* l' := len c in usub E l' cap) else Ret 0) ;;
  drain_skip to_be_skipped ;;;
  vs <- (fun c => drain_all (S (length (buffer c))) c) ;;
  let new_buf := map Init vs in
  let elem_num := length new_buf in
  k <- liftO (let* d := usub E cap (length new_buf) in uadd E d 1) ;;
  new_buf' <- liftO (vec_push_uninit new_buf k) ;;
  modify (fun _ => CB new_buf' 0 elem_num).

(** circular.rs:824-831 [Extend<T>] and 833-840 [Extend<&T>].  The iterator
    owns the elements not yet yielded; they are dropped if [push_back] unwinds. *)
Fixpoint extend (xs : list T) : M (cb T) unit :=
  match xs with
  | [] => ret tt
  | x :: xs' => unwinding_list xs' (push_back x) ;;; extend xs'
  end.

(** running a computation on one component of a pair of buffers *)
Definition on_fst {S1 S2 A} (m : M S1 A) : M (S1 * S2) A := fun s =>
  match m (fst s) with (s1, d, o) => ((s1, snd s), d, o) end.
(** the same for the second buffer *)
Definition on_snd {S1 S2 A} (m : M S2 A) : M (S1 * S2) A := fun s =>
  match m (snd s) with (s2, d, o) => ((fst s, s2), d, o) end.

(** circular.rs:436-438 [append]: [self.extend(other.drain())], i.e. the loop
    of 827-829 fed by iter.rs:29-31. *)
Fixpoint append_loop (fuel : nat) : M (cb T * cb T) unit :=
  match fuel with
  | 0 => liftO NoFuel
  | S f =>
      x <- on_snd pop_front ;;
      match x with
      | None => ret tt
      | Some v => on_fst (push_back v) ;;; append_loop f
      end
  end.

(** circular.rs:436-438 [append] with enough fuel for the loop *)
Definition append : M (cb T * cb T) unit := fun s =>
  append_loop (S (length (buffer (snd s)))) s.

(** circular.rs:842-849 and iter.rs:35-53 [IntoIter]: take [n] elements, then
    the iterator (which owns the buffer) is dropped. *)
Definition into_iter_take (n : nat) : M (cb T) (list T) :=
  vs <- drain_take n ;;
  drop_cb ;;;
  ret vs.

(** ** Element access *)

(** dereferencing a slot: [&*self.buffer[i]] *)
Definition read_slot (c : cb T) (i : nat) : outcome T :=
  match nth_error (buffer c) i with
  | None => Panic
  | Some Uninit => UB
  | Some (Init v) => Ret v
  end.

(** modifying through [&mut *self.buffer[i]] with the caller's [f] *)
Definition modify_slot (i : nat) (f : T -> T) : M (cb T) unit := fun c =>
  match nth_error (buffer c) i with
  | None => (c, [], Panic)
  | Some Uninit => (c, [], UB)
  | Some (Init v) => (set_buffer (upd (buffer c) i (Init (f v))) c, [], Ret tt)
  end.

(** circular.rs:762-768 [Index]. *)
Definition index (c : cb T) (i : nat) : outcome T :=
  let* j := internal_index c i in read_slot c j.

(** circular.rs:770-774 [IndexMut]. *)
Definition index_mut (i : nat) (f : T -> T) : M (cb T) unit :=
  j <- gets (fun c => internal_index c i) ;; modify_slot j f.

(** circular.rs:477-483 [first]. *)
Definition first (c : cb T) : outcome (option T) :=
  if is_empty c then Ret None
  else let* j := internal_index c 0 in omap Some (read_slot c j).

(** circular.rs:502-508 [first_mut]; returns whether there was an element. *)
Definition first_mut (f : T -> T) : M (cb T) bool :=
  e <- gets (fun c => Ret (is_empty c)) ;;
  if e : bool then ret false
  else (j <- gets (fun c => internal_index c 0) ;; modify_slot j f ;;; ret true).

(** circular.rs:526-532 [last]. *)
Definition last (c : cb T) : outcome (option T) :=
  if is_empty c then Ret None
  else
    let* l := len c in
    let* k := usub E l 1 in
    let* j := internal_index c k in omap Some (read_slot c j).

(** circular.rs:551-557 [last_mut]. *)
Definition last_mut (f : T -> T) : M (cb T) bool :=
  e <- gets (fun c => Ret (is_empty c)) ;;
  if e : bool then ret false
  else
    j <- gets (fun c => let* l := len c in let* k := usub E l 1 in internal_index c k) ;;
    modify_slot j f ;;; ret true.

(** ** Slices and iteration *)

(** [&l[a..b]]: panics unless [a <= b <= l.len()]. *)
Definition slice_range {A} (l : list A) (a b : nat) : outcome (list A) :=
  if (a <=? b) && (b <=? length l) then Ret (firstn (b - a) (skipn a l)) else Panic.

(** [transmute] of a slice of ManuallyDrop<T> to a slice of T: every element
    must be initialised. *)
Fixpoint read_slots (l : list (slot T)) : outcome (list T) :=
  match l with
  | [] => Ret []
  | Uninit :: _ => UB
  | Init v :: t => let* vs := read_slots t in Ret (v :: vs)
  end.

(** circular.rs:579-588 [slices]. *)
Definition slices (c : cb T) : outcome (list T * list T) :=
  let* a := (if start c <=? end_ c then slice_range (buffer c) (start c) (end_ c)
             else slice_range (buffer c) (start c) (length (buffer c))) in
  let* b := (if start c <=? end_ c then slice_range (buffer c) 0 0
             else slice_range (buffer c) 0 (end_ c)) in
  let* x := read_slots a in
  let* y := read_slots b in
  Ret (x, y).

(** circular.rs:388-392 [iter]: the elements a complete traversal yields. *)
Definition iter (c : cb T) : outcome (list T) :=
  let* p := slices c in Ret (fst p ++ snd p).

(** [split_at_mut(mid)]: panics if [mid > len]. *)
Definition split_at {A} (l : list A) (mid : nat) : outcome (list A * list A) :=
  if mid <=? length l then Ret (firstn mid l, skipn mid l) else Panic.

(** overwriting [length vals] slots from offset [off] on *)
Definition write_at (off : nat) (vals : list T) (b : list (slot T)) : list (slot T) :=
  firstn off b ++ map Init vals ++ skipn (off + length vals) b.

(** circular.rs:614-625 [slices_mut]: each slice is given with its offset in
    the storage, where the caller's writes end up. *)
Definition slices_mut (c : cb T) : outcome ((nat * list T) * (nat * list T)) :=
  if start c <=? end_ c then
    let* xy := split_at (buffer c) (end_ c) in
    let* a := slice_range (fst xy) (start c) (end_ c) in
    let* b := slice_range (snd xy) 0 0 in
    let* x := read_slots a in
    let* y := read_slots b in
    Ret ((start c, x), (end_ c, y))
  else
    let* xy := split_at (buffer c) (start c) in
    let* b := slice_range (fst xy) 0 (end_ c) in
    let* x := read_slots (snd xy) in
    let* y := read_slots b in
    Ret ((start c, x), (0, y)).

(** the caller rewrites the two slices with [g] (which keeps their lengths) *)
Definition slices_mut_with (g : list T -> list T -> list T * list T) : M (cb T) unit :=
  p <- gets slices_mut ;;
  modify (fun c =>
    let '((oa, a), (ob, b)) := p in
    let '(a', b') := g a b in
    set_buffer (write_at ob b' (write_at oa a' (buffer c))) c).

(** circular.rs:411-414 [iter_mut]: the caller replaces the sequence of
    elements met by the iterator by [g] of it (same length). *)
Definition iter_mut_with (g : list T -> list T) : M (cb T) unit :=
  slices_mut_with (fun a b =>
    let r := g (a ++ b) in (firstn (length a) r, skipn (length a) r)).

(** [slice::rotate_left(mid)]: panics if [mid > len]. *)
Definition rotate_left {A} (l : list A) (mid : nat) : outcome (list A) :=
  if mid <=? length l then Ret (skipn mid l ++ firstn mid l) else Panic.

(** circular.rs:644-650 [linearize]; returns the contents of the slice. *)
Definition linearize : M (cb T) (list T) :=
  b <- gets (fun c => rotate_left (buffer c) (start c)) ;;
  modify (set_buffer b) ;;;
  e <- gets len ;;
  modify (set_end e) ;;;
  modify (set_start 0) ;;;
  gets (fun c => let* s := slice_range (buffer c) 0 (end_ c) in read_slots s).

(** the caller rewrites the slice returned by [linearize] with [g] *)
Definition linearize_with (g : list T -> list T) : M (cb T) unit :=
  l <- linearize ;;
  modify (fun c => set_buffer (write_at 0 (g l) (buffer c)) c).

(** [slice::swap(i, j)]: panics if an index is out of range. *)
Definition slice_swap {A} (l : list A) (i j : nat) : outcome (list A) :=
  match nth_error l i, nth_error l j with
  | Some x, Some y => Ret (upd (upd l i y) j x)
  | _, _ => Panic
  end.

(** circular.rs:669-671 [swap]. *)
Definition swap (a b : nat) : M (cb T) unit :=
  buf <- gets (fun c =>
    let* i := internal_index c a in
    let* j := internal_index c b in
    slice_swap (buffer c) i j) ;;
  modify (set_buffer buf).

(** circular.rs:690-691, the body of the loop of [reverse]. *)
Definition reverse_body (a : nat) : M (cb T) unit :=
  b <- gets (fun c => let* l := len c in let* t := usub E l a in usub E t 1) ;;
  buf <- gets (fun c =>
    let* i := internal_index c a in
    let* j := internal_index c b in
    slice_swap (buffer c) i j) ;;
  modify (set_buffer buf).

(** circular.rs:689 [for a in 0..self.len()/2]. *)
Fixpoint reverse_loop (range : list nat) : M (cb T) unit :=
  match range with
  | [] => ret tt
  | a :: r => reverse_body a ;;; reverse_loop r
  end.

(** circular.rs:688-693 [reverse]; the loop bound is evaluated once. *)
Definition reverse : M (cb T) unit :=
  l <- gets len ;;
  reverse_loop (seq 0 (Nat.div2 l)).

(** ** Clone, comparison *)

(** circular.rs:49 [#[derive(Clone)]]: [Box<[ManuallyDrop<T>]>::clone] clones
    every slot of the storage, initialised or not.  [bitwise] tells whether
    [T::clone] is a plain copy of the bits (harmless on garbage); otherwise
    cloning an uninitialised slot runs [T::clone] on garbage, which is UB. *)
Fixpoint clone_slots (bitwise : bool) (cl : T -> T) (l : list (slot T)) : outcome (list (slot T)) :=
  match l with
  | [] => Ret []
  | Uninit :: t =>
      if bitwise then let* t' := clone_slots bitwise cl t in Ret (Uninit :: t') else UB
  | Init v :: t => let* t' := clone_slots bitwise cl t in Ret (Init (cl v) :: t')
  end.

(** circular.rs:49 [#[derive(Clone)]] of the three fields *)
Definition clone_cb (bitwise : bool) (cl : T -> T) (c : cb T) : outcome (cb T) :=
  let* b := clone_slots bitwise cl (buffer c) in
  Ret (CB b (start c) (end_ c)).

(** [Iterator::eq] of std (used at circular.rs:875, 884, 893). *)
Fixpoint iter_eq (peq : T -> T -> bool) (a b : list T) : bool :=
  match a, b with
  | [], [] => true
  | x :: a', y :: b' => if peq x y then iter_eq peq a' b' else false
  | _, _ => false
  end.

(** [Iterator::cmp] of std (used at circular.rs:915). *)
Fixpoint iter_cmp (cmp : T -> T -> comparison) (a b : list T) : comparison :=
  match a, b with
  | [], [] => Eq
  | [], _ :: _ => Lt
  | _ :: _, [] => Gt
  | x :: a', y :: b' => match cmp x y with Eq => iter_cmp cmp a' b' | r => r end
  end.

(** [Iterator::partial_cmp] of std (used at circular.rs:902). *)
Fixpoint iter_partial_cmp (pc : T -> T -> option comparison) (a b : list T) : option comparison :=
  match a, b with
  | [], [] => Some Eq
  | [], _ :: _ => Some Lt
  | _ :: _, [] => Some Gt
  | x :: a', y :: b' =>
      match pc x y with Some Eq => iter_partial_cmp pc a' b' | r => r end
  end.

(** circular.rs:870-877 [PartialEq]. *)
Definition cb_eq (peq : T -> T -> bool) (c d : cb T) : outcome bool :=
  let* a := iter c in let* b := iter d in Ret (iter_eq peq a b).

(** circular.rs:879-895 [PartialEq<[T]>] and [PartialEq<&[T]>]. *)
Definition cb_eq_slice (peq : T -> T -> bool) (c : cb T) (s : list T) : outcome bool :=
  let* a := iter c in Ret (iter_eq peq a s).

(** circular.rs:897-904 [PartialOrd]. *)
Definition cb_partial_cmp (pc : T -> T -> option comparison) (c d : cb T) : outcome (option comparison) :=
  let* a := iter c in let* b := iter d in Ret (iter_partial_cmp pc a b).

(** circular.rs:911-917 [Ord]. *)
Definition cb_cmp (cmp : T -> T -> comparison) (c d : cb T) : outcome comparison :=
  let* a := iter c in let* b := iter d in Ret (iter_cmp cmp a b).

End Model.

Arguments ret {T S A} a.
Arguments liftO {T S A} o.
Arguments gets {T S A} f.
Arguments modify {T S} f.
