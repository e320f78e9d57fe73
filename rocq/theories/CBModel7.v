(** More of src/circular_buffer: the blocks of heap memory that calls request and
    return.  The state of a computation is the list of everything requested and
    returned so far by the program, and the state of [CBModel].

    Simplifications: a block is an address and the number of elements it has room for;
    reallocation is returning the block and requesting another one, which may be at the
    same address; requests below the limit [alloc_max] succeed; std's reuse of the block
    of the source when a vector's [into_iter()] is collected is not modelled. *)
From Verif Require Import Base CBSpec CBModel CBRun CBSpec6.
Local Open Scope outcome_scope.
Set Implicit Arguments.

(** circular.rs:91, 166, 784: a [Vec] under construction: its elements, the address of
    its block (none for capacity 0 or elements of size 0) and its capacity *)
Record vec (T : Type) : Type := Vec { v_items : list (slot T); v_at : option nat; v_cap : nat }.

Section Model.
Variable T : Type.
Variable E : machine.
(** which elements have a panicking destructor *)
Variable dp : T -> bool.
(** whether elements have a size *)
Variable sized : bool.
(** the capacity std gives to a full vector of this capacity when it is pushed to *)
Variable grow : nat -> nat.
(** the addresses of new blocks *)
Variable place : list event -> nat.

Notation "x <- m ;; k" := (bind m (fun x => k)) (at level 61, m at next level, right associativity).
Notation "m ;;; k" := (bind m (fun _ => k)) (at level 61, right associativity).

(** a computation with requests for memory *)
Definition H (S A : Type) : Type := M T (list event * S) A.

(** a part of a call that requests and returns no memory (circular.rs:51: a boxed slice
    cannot grow) *)
Definition quiet {S A} (m : M T S A) : H S A := on_snd m.

(** requesting a block with room for [n] elements *)
Definition take {S} (n : nat) : H S (option nat) := fun s =>
  if sized && (0 <? n)
  then ((fst s ++ [Take (place (fst s), n)], snd s), [], Ret (Some (place (fst s))))
  else (s, [], Ret None).

(** returning a block *)
Definition give {S} (a : option nat) (n : nat) : H S unit := fun s =>
  match a with
  | Some a => ((fst s ++ [Give (a, n)], snd s), [], Ret tt)
  | None => (s, [], Ret tt)
  end.

(** [m] runs while a local [Vec<ManuallyDrop<T>>] is alive: if [m] unwinds, its block is
    returned, its elements are leaked *)
Definition releasing {S A} (v : vec T) (m : H S A) : H S A := fun s =>
  match m s with
  | (s1, d, Panic) => match give (v_at v) (v_cap v) s1 with (s2, _, _) => (s2, d, Panic) end
  | r => r
  end.

(** [Vec::with_capacity] at circular.rs:91, 166 and inside the derived [clone] (49) *)
Definition vec_with_capacity_h {S} (n : nat) : H S (vec T) :=
  if n <=? alloc_max E then a <- take n ;; ret (Vec [] a n) else liftO Panic.

(** [Vec::push] at circular.rs:93, 175, 785, 800, 814 and inside [extend] (172) and
    [Vec::from_iter] (784, 799); on a capacity overflow the vector, which is a local
    variable in all these places, is dropped *)
Definition vec_push_h {S} (v : vec T) (x : slot T) : H S (vec T) :=
  if length (v_items v) <? v_cap v then ret (Vec (v_items v ++ [x]) (v_at v) (v_cap v))
  else if length (v_items v) + 1 <=? alloc_max E then
    give (v_at v) (v_cap v) ;;;
    a <- take (grow (v_cap v)) ;;
    ret (Vec (v_items v ++ [x]) a (grow (v_cap v)))
  else releasing v (liftO Panic).

(** the loops of circular.rs:92-94 and 174-176: pushing [n] uninitialised elements *)
Fixpoint vec_fill_h {S} (n : nat) (v : vec T) : H S (vec T) :=
  match n with
  | 0 => ret v
  | S m => v' <- vec_push_h v Uninit ;; vec_fill_h m v'
  end.

(** [Vec::shrink_to_fit] at circular.rs:177, 786, 801, 815 and inside
    [into_boxed_slice] at 96, 178, 790, 804, 817 *)
Definition vec_shrink_h {S} (v : vec T) : H S (vec T) :=
  if length (v_items v) <? v_cap v then
    give (v_at v) (v_cap v) ;;;
    a <- take (length (v_items v)) ;;
    ret (Vec (v_items v) a (length (v_items v)))
  else ret v.

(** circular.rs:89-100 [with_capacity]: the buffer and the address of its block *)
Definition with_capacity_h (cap : nat) : H unit (cb T * option nat) :=
  n <- liftO (uadd E cap 1) ;;
  v <- vec_with_capacity_h n ;;
  m <- releasing v (liftO (uadd E cap 1)) ;;
  v1 <- vec_fill_h m v ;;
  v2 <- vec_shrink_h v1 ;;
  ret (CB (v_items v2) 0 0, v_at v2).

(** circular.rs:71-73 [new]. *)
Definition new_h (cap : nat) : H unit (cb T * option nat) := with_capacity_h cap.

(** circular.rs:784 and 799, [Vec::from_iter] of std after the first item *)
Fixpoint collect_h {S} (v : vec T) (evs : list (option T)) : H S (vec T) :=
  match evs with
  | [] => ret v
  | None :: _ => releasing v (liftO Panic)
  | Some x :: evs' => v' <- vec_push_h v (Init x) ;; collect_h v' evs'
  end.

(** circular.rs:782-795 [FromIterator<T>] from any iterator (see [CBModel2]); std
    requests the first block, for [c0] elements (at least one), at the first item *)
Definition from_iter_h (c0 : nat) (evs : list (option T)) : H unit (cb T * option nat) :=
  v <- match evs with
       | [] => ret (Vec [] None 0)
       | None :: _ => liftO Panic
       | Some x :: evs' =>
           v <- vec_with_capacity_h (Nat.max 1 c0) ;;
           v' <- vec_push_h v (Init x) ;;
           collect_h v' evs'
       end ;;
  v1 <- vec_push_h v Uninit ;;
  v2 <- vec_shrink_h v1 ;;
  e <- releasing v2 (liftO (usub E (length (v_items v2)) 1)) ;;
  v3 <- vec_shrink_h v2 ;;
  ret (CB (v_items v3) 0 e, v_at v3).

(** circular.rs:797-809 [FromIterator<&T>]; [cl] is the element's [clone], [None]
    standing for a panic. *)
Definition from_iter_refs_h (c0 : nat) (cl : T -> option T) (xs : list T) : H unit (cb T * option nat) :=
  from_iter_h c0 (map cl xs).

(** circular.rs:811-822 [From<Vec<T>>]: the caller's vector has the elements [xs], the
    block [a] and the capacity [cap] (compare [CBModel.from_vec]). *)
Definition from_vec_h (droppable : bool) (xs : list T) (a : option nat) (cap : nat) : H unit (cb T * option nat) :=
  let buf_len := length xs in
  v1 <- (fun s => match vec_push_h (Vec (map Init xs) a cap) Uninit s with
                  | (s1, d, Panic) => (s1, d, if droppable then UB else Panic)
                  | r => r
                  end) ;;
  v2 <- vec_shrink_h v1 ;;
  v3 <- vec_shrink_h v2 ;;
  ret (CB (v_items v3) 0 buf_len, v_at v3).

(** circular.rs:172 [Vec::extend] fed by what is left of the [Drain] *)
Fixpoint extend_vec_h (fuel : nat) (v : vec T) : H (cb T * option nat) (vec T) :=
  match fuel with
  | 0 => liftO NoFuel
  | S f =>
      x <- releasing v (quiet (on_fst (pop_front E dp))) ;;
      match x with
      | None => ret v
      | Some y => v' <- vec_push_h v (Init y) ;; extend_vec_h f v'
      end
  end.

(** circular.rs:165-181 [resize].  The state is the buffer with its block; assigning to
    [self.buffer] at 178 returns the old one. *)
Definition resize_h (cap : nat) : H (cb T * option nat) unit :=
  n <- liftO (uadd E cap 1) ;;
  v <- vec_with_capacity_h n ;;
  to_be_skipped <- releasing v (quiet (on_fst (gets (fun c =>
    let* l := len E c in
    if cap <? l then (let* l' := len E c in usub E l' cap) else Ret 0)))) ;;
  releasing v (quiet (on_fst (drain_skip E dp to_be_skipped))) ;;;
  v1 <- (fun s => extend_vec_h (S (length (buffer (fst (snd s))))) v s) ;;
  let elem_num := length (v_items v1) in
  k <- releasing v1 (liftO (let* d := usub E cap (length (v_items v1)) in uadd E d 1)) ;;
  v2 <- vec_fill_h k v1 ;;
  v3 <- vec_shrink_h v2 ;;
  v4 <- vec_shrink_h v3 ;;
  (fun s => give (snd (snd s)) (length (buffer (fst (snd s)))) s) ;;;
  quiet (modify (fun _ => (CB (v_items v4) 0 elem_num, v_at v4))).

(** circular.rs:49 [#[derive(Clone)]]: the slots are cloned one by one (see
    [CBModel.clone_slots]); [cl] may panic ([None]), the clones made before are leaked *)
Fixpoint clone_slots_h (bitwise : bool) (cl : T -> option T) (l : list (slot T)) : outcome (list (slot T)) :=
  match l with
  | [] => Ret []
  | Uninit :: t =>
      if bitwise then let* t' := clone_slots_h bitwise cl t in Ret (Uninit :: t') else UB
  | Init v :: t =>
      match cl v with
      | Some w => let* t' := clone_slots_h bitwise cl t in Ret (Init w :: t')
      | None => Panic
      end
  end.

(** circular.rs:49 [#[derive(Clone)]]: the clone and its block *)
Definition clone_h {S} (bitwise : bool) (cl : T -> option T) (c : cb T) : H S (cb T * option nat) :=
  v <- vec_with_capacity_h (length (buffer c)) ;;
  b <- releasing v (liftO (clone_slots_h bitwise cl (buffer c))) ;;
  ret (CB b (start c) (end_ c), v_at v).

(** circular.rs:756-760 [Drop]: after the destructor the field [buffer] is dropped, also
    if the destructor panicked *)
Definition drop_h : H (cb T * option nat) unit := fun s =>
  match quiet (on_fst (drop_cb E dp)) s with
  | (s1, d, Ret _) =>
      match give (snd (snd s1)) (length (buffer (fst (snd s1)))) s1 with (s2, _, o) => (s2, d, o) end
  | (s1, d, Panic) =>
      match give (snd (snd s1)) (length (buffer (fst (snd s1)))) s1 with (s2, _, _) => (s2, d, Panic) end
  | r => r
  end.

(** circular.rs:49, [clone_from] as provided by std: [*self = source.clone()]; the new
    value is put in place also if the destructor of the old one panics *)
Definition clone_from_h (bitwise : bool) (cl : T -> option T) (source : cb T) : H (cb T * option nat) unit :=
  n <- clone_h bitwise cl source ;;
  (fun s => match drop_h s with
            | (s1, d, Ret u) => ((fst s1, n), d, Ret u)
            | (s1, d, Panic) => ((fst s1, n), d, Panic)
            | r => r
            end).

(** circular.rs:842-849 and iter.rs:35-53 [IntoIter]: take [n] elements, then the
    iterator is dropped, also if taking them unwinds *)
Definition into_iter_take_h (n : nat) : H (cb T * option nat) (list T) := fun s =>
  match quiet (on_fst (drain_take E dp n)) s with
  | (s1, d, Ret vs) => match drop_h s1 with (s2, d2, o) => (s2, d ++ d2, omap (fun _ => vs) o) end
  | (s1, d, Panic) =>
      match drop_h s1 with
      | (s2, d2, Ret _) => (s2, d ++ d2, Panic)
      | (s2, d2, Panic) => (s2, d ++ d2, Abort)
      | (s2, d2, Abort) => (s2, d ++ d2, Abort)
      | (s2, d2, UB) => (s2, d ++ d2, UB)
      | (s2, d2, NoFuel) => (s2, d ++ d2, NoFuel)
      end
  | r => r
  end.

(** one call (as in [CBRun.cb_step]): apart from [resize], all of circular.rs:111-748
    leaves the box of the buffer alone *)
Definition step_h (o : op T) : H (cb T * option nat) (out T) :=
  match o with
  | OResize k => mmap (fun _ => RUnit) (resize_h k)
  | o => quiet (on_fst (cb_step E dp o))
  end.

End Model.
