(** Property theorems C70-C77: the circular buffer, second part. *)
From Coq Require Import Permutation String.
From Verif Require Import Base CBSpec CBSpec2 CBModel CBModel2 CBRun CBProofs CBProofs2 CBProofs3 CBProofs4
  CBProofs5 CBProofs6 CBProps.
Local Open Scope list_scope.

(** ** C70: traversal from both ends *)
(** Whatever the interleaving of [next] and [next_back], what came out at the
    front, what is left and what came out at the back (reversed) make up the
    contents; the next call at either end yields the corresponding end of what
    is left. *)
Theorem c70_iter_from_both_ends : forall T E calls (c : cb T) k l,
  indexable T E -> reachable E c -> shows E c k l ->
  exists ch ch' tr rest, iter_begin c = Ret ch /\ into_iter_ref c = Ret ch /\
    walk (@chain_next T) (@chain_next_back T) calls ch = (ch', tr) /\
    l = from_front tr ++ rest ++ rev (from_back tr) /\
    snd (chain_next ch') = hd_error rest /\ snd (chain_next_back ch') = hd_error (rev rest).
Proof. exact (fun T E calls c k l HE => @iter_walk T E HE calls c k l). Qed.
Print Assumptions c70_iter_from_both_ends.

Example c70_ex : iter_begin demo = Ret (Chain [3; 4] [6]) /\
  walk (@chain_next nat) (@chain_next_back nat) [Back; Back; Front; Back; Front] (Chain [3; 4] [6])
  = (Chain [] [], [(Back, Some 6); (Back, Some 4); (Front, Some 3); (Back, None); (Front, None)]).
Proof. split; reflexivity. Qed.

(** ** C71: mutable iteration *)
(** [iter_mut] hands out one reference per element, no two to the same place,
    the [i]-th to the place of element [i]; any writes through any of them, in
    any order, have exactly the effect of writing those elements. *)
Theorem c71_iter_mut_hands_out_distinct_places : forall T E (c : cb T) k l,
  indexable T E -> reachable E c -> shows E c k l ->
  exists ch, iter_mut_begin c = Ret ch /\ into_iter_mut_ref c = Ret ch /\
    length (chain_a ch ++ chain_b ch) = length l /\ NoDup (chain_a ch ++ chain_b ch) /\
    (forall i, i < length l -> exists p, nth_error (chain_a ch ++ chain_b ch) i = Some p /\
       read_slot c p = index E c i) /\
    forall ws, exists c', write_refs (chain_a ch ++ chain_b ch) ws c = (c', [], Ret tt) /\
      shows E c' k (write_all ws l).
Proof. exact (fun T E c k l HE => @iter_mut_api T E HE c k l). Qed.
Print Assumptions c71_iter_mut_hands_out_distinct_places.

Theorem c71_iter_mut_from_both_ends : forall T E calls (c : cb T) k l,
  indexable T E -> reachable E c -> shows E c k l ->
  exists ch ch' tr rest, iter_mut_begin c = Ret ch /\
    walk (@chain_next nat) (@chain_next_back nat) calls ch = (ch', tr) /\
    chain_a ch ++ chain_b ch = from_front tr ++ rest ++ rev (from_back tr) /\
    snd (chain_next ch') = hd_error rest /\ snd (chain_next_back ch') = hd_error (rev rest).
Proof. exact (fun T E calls c k l HE => @iter_mut_walk T E HE calls c k l). Qed.
Print Assumptions c71_iter_mut_from_both_ends.

Example c71_ex : iter_mut_begin demo = Ret (Chain [2; 3] [0]) /\
  iter (fst (fst (write_refs [2; 3; 0] [(2, S); (0, fun _ => 50); (2, S); (1, S)] demo))) = Ret [50; 5; 8] /\
  write_all [(2, S); (0, fun _ => 50); (2, S); (1, S)] [3; 4; 6] = [50; 5; 8].
Proof. repeat split. Qed.

(** ** C72: extension from an iterator (or a [clone]) that panics *)
(** [evs] lists what the successive [next()] of the argument do ([None]: panic).
    The buffer takes in exactly what was yielded before the first panic. *)
Theorem c72_extend_takes_what_was_yielded : forall T E evs (c : cb T) k l,
  indexable T E -> reachable E c -> shows E c k l ->
  exists c', extend_from E (fun _ => false) evs c =
     (c', firstn (length (l ++ fst (before_panic evs)) - k) (l ++ fst (before_panic evs)),
      if snd (before_panic evs) then Panic else Ret tt) /\
    shows E c' k (lastn k (l ++ fst (before_panic evs))).
Proof. exact (fun T E evs c k l HE => @extend_from_quiet T E HE evs c k l). Qed.
Print Assumptions c72_extend_takes_what_was_yielded.

(** the same when destructors of evicted elements may panic as well *)
Theorem c72_extend_with_panicking_destructors : forall T E (dp : T -> bool) evs c k l,
  indexable T E -> reachable E c -> shows E c k l ->
  match s_extend_then dp (snd (before_panic evs)) (fst (before_panic evs)) (Deque k l) with
  | (d, dr, o) => exists c', extend_from E dp evs c = (c', dr, o) /\ shows E c' (cap d) (items d)
  end.
Proof. exact (fun T E dp evs c k l HE => @extend_from_api T E HE dp evs c k l). Qed.
Print Assumptions c72_extend_with_panicking_destructors.

(** extending from references stores the clones *)
Theorem c72_extend_from_references_clones : forall T E (f : T -> T) xs c k l,
  indexable T E -> reachable E c -> shows E c k l ->
  exists c', extend_refs E (fun _ => false) (fun x => Some (f x)) xs c =
     (c', firstn (length (l ++ map f xs) - k) (l ++ map f xs), Ret tt) /\
    shows E c' k (lastn k (l ++ map f xs)).
Proof.
  intros T E f xs c k l HE Hr Hs. unfold extend_refs.
  destruct (extend_from_quiet HE (map (fun x => Some (f x)) xs) Hr Hs) as (c' & H1 & H2).
  rewrite before_panic_total in *. eauto.
Qed.
Print Assumptions c72_extend_from_references_clones.

(** ... and those made before a panicking [clone] *)
Theorem c72_panicking_clone_keeps_earlier_ones : forall T E (cl : T -> option T) a x b ys c k l,
  indexable T E -> reachable E c -> shows E c k l ->
  map cl a = map Some ys -> cl x = None ->
  exists c', extend_refs E (fun _ => false) cl (a ++ x :: b) c =
     (c', firstn (length (l ++ ys) - k) (l ++ ys), Panic) /\ shows E c' k (lastn k (l ++ ys)).
Proof.
  intros T E cl a x b ys c k l HE Hr Hs Ha Hx. unfold extend_refs.
  destruct (extend_from_quiet HE (map cl (a ++ x :: b)) Hr Hs) as (c' & H1 & H2).
  rewrite (before_panic_stops cl a b x ys Ha Hx) in *. eauto.
Qed.
Print Assumptions c72_panicking_clone_keeps_earlier_ones.

Example c72_ex : before_panic [Some 10; Some 11; None; Some 12] = ([10; 11], true) /\
  snd (extend_from E0 never [Some 10; Some 11; None; Some 12] demo) = Panic /\
  iter (fst (fst (extend_from E0 never [Some 10; Some 11; None; Some 12] demo))) = Ret [6; 10; 11] /\
  snd (fst (extend_from E0 never [Some 10; Some 11; None; Some 12] demo)) = [3; 4].
Proof. repeat split. Qed.
Definition clone_small (x : nat) : option nat := if x <? 50 then Some (x + 100) else None.
Example c72_ex_clone : map clone_small [1; 2] = map Some [101; 102] /\ clone_small 70 = None /\
  iter (fst (fst (extend_refs E0 never clone_small [1; 2; 70; 3] demo))) = Ret [6; 101; 102].
Proof. repeat split. Qed.

(** ** C73: construction from an iterator (or a [clone]) that panics *)
Theorem c73_from_iter_collects_everything : forall T E (evs : list (option T)) xs,
  indexable T E -> before_panic evs = (xs, false) -> length xs + 1 <= alloc_max E ->
  exists c, from_iter_from E evs = ([], Ret c) /\ from_iter E xs = Ret c /\ shows E c (length xs) xs.
Proof. exact (fun T E evs xs HE => @from_iter_from_ok T E evs xs). Qed.
Print Assumptions c73_from_iter_collects_everything.

Theorem c73_from_references_clones : forall T E (f : T -> T) xs,
  indexable T E -> length xs + 1 <= alloc_max E ->
  exists c, from_iter_refs E (fun x => Some (f x)) xs = ([], Ret c) /\ shows E c (length xs) (map f xs).
Proof.
  intros T E f xs HE Hl. unfold from_iter_refs.
  destruct (@from_iter_from_ok T E (map (fun x => Some (f x)) xs) (map f xs)) as (c & H1 & H2 & H3).
  - apply before_panic_total.
  - now rewrite map_length.
  - exists c. rewrite map_length in H3. auto.
Qed.
Print Assumptions c73_from_references_clones.

(** "A failed construction gives up no element": false.  All the elements
    yielded before the panic are leaked: neither dropped nor handed back. *)
Theorem c73_failed_construction_leaks_refuted : forall T E (evs : list (option T)) xs,
  before_panic evs = (xs, true) -> length xs <= alloc_max E -> from_iter_from E evs = (xs, Panic).
Proof. exact (fun T E evs xs => @from_iter_from_raises T E evs xs). Qed.
Print Assumptions c73_failed_construction_leaks_refuted.

(** an iterator yielding more than can be stored: panic, everything taken is leaked *)
Theorem c73_endless_iterator_leaks_refuted : forall T E (evs : list (option T)) xs b,
  before_panic evs = (xs, b) -> alloc_max E < length xs + 1 ->
  from_iter_from E evs = (firstn (S (alloc_max E)) xs, Panic).
Proof. exact (fun T E evs xs b => @from_iter_from_too_long T E evs xs b). Qed.
Print Assumptions c73_endless_iterator_leaks_refuted.

Example c73_ex : from_iter_from E0 [Some 4; Some 5] = ([], Ret (CB [Init 4; Init 5; Uninit] 0 2)) /\
  from_iter_from E0 [Some 4; Some 5; None; Some 6] = ([4; 5], Panic) /\
  from_iter_refs E0 clone_small [1; 2; 70; 3] = ([101; 102], Panic) /\
  from_iter_from (Machine 9 3 true) (map Some [1; 2; 3; 4; 5]) = ([1; 2; 3; 4], Panic).
Proof. repeat split. Qed.

(** ** C74: sequences too long to be stored with the spare slot *)
(** "Conversions that do not fit panic": true of [collect], and of [Vec]
    conversion when dropping an element does nothing ... *)
Theorem c74_too_long_panics_partial : forall T E (xs : list T), alloc_max E < length xs + 1 ->
  from_iter E xs = Panic /\ from_vec E false xs = Panic.
Proof.
  exact (fun T E xs H => conj (@from_iter_too_long T E xs H) (@from_vec_too_long T E false xs H)).
Qed.
Print Assumptions c74_too_long_panics_partial.

(** ... but the conversion of a vector of elements with destructors drops
    uninitialised memory *)
Theorem c74_too_long_vec_refuted : forall T E (xs : list T), alloc_max E < length xs + 1 ->
  from_vec E true xs = UB.
Proof. exact (fun T E xs H => @from_vec_too_long T E true xs H). Qed.
Print Assumptions c74_too_long_vec_refuted.

Example c74_ex : from_vec (Machine 9 3 true) true [1; 2; 3] = UB /\ from_vec (Machine 9 3 true) false [1; 2; 3] = Panic /\
  from_vec (Machine 9 3 true) true [1; 2] <> UB.
Proof. repeat split. discriminate. Qed.

(** ** C75: Debug output *)
(** equal output: same capacity and same number of elements *)
Theorem c75_debug_tells_capacity_and_length : forall T E (c d : cb T) k l k' l',
  shows E c k l -> shows E d k' l' -> indexable T E -> reachable E c -> reachable E d ->
  debug_fmt c = debug_fmt d -> k = k' /\ length l = length l'.
Proof. exact debug_shape. Qed.
Print Assumptions c75_debug_tells_capacity_and_length.

(** "equal buffers print equally": false *)
Theorem c75_equal_buffers_print_equally_refuted : exists (c d : cb nat) k l,
  reachable E0 c /\ reachable E0 d /\ shows E0 c k l /\ shows E0 d k l /\
  cb_eq Nat.eqb c d = Ret true /\ debug_fmt c <> debug_fmt d.
Proof.
  exists demo, (fst (fst (linearize E0 demo))), 3, [3; 4; 6].
  split; [exact demo_reachable|]. split.
  - destruct (cb_step E0 never OLinearize demo) as [[c' dr] r] eqn:H.
    replace (fst (fst (linearize E0 demo))) with c' by (vm_compute in H |- *; inversion H; reflexivity).
    apply (@r_call nat E0 never OLinearize demo c' dr r); [exact demo_reachable | exact I | exact H].
  - repeat split. vm_compute. discriminate.
Qed.
Print Assumptions c75_equal_buffers_print_equally_refuted.

Example c75_ex : debug_fmt demo = "CircularBuffer{ start: 2, end: 1, buf_len: 4 }"%string /\
  debug_fmt (fst (fst (linearize E0 demo))) = "CircularBuffer{ start: 0, end: 3, buf_len: 4 }"%string.
Proof. split; reflexivity. Qed.

(** ** C76: append and into_iter when destructors panic *)
Theorem c76_append_is_moving_one_by_one : forall T E (dp : T -> bool) c1 c2 k1 l1 k2 l2,
  indexable T E -> reachable E c1 -> reachable E c2 -> shows E c1 k1 l1 -> shows E c2 k2 l2 ->
  match s_append dp l2 (Deque k1 l1) with
  | (d, rest, dr, o) => exists c1' c2', append E dp (c1, c2) = ((c1', c2'), dr, o) /\
      shows E c1' (cap d) (items d) /\ shows E c2' k2 rest
  end.
Proof. exact (fun T E dp c1 c2 k1 l1 k2 l2 HE => @append_any T E HE dp c1 c2 k1 l1 k2 l2). Qed.
Print Assumptions c76_append_is_moving_one_by_one.

(** nothing is lost or duplicated, even when the call panics *)
Theorem c76_append_conserves_elements : forall T E (dp : T -> bool) c1 c2 k1 l1 k2 l2,
  indexable T E -> reachable E c1 -> reachable E c2 -> shows E c1 k1 l1 -> shows E c2 k2 l2 ->
  exists c1' c2' l1' m dr o, append E dp (c1, c2) = ((c1', c2'), dr, o) /\
    shows E c1' k1 l1' /\ shows E c2' k2 (skipn m l2) /\
    Permutation (l1 ++ l2) (l1' ++ skipn m l2 ++ dr) /\
    match o with
    | Ret _ => skipn m l2 = []
    | Panic => exists x, In x dr /\ dp x = true
    | Abort => exists x y, In x dr /\ In y dr /\ dp x = true /\ dp y = true
    | UB | NoFuel => False
    end.
Proof. exact (fun T E dp c1 c2 k1 l1 k2 l2 HE => @append_conserves T E HE dp c1 c2 k1 l1 k2 l2). Qed.
Print Assumptions c76_append_conserves_elements.

(** a consuming iterator dropped after [n] items drops the others from the
    back, up to and including the first whose destructor panics *)
Theorem c76_into_iter_drops_the_rest : forall T E (dp : T -> bool) n c k l,
  indexable T E -> reachable E c -> shows E c k l ->
  exists c' dr o l', into_iter_take E dp n c = (c', dr, o) /\ skipn n l = l' ++ rev dr /\
    (o = Ret (firstn n l) /\ l' = [] /\ existsb dp dr = false \/
     o = Panic /\ exists r x, dr = r ++ [x] /\ dp x = true /\ existsb dp r = false).
Proof. exact (fun T E dp n c k l HE => @into_iter_any T E HE dp n c k l). Qed.
Print Assumptions c76_into_iter_drops_the_rest.

Example c76_ex : snd (append E0 bad4 (demo, demo2)) = Panic /\
  snd (fst (append E0 bad4 (demo, demo2))) = [3; 4; 8] /\
  iter (fst (fst (fst (append E0 bad4 (demo, demo2))))) = Ret [6; 7] /\
  iter (snd (fst (fst (append E0 bad4 (demo, demo2))))) = Ret [] /\
  snd (append E0 bad3 (demo, demo2)) = Panic /\
  iter (snd (fst (fst (append E0 bad3 (demo, demo2))))) = Ret [8].
Proof. repeat split. Qed.
Example c76_ex_into : snd (fst (into_iter_take E0 bad4 1 demo)) = [6; 4] /\ snd (into_iter_take E0 bad4 1 demo) = Panic /\
  snd (into_iter_take E0 bad3 1 demo) = Ret [3].
Proof. repeat split. Qed.

(** ** C77: zero-sized elements *)
(** no assumption on the element size: any element type, as long as twice the
    capacity fits [usize] *)
Theorem c77_small_capacities_any_element_size_partial : forall T E (dp : T -> bool) k ops c,
  alloc_max E <= usize_max E -> k + 1 <= alloc_max E -> 2 * k <= usize_max E ->
  Forall (op_small E) ops -> new T E k = Ret c ->
  snd (cb_run E dp ops c) = snd (spec_run dp ops (Deque k [])) /\
  shows E (fst (cb_run E dp ops c)) (cap (fst (spec_run dp ops (Deque k []))))
     (items (fst (spec_run dp ops (Deque k [])))).
Proof. exact (fun T E dp k ops c Hv => @zst_history T E Hv dp k ops c). Qed.
Print Assumptions c77_small_capacities_any_element_size_partial.

(** without overflow checks there is no limit for elements that cannot be told
    apart, as those of size zero *)
Theorem c77_release_any_capacity : forall T E (dp : T -> bool) k ops c,
  alloc_max E <= usize_max E -> debug_build E = false -> (forall x y : T, x = y) ->
  k + 1 <= alloc_max E -> Forall (op_ok E) ops -> new T E k = Ret c ->
  snd (cb_run E dp ops c) = snd (spec_run dp ops (Deque k [])) /\
  shows E (fst (cb_run E dp ops c)) (cap (fst (spec_run dp ops (Deque k []))))
     (items (fst (spec_run dp ops (Deque k [])))).
Proof.
  exact (fun T E dp k ops c Hv Hd Ho => @new_history T E (conj Hv (or_intror (conj Hd Ho))) dp k ops c).
Qed.
Print Assumptions c77_release_any_capacity.

(** with overflow checks every larger capacity fails: some history is answered
    as expected and leaves no more elements than the capacity allows, but then
    [len()] panics *)
Theorem c77_debug_large_capacity_refuted : forall T E (dp : T -> bool) (v : T) k c,
  alloc_max E <= usize_max E -> debug_build E = true -> k + 1 <= alloc_max E -> usize_max E < 2 * k ->
  new T E k = Ret c ->
  exists ops, Forall (op_ok E) ops /\
    snd (cb_run E dp ops c) = snd (spec_run dp ops (Deque k [])) /\
    length (items (fst (spec_run dp ops (Deque k [])))) <= k /\
    len E (fst (cb_run E dp ops c)) = Panic.
Proof.
  intros T E dp v k c Hv Hd Hk H2 Hc.
  destruct (@beyond_history T E dp v Hd k c) as (H3 & H4 & H5); auto; [lia|].
  eexists; split; [|split; [exact H3|split; [rewrite H4, repeat_length; lia|exact H5]]].
  rewrite !Forall_app; repeat split; apply Forall_forall; intros o Ho; apply repeat_spec in Ho; subst; exact I.
Qed.
Print Assumptions c77_debug_large_capacity_refuted.

Definition Eunit : machine := Machine 1000 1000 true.
Example c77_ex : ~ sized_machine Eunit /\ ~ indexable unit Eunit /\ new unit Eunit 400 <> Panic /\
  Forall (op_small Eunit) [OPushBack tt; OResize 2; OExtend [tt; tt; tt]; OLen] /\
  new unit Eunit 3 = Ret (CB (repeat Uninit 4) 0 0) /\
  snd (cb_run Eunit (fun _ => false) [OPushBack tt; OResize 2; OExtend [tt; tt; tt]; OLen] (CB (repeat Uninit 4) 0 0))
  = [([], Ret RUnit); ([], Ret RUnit); ([tt; tt], Ret RUnit); ([], Ret (RNat 2))].
Proof.
  split; [unfold sized_machine; vm_compute; lia|].
  split; [intros [_ [H|[H _]]]; [vm_compute in H; lia|discriminate]|]. split; [vm_compute; discriminate|].
  split; [repeat (constructor; [split; [|try exact I]; try exact I; apply Nat.leb_le; reflexivity|]); constructor|].
  split; reflexivity.
Qed.
(** capacity 6 where [usize::MAX] is 7: the same history in both builds *)
Definition Ezstr : machine := Machine 7 7 false.
Definition zst_ops : list (op unit) :=
  repeat (OPushBack tt) 6 ++ repeat OPopFront 6 ++ repeat (OPushBack tt) 6 ++ [OLen; OIndex 5; OSwap 1 5; OReverse; OLinearize].
Example c77_ex_large : (alloc_max Ezst <= usize_max Ezst /\ 6 + 1 <= alloc_max Ezst /\ usize_max Ezst < 2 * 6) /\
  new unit Ezst 6 = new unit Ezstr 6 /\
  In ([], Panic) (snd (cb_run Ezst (fun _ => false) zst_ops (CB (repeat Uninit 7) 0 0))) /\
  skipn 18 (snd (cb_run Ezstr (fun _ => false) zst_ops (CB (repeat Uninit 7) 0 0)))
  = [([], Ret (RNat 6)); ([], Ret (RElem tt)); ([], Ret RUnit); ([], Ret RUnit); ([], Ret (RList (repeat tt 6)))].
Proof.
  split; [repeat split; apply Nat.leb_le; reflexivity|]. split; [reflexivity|]. split; [vm_compute; tauto|reflexivity].
Qed.
