(** Property theorems C01-C19: the circular buffer. *)
From Coq Require Import Permutation.
From Verif Require Import Base CBSpec CBModel CBRun CBProofs CBProofs2 CBProofs3 CBProofs4.

(** ** A concrete machine and a concrete wrapped-around buffer used in the examples *)
Definition E0 : machine := Machine 1000 100 true.
Definition E0r : machine := Machine 1000 100 false.
Definition never : nat -> bool := fun _ => false.
Definition bad7 : nat -> bool := fun x => x =? 7.

Lemma E0_sized T : indexable T E0.
Proof. apply sized_indexable; unfold sized_machine; cbn [alloc_max usize_max E0]; apply Nat.leb_le; reflexivity. Qed.
Lemma E0r_sized T : indexable T E0r.
Proof. apply sized_indexable; unfold sized_machine; cbn [alloc_max usize_max E0r]; apply Nat.leb_le; reflexivity. Qed.

Definition demo0 : cb nat := CB [Uninit; Uninit; Uninit; Uninit] 0 0.
Definition demo_ops : list (op nat) :=
  [OPushBack 1; OPushBack 2; OPushBack 3; OPushBack 4; OPushBack 5; OPushFront 9; OPushBack 6].
Definition demo : cb nat := fst (cb_run E0 never demo_ops demo0).

Example demo_wrapped : end_ demo < start demo.
Proof. vm_compute; lia. Qed.

Lemma demo0_reachable : reachable E0 demo0.
Proof. apply (@r_new nat E0 3); [apply Nat.leb_le|]; reflexivity. Qed.
Lemma demo_reachable : reachable E0 demo.
Proof.
  apply run_reachable; [exact demo0_reachable|]. repeat constructor.
Qed.
Lemma demo_shows : shows E0 demo 3 [3; 4; 6].
Proof. split; reflexivity. Qed.

Definition demo2_ops : list (op nat) := [OPushFront 8; OPushFront 7].
Definition demo2 : cb nat := fst (cb_run E0 never demo2_ops demo0).
Lemma demo2_reachable : reachable E0 demo2.
Proof. apply run_reachable; [exact demo0_reachable|]. repeat constructor. Qed.
Lemma demo2_shows : shows E0 demo2 3 [7; 8].
Proof. split; reflexivity. Qed.

(** ** C01 *)
Theorem c01_history_is_bounded_deque : forall T E (dp : T -> bool) k ops c,
  indexable T E -> k + 1 <= alloc_max E -> Forall (op_ok E) ops -> new T E k = Ret c ->
  snd (cb_run E dp ops c) = snd (spec_run dp ops (Deque k [])) /\
  shows E (fst (cb_run E dp ops c)) (cap (fst (spec_run dp ops (Deque k []))))
     (items (fst (spec_run dp ops (Deque k [])))).
Proof.
  exact (fun T E dp k ops c HE => @new_history T E HE dp k ops c).
Qed.
Print Assumptions c01_history_is_bounded_deque.

(** the same from any buffer a program can hold *)
Theorem c01_any_buffer_is_bounded_deque : forall T E (dp : T -> bool) ops c k l,
  indexable T E -> reachable E c -> shows E c k l -> Forall (op_ok E) ops ->
  snd (cb_run E dp ops c) = snd (spec_run dp ops (Deque k l)) /\
  shows E (fst (cb_run E dp ops c)) (cap (fst (spec_run dp ops (Deque k l))))
     (items (fst (spec_run dp ops (Deque k l)))).
Proof. exact (fun T E dp ops c k l HE => @history_ok T E HE dp ops c k l). Qed.
Print Assumptions c01_any_buffer_is_bounded_deque.

Example c01_ex : new nat E0 3 = Ret demo0 /\ Forall (op_ok E0) demo_ops /\
  snd (spec_run never demo_ops (Deque 3 [])) =
   [([], Ret RUnit); ([], Ret RUnit); ([], Ret RUnit); ([1], Ret RUnit); ([2], Ret RUnit);
    ([5], Ret RUnit); ([9], Ret RUnit)].
Proof. split; [reflexivity|]. split; [repeat constructor | reflexivity]. Qed.
Example c01_ex2 : snd (cb_run E0 bad7 [OPushBack 7; OClear; OIndex 9; OLen] demo) =
   [([3], Ret RUnit); ([7], Panic); ([], Panic); ([], Ret (RNat 2))].
Proof. reflexivity. Qed.

(** ** C02 *)
Theorem c02_len_le_capacity : forall T E (c : cb T), indexable T E -> reachable E c ->
  exists k l, shows E c k l /\ length l <= k.
Proof. exact (fun T E c HE => @reachable_shows T E HE c). Qed.
Print Assumptions c02_len_le_capacity.

Theorem c02_observers_agree : forall T E (c : cb T) k l, indexable T E -> reachable E c -> shows E c k l ->
  length l <= k /\ len E c = Ret (length l) /\ (is_empty c = true <-> length l = 0) /\
  is_full E c = Ret (length l =? k).
Proof. exact (fun T E c k l HE => @observers_ok T E HE c k l). Qed.
Print Assumptions c02_observers_agree.

Theorem c02_only_resize_changes_capacity : forall T E (dp : T -> bool) o c k,
  indexable T E -> reachable E c -> op_ok E o -> (forall q, o <> OResize q) ->
  capacity E c = Ret k -> capacity E (fst (fst (cb_step E dp o c))) = Ret k.
Proof. exact (fun T E dp o c k HE => @capacity_stable T E HE dp o c k). Qed.
Print Assumptions c02_only_resize_changes_capacity.

Example c02_ex : len E0 demo = Ret 3 /\ is_empty demo = false /\ is_full E0 demo = Ret true /\ capacity E0 demo = Ret 3
  /\ len E0 demo2 = Ret 2 /\ is_full E0 demo2 = Ret false.
Proof. repeat split. Qed.

(** ** C03, C04 *)
Theorem c03_push_back_keeps_newest : forall T E k xs (c : cb T),
  indexable T E -> k + 1 <= alloc_max E -> new T E k = Ret c ->
  exists c' tr, cb_run E (fun _ => false) (map (@OPushBack T) xs) c = (c', tr) /\
    shows E c' k (lastn k xs) /\ dropped tr = firstn (length xs - k) xs /\
    Forall (fun p => snd p = Ret RUnit) tr.
Proof. exact (fun T E k xs c HE => @push_back_history T E HE k xs c). Qed.
Print Assumptions c03_push_back_keeps_newest.

Theorem c04_push_front_keeps_newest : forall T E k xs (c : cb T),
  indexable T E -> k + 1 <= alloc_max E -> new T E k = Ret c ->
  exists c' tr, cb_run E (fun _ => false) (map (@OPushFront T) xs) c = (c', tr) /\
    shows E c' k (rev (lastn k xs)) /\ dropped tr = firstn (length xs - k) xs /\
    Forall (fun p => snd p = Ret RUnit) tr.
Proof. exact (fun T E k xs c HE => @push_front_history T E HE k xs c). Qed.
Print Assumptions c04_push_front_keeps_newest.

Example c03_ex : 3 + 1 <= alloc_max E0 /\ new nat E0 3 = Ret demo0 /\
  iter (fst (cb_run E0 never (map (@OPushBack nat) [1;2;3;4;5]) demo0)) = Ret [3;4;5].
Proof. split; [apply Nat.leb_le; reflexivity|split; reflexivity]. Qed.
Example c04_ex : iter (fst (cb_run E0 never (map (@OPushFront nat) [1;2;3;4;5]) demo0)) = Ret [5;4;3].
Proof. reflexivity. Qed.

(** ** C05 *)
Theorem c05_conservation : forall T E (dp : T -> bool) ops c k l,
  indexable T E -> reachable E c -> shows E c k l ->
  Forall (op_ok E) ops -> Forall (@moves_only T) ops ->
  Forall (fun p => snd p <> Abort) (snd (cb_run E dp ops c)) ->
  exists k' l', shows E (fst (cb_run E dp ops c)) k' l' /\
    Permutation (l ++ received ops (snd (cb_run E dp ops c)))
      (returned ops (snd (cb_run E dp ops c)) ++ dropped (snd (cb_run E dp ops c)) ++ l').
Proof. exact (fun T E dp ops c k l HE => @conservation T E HE dp ops c k l). Qed.
Print Assumptions c05_conservation.

(** dropping the buffer drops exactly what it holds, back to front, each once;
    if a destructor panics the rest is leaked, never dropped twice *)
Theorem c05_drop_releases_everything : forall T E (dp : T -> bool) c k l,
  indexable T E -> reachable E c -> shows E c k l ->
  exists c' dr o l', drop_cb E dp c = (c', dr, o) /\ shows E c' k l' /\ l = l' ++ rev dr /\
    (o = Ret tt /\ l' = [] /\ existsb dp dr = false \/
     o = Panic /\ exists a x, dr = a ++ [x] /\ dp x = true /\ existsb dp a = false).
Proof. exact (fun T E dp c k l HE => @drop_api T E HE dp c k l). Qed.
Print Assumptions c05_drop_releases_everything.

Example c05_ex :
  let ops := [OPushBack 10; OPopFront; OExtend [11; 12]; ODrain 1; OResize 1; OReverse; OSwap 0 0] in
  Forall (op_ok E0) ops /\ Forall (@moves_only nat) ops /\
  received ops (snd (cb_run E0 never ops demo)) = [10; 11; 12] /\
  returned ops (snd (cb_run E0 never ops demo)) = [4; 10] /\
  dropped (snd (cb_run E0 never ops demo)) = [3; 6; 11] /\
  shows E0 (fst (cb_run E0 never ops demo)) 1 [12].
Proof.
  cbv zeta. split; [repeat constructor; apply Nat.leb_le; reflexivity|]. split; [repeat constructor|].
  repeat split.
Qed.
Example c05_ex_drop : drop_cb E0 never demo = (CB [Uninit; Uninit; Uninit; Uninit] 2 2, [6; 4; 3], Ret tt).
Proof. reflexivity. Qed.

(** ** C06 *)
Theorem c06_no_uninitialised_read : forall T E (dp : T -> bool) o c k l c' dr r,
  indexable T E -> reachable E c -> shows E c k l -> op_ok E o -> cb_step E dp o c = (c', dr, r) ->
  match r with
  | Ret _ => ~ out_of_range o l
  | Panic => out_of_range o l /\ shows E c' k l /\ dr = [] \/ exists x, In x dr /\ dp x = true
  | Abort => exists x y, In x dr /\ In y dr /\ dp x = true /\ dp y = true
  | UB | NoFuel => False
  end.
Proof. exact (fun T E dp o c k l c' dr r HE => @step_ends T E HE dp o c k l c' dr r). Qed.
Print Assumptions c06_no_uninitialised_read.

Example c06_ex : op_ok E0 (@OSwap nat 1 5) /\ out_of_range (OSwap 1 5) [3; 4; 6] /\
  cb_step E0 never (OSwap 1 5) demo = (demo, [], Panic).
Proof. split; [exact I|]. split; [right; cbn; apply Nat.leb_le; reflexivity | reflexivity]. Qed.

(** ** C07 *)
Theorem c07_index : forall T E (c : cb T) k l i, indexable T E -> reachable E c -> shows E c k l ->
  index E c i = match nth_error l i with Some x => Ret x | None => Panic end.
Proof.
  exact (fun T E c k l i HE Hr Hs => rep_index HE i (matches_rep (shows_matches HE Hr Hs))).
Qed.
Print Assumptions c07_index.

Theorem c07_first_last : forall T E (c : cb T) k l, indexable T E -> reachable E c -> shows E c k l ->
  first E c = Ret (hd_error l) /\ last E c = Ret (hd_error (rev l)).
Proof.
  exact (fun T E c k l HE Hr Hs => conj (first_ok HE (shows_matches HE Hr Hs)) (last_ok HE (shows_matches HE Hr Hs))).
Qed.
Print Assumptions c07_first_last.

Example c07_ex : index E0 demo 1 = Ret 4 /\ index E0 demo 2 = Ret 6 /\ index E0 demo 3 = Panic
  /\ first E0 demo = Ret (Some 3) /\ last E0 demo = Ret (Some 6).
Proof. repeat split. Qed.

(** ** C08 *)
Theorem c08_index_mut : forall T E (c : cb T) k l i f, indexable T E -> reachable E c -> shows E c k l ->
  match nth_error l i with
  | Some x => exists c', index_mut E i f c = (c', [], Ret tt) /\ shows E c' k (replace i (f x) l)
  | None => index_mut E i f c = (c, [], Panic)
  end.
Proof. exact (fun T E c k l i f HE Hr Hs => index_mut_api HE i f Hr Hs). Qed.
Print Assumptions c08_index_mut.

Theorem c08_first_last_mut : forall T E (c : cb T) k l f, indexable T E -> reachable E c -> shows E c k l ->
  (exists c', first_mut E f c = (c', [], Ret (match l with [] => false | _ => true end)) /\
     shows E c' k (match l with [] => [] | x :: t => f x :: t end)) /\
  (exists c', last_mut E f c = (c', [], Ret (match l with [] => false | _ => true end)) /\
     shows E c' k (match rev l with [] => [] | x :: t => rev t ++ [f x] end)).
Proof. exact (fun T E c k l f HE Hr Hs => first_last_mut_api HE f Hr Hs). Qed.
Print Assumptions c08_first_last_mut.

Theorem c08_iter_mut : forall T E (c : cb T) k l g, indexable T E -> reachable E c -> shows E c k l ->
  (forall q, length (g q) = length q) ->
  exists c', iter_mut_with g c = (c', [], Ret tt) /\ shows E c' k (g l).
Proof. exact (fun T E c k l g HE Hr Hs Hg => sim_shows (@iter_mut_with_ok T E g c _ (shows_matches HE Hr Hs) Hg)). Qed.
Print Assumptions c08_iter_mut.

Theorem c08_slices_mut : forall T E g (c : cb T) k l, indexable T E -> reachable E c -> shows E c k l ->
  (forall a b, length (fst (g a b)) = length a /\ length (snd (g a b)) = length b) ->
  exists a b c', slices c = Ret (a, b) /\ slices_mut_with g c = (c', [], Ret tt) /\
    slices c' = Ret (g a b) /\ shows E c' k (fst (g a b) ++ snd (g a b)).
Proof. exact (fun T E g c k l HE => @slices_mut_api T E HE g c k l). Qed.
Print Assumptions c08_slices_mut.

Example c08_ex :
  iter (fst (fst (index_mut E0 1 (fun x => x + 40) demo))) = Ret [3; 44; 6] /\
  iter (fst (fst (last_mut E0 (fun x => x + 40) demo))) = Ret [3; 4; 46] /\
  iter (fst (fst (iter_mut_with (map S) demo))) = Ret [4; 5; 7] /\
  slices (fst (fst (slices_mut_with (fun a b => (map S a, map (fun _ => 0) b)) demo))) = Ret ([4; 5], [0]).
Proof. repeat split. Qed.

(** ** C09, C10 *)
Theorem c09_slices : forall T E (c : cb T) k l, indexable T E -> reachable E c -> shows E c k l ->
  exists a b, slices c = Ret (a, b) /\ a ++ b = l.
Proof. exact (fun T E c k l HE => @slices_api T E HE c k l). Qed.
Print Assumptions c09_slices.
Example c09_ex : slices demo = Ret ([3; 4], [6]).
Proof. reflexivity. Qed.

Theorem c10_linearize : forall T E (c : cb T) k l, indexable T E -> reachable E c -> shows E c k l ->
  exists c', linearize E c = (c', [], Ret l) /\ shows E c' k l /\ slices c' = Ret (l, []).
Proof. exact (fun T E c k l HE => @linearize_api T E HE c k l). Qed.
Print Assumptions c10_linearize.
Example c10_ex : slices (fst (fst (linearize E0 demo))) = Ret ([3; 4; 6], []).
Proof. reflexivity. Qed.

(** ** C11 *)
Theorem c11_swap : forall T E (c : cb T) k l a b, indexable T E -> reachable E c -> shows E c k l ->
  match nth_error l a, nth_error l b with
  | Some x, Some y => exists c', swap E a b c = (c', [], Ret tt) /\ shows E c' k (replace b x (replace a y l))
  | _, _ => swap E a b c = (c, [], Panic)
  end.
Proof. exact (fun T E c k l a b HE Hr Hs => swap_api HE a b Hr Hs). Qed.
Print Assumptions c11_swap.

Theorem c11_reverse : forall T E (c : cb T) k l, indexable T E -> reachable E c -> shows E c k l ->
  exists c', reverse E c = (c', [], Ret tt) /\ shows E c' k (rev l).
Proof. exact (fun T E c k l HE Hr Hs => sim_shows (reverse_ok HE (shows_matches HE Hr Hs))). Qed.
Print Assumptions c11_reverse.

Example c11_ex : iter (fst (fst (swap E0 0 2 demo))) = Ret [6; 4; 3] /\ iter (fst (fst (reverse E0 demo))) = Ret [6; 4; 3]
  /\ swap E0 3 0 demo = (demo, [], Panic).
Proof. repeat split. Qed.

(** ** C12 *)
Theorem c12_resize_partial : forall T E q (c : cb T) k l, indexable T E -> reachable E c -> shows E c k l ->
  q + 1 <= alloc_max E ->
  exists c', resize E (fun _ => false) q c = (c', firstn (length l - q) l, Ret tt) /\ shows E c' q (lastn q l).
Proof. exact (fun T E q c k l HE => @resize_api T E HE q c k l). Qed.
Print Assumptions c12_resize_partial.

(** capacities that cannot be allocated: panic without effect *)
Theorem c12_resize_too_big_partial : forall T E (dp : T -> bool) q c, indexable T E -> alloc_max E < q + 1 ->
  q < usize_max E \/ debug_build E = true -> resize E dp q c = (c, [], Panic).
Proof. exact (fun T E dp q c => @resize_too_big T E dp q c). Qed.
Print Assumptions c12_resize_too_big_partial.

(** in a release build [resize(usize::MAX)] wraps: every element is taken out
    of the buffer and leaked, then the call panics *)
Theorem c12_resize_max_refuted : forall T E (dp : T -> bool) c k l,
  indexable T E -> reachable E c -> shows E c k l -> l <> [] ->
  debug_build E = false -> 2 * alloc_max E < usize_max E ->
  exists c', resize E dp (usize_max E) c = (c', [], Panic) /\ shows E c' k [].
Proof. exact (fun T E dp c k l => @resize_wraps T E dp c k l). Qed.
Print Assumptions c12_resize_max_refuted.

Example c12_ex : iter (fst (fst (resize E0 never 2 demo))) = Ret [4; 6] /\
  capacity E0 (fst (fst (resize E0 never 7 demo))) = Ret 7 /\
  snd (resize E0 never 100 demo) = Panic.
Proof. repeat split. Qed.
Definition demo_r : cb nat := fst (cb_run E0r never demo_ops demo0).
Lemma demo_r_reachable : reachable E0r demo_r.
Proof.
  apply run_reachable; [|repeat constructor].
  apply (@r_new nat E0r 3); [apply Nat.leb_le|]; reflexivity.
Qed.
Example c12_ex_refuted : shows E0r demo_r 3 [3; 4; 6] /\
  2 * alloc_max E0r < usize_max E0r /\ snd (resize E0r never 1000 demo_r) = Panic /\
  iter (fst (fst (resize E0r never 1000 demo_r))) = Ret [] /\ snd (fst (resize E0r never 1000 demo_r)) = [].
Proof. split; [split; reflexivity|]. split; [apply Nat.ltb_lt; reflexivity|]. repeat split. Qed.

(** ** C13 *)
Theorem c13_append : forall T E (c1 c2 : cb T) k1 l1 k2 l2, indexable T E -> reachable E c1 -> reachable E c2 ->
  shows E c1 k1 l1 -> shows E c2 k2 l2 ->
  exists c1' c2', append E (fun _ => false) (c1, c2) =
     ((c1', c2'), firstn (length (l1 ++ l2) - k1) (l1 ++ l2), Ret tt) /\
    shows E c1' k1 (lastn k1 (l1 ++ l2)) /\ shows E c2' k2 [].
Proof. exact (fun T E c1 c2 k1 l1 k2 l2 HE => @append_api T E HE c1 c2 k1 l1 k2 l2). Qed.
Print Assumptions c13_append.

Theorem c13_extend : forall T E xs (c : cb T) k l, indexable T E -> reachable E c -> shows E c k l ->
  exists c', extend E (fun _ => false) xs c = (c', firstn (length (l ++ xs) - k) (l ++ xs), Ret tt) /\
    shows E c' k (lastn k (l ++ xs)).
Proof. exact (fun T E xs c k l HE => @extend_api T E HE xs c k l). Qed.
Print Assumptions c13_extend.

Theorem c13_drain : forall T E (dp : T -> bool) n c k l, indexable T E -> reachable E c -> shows E c k l ->
  exists c', drain_take E dp n c = (c', [], Ret (firstn n l)) /\ shows E c' k (skipn n l).
Proof. exact (fun T E dp n c k l HE => @drain_api T E HE dp n c k l). Qed.
Print Assumptions c13_drain.

Theorem c13_into_iter : forall T E n (c : cb T) k l, indexable T E -> reachable E c -> shows E c k l ->
  exists c', into_iter_take E (fun _ => false) n c = (c', rev (skipn n l), Ret (firstn n l)).
Proof. exact (fun T E n c k l HE => @into_iter_api T E HE n c k l). Qed.
Print Assumptions c13_into_iter.

Example c13_ex : snd (fst (append E0 never (demo, demo2))) = [3; 4] /\
  iter (fst (fst (fst (append E0 never (demo, demo2))))) = Ret [6; 7; 8] /\
  iter (fst (fst (extend E0 never [10; 11; 12; 13] demo))) = Ret [11; 12; 13] /\
  snd (drain_take E0 never 2 demo) = Ret [3; 4] /\
  snd (fst (into_iter_take E0 never 1 demo)) = [6; 4].
Proof. repeat split. Qed.

(** ** C14 *)
Theorem c14_eq_contents : forall T E1 E2 peq (a b : cb T) ka la kb lb, shows E1 a ka la -> shows E2 b kb lb ->
  exists r, cb_eq peq a b = Ret r /\ (r = true <-> Forall2 (fun x y => peq x y = true) la lb).
Proof. exact (fun T E1 E2 peq a b ka la kb lb => @cb_eq_api T E1 E2 peq a b ka la kb lb). Qed.
Print Assumptions c14_eq_contents.

Theorem c14_eq_slice_contents : forall T E peq (a : cb T) k l s, shows E a k l ->
  exists r, cb_eq_slice peq a s = Ret r /\ (r = true <-> Forall2 (fun x y => peq x y = true) l s).
Proof. exact (fun T E peq a k l s => @cb_eq_slice_api T E peq a k l s). Qed.
Print Assumptions c14_eq_slice_contents.

Theorem c14_partial_cmp_lexicographic : forall T E1 E2 pc (a b : cb T) ka la kb lb,
  shows E1 a ka la -> shows E2 b kb lb ->
  exists r, cb_partial_cmp pc a b = Ret r /\ match r with
  | Some Eq => Forall2 (fun x y => pc x y = Some Eq) la lb
  | Some Lt => lex_before (fun x y => pc x y = Some Eq) (fun x y => pc x y = Some Lt) la lb
  | Some Gt => exists p q u v, la = p ++ u /\ lb = q ++ v /\ Forall2 (fun x y => pc x y = Some Eq) p q /\
      match u, v with _ :: _, [] => True | x :: _, y :: _ => pc x y = Some Gt | _, _ => False end
  | None => exists p q x y u v, la = p ++ x :: u /\ lb = q ++ y :: v /\
      Forall2 (fun x y => pc x y = Some Eq) p q /\ pc x y = None
  end.
Proof. exact (fun T E1 E2 pc a b ka la kb lb => @cb_partial_cmp_api T E1 E2 pc a b ka la kb lb). Qed.
Print Assumptions c14_partial_cmp_lexicographic.

Theorem c14_cmp_lexicographic : forall T (cmp : T -> T -> comparison) E1 E2 (a b : cb T) ka la kb lb,
  (forall x y, cmp y x = CompOpp (cmp x y)) ->
  shows E1 a ka la -> shows E2 b kb lb ->
  exists r, cb_cmp cmp a b = Ret r /\ match r with
  | Eq => Forall2 (fun x y => cmp x y = Eq) la lb
  | Lt => lex_before (fun x y => cmp x y = Eq) (fun x y => cmp x y = Lt) la lb
  | Gt => lex_before (fun x y => cmp x y = Eq) (fun x y => cmp x y = Lt) lb la
  end.
Proof. exact (fun T cmp E1 E2 a b ka la kb lb Ho => @cb_cmp_api T cmp Ho E1 E2 a b ka la kb lb). Qed.
Print Assumptions c14_cmp_lexicographic.

Theorem c14_cmp_total_order : forall T (cmp : T -> T -> comparison) E (a b e : cb T),
  (forall x y, cmp y x = CompOpp (cmp x y)) ->
  (forall x y z, cmp x y = Eq -> cmp x z = cmp y z) ->
  (forall x y z, cmp x y = Lt -> cmp y z = Lt -> cmp x z = Lt) ->
  indexable T E -> reachable E a -> reachable E b -> reachable E e ->
  exists ab ba be ae, cb_cmp cmp a b = Ret ab /\ cb_cmp cmp b a = Ret ba /\ cb_cmp cmp b e = Ret be /\
    cb_cmp cmp a e = Ret ae /\
    ba = CompOpp ab /\ (ab = Eq -> ae = be) /\ (ab = Lt -> be = Lt -> ae = Lt).
Proof. exact (fun T cmp E a b e H1 H2 H3 => @cb_cmp_total T cmp H1 H2 H3 E a b e). Qed.
Print Assumptions c14_cmp_total_order.

(** when the element comparisons agree with each other, so do the three
    comparisons of buffers *)
Theorem c14_comparisons_agree : forall T E1 E2 peq pc (cmp : T -> T -> comparison) (a b : cb T) ka la kb lb,
  (forall x y, pc x y = Some (cmp x y)) -> (forall x y, peq x y = match cmp x y with Eq => true | _ => false end) ->
  shows E1 a ka la -> shows E2 b kb lb ->
  exists r, cb_cmp cmp a b = Ret r /\ cb_partial_cmp pc a b = Ret (Some r) /\
    cb_eq peq a b = Ret (match r with Eq => true | _ => false end).
Proof. exact (fun T E1 E2 peq pc cmp a b ka la kb lb => @cb_orders_agree T E1 E2 peq pc cmp a b ka la kb lb). Qed.
Print Assumptions c14_comparisons_agree.

Example c14_ex : cb_cmp Nat.compare demo demo2 = Ret Lt /\
  cb_eq Nat.eqb demo (fst (fst (linearize E0 demo))) = Ret true /\ cb_eq Nat.eqb demo demo2 = Ret false.
Proof. repeat split. Qed.
Example c14_ex_prefix : cb_eq_slice Nat.eqb demo [3; 4; 6] = Ret true /\ cb_eq_slice Nat.eqb demo [3; 4] = Ret false /\
  cb_cmp Nat.compare (fst (fst (pop_back E0 demo))) demo = Ret Lt /\
  cb_partial_cmp (fun x y => Some (Nat.compare x y)) demo (fst (fst (pop_back E0 demo))) = Ret (Some Gt) /\
  (forall x y, Nat.eqb x y = match Nat.compare x y with Eq => true | _ => false end).
Proof.
  repeat split. intros x y. destruct (Nat.compare_spec x y); [now apply Nat.eqb_eq|..]; apply Nat.eqb_neq; lia.
Qed.
Example c14_ex_laws : (forall x y, Nat.compare y x = CompOpp (Nat.compare x y)) /\
  (forall x y z, Nat.compare x y = Eq -> Nat.compare x z = Nat.compare y z) /\
  (forall x y z, Nat.compare x y = Lt -> Nat.compare y z = Lt -> Nat.compare x z = Lt).
Proof.
  split; [intros; apply Nat.compare_antisym|]. split.
  - intros x y z H; apply Nat.compare_eq in H; subst; auto.
  - intros x y z; rewrite !Nat.compare_lt_iff; lia.
Qed.

(** ** C15 *)
(** clone() of any buffer runs the element's [clone] on an uninitialised slot
    (there is always one), unless element cloning is a plain bit copy *)
Theorem c15_clone_refuted : forall T E (cl : T -> T) c, indexable T E -> reachable E c ->
  clone_cb false cl c = UB.
Proof. exact (fun T E cl c => @clone_ub T E cl c). Qed.
Print Assumptions c15_clone_refuted.

Theorem c15_clone_bitwise_partial : forall T E (cl : T -> T) c k l, indexable T E -> reachable E c -> shows E c k l ->
  exists c', clone_cb true cl c = Ret c' /\ reachable E c' /\ shows E c' k (map cl l).
Proof. exact (fun T E cl c k l => @clone_bitwise T E cl c k l). Qed.
Print Assumptions c15_clone_bitwise_partial.

Example c15_ex : clone_cb false (fun x => x) demo = UB /\ clone_cb true (fun x => x) demo = Ret demo.
Proof. split; reflexivity. Qed.

(** ** C16 *)
Theorem c16_machine_independent : forall T E1 E2 (dp : T -> bool) k ops c1 c2,
  indexable T E1 -> indexable T E2 -> alloc_max E1 = alloc_max E2 -> k + 1 <= alloc_max E1 ->
  Forall (op_ok E1) ops -> new T E1 k = Ret c1 -> new T E2 k = Ret c2 ->
  snd (cb_run E1 dp ops c1) = snd (cb_run E2 dp ops c2) /\
  exists k' l', shows E1 (fst (cb_run E1 dp ops c1)) k' l' /\ shows E2 (fst (cb_run E2 dp ops c2)) k' l'.
Proof. exact (fun T E1 E2 dp k ops c1 c2 => @machines_agree T E1 E2 dp k ops c1 c2). Qed.
Print Assumptions c16_machine_independent.

Example c16_ex : indexable nat E0 /\ indexable nat E0r /\ alloc_max E0 = alloc_max E0r /\
  new nat E0 3 = new nat E0r 3 /\
  snd (cb_run E0 bad7 demo_ops demo0) = snd (cb_run E0r bad7 demo_ops demo0).
Proof. split; [apply E0_sized|split; [apply E0r_sized|repeat split]]. Qed.

(** [indexable] is needed: with zero-sized elements storage may fill the whole
    index range and [len()] overflows if overflow is checked (C77) *)
Definition Ezst : machine := Machine 7 7 true.
Example c16_zst_overflow :
  exists c, new unit Ezst 6 = Ret c /\
    snd (cb_step Ezst (fun _ => false) OLen
      (fst (cb_run Ezst (fun _ => false) (repeat (OPushBack tt) 6 ++ repeat OPopFront 5 ++ repeat (OPushBack tt) 3) c)))
    = Panic.
Proof. eexists; split; reflexivity. Qed.

(** ** C17 *)
Theorem c17_new_partial : forall T E k, indexable T E -> k < usize_max E \/ debug_build E = true ->
  new T E k = Panic /\ alloc_max E < k + 1 \/
  k + 1 <= alloc_max E /\ exists c, new T E k = Ret c /\ reachable E c /\ shows E c k [].
Proof. exact (fun T E k => @new_capacity T E k). Qed.
Print Assumptions c17_new_partial.

Theorem c17_new_accepts_capacity_partial : forall T E k xs (c : cb T),
  indexable T E -> k + 1 <= alloc_max E -> new T E k = Ret c -> length xs <= k ->
  exists c' tr, cb_run E (fun _ => false) (map (@OPushBack T) xs) c = (c', tr) /\ shows E c' k xs /\ dropped tr = [].
Proof. exact (fun T E k xs c => @new_fill T E k xs c). Qed.
Print Assumptions c17_new_accepts_capacity_partial.

(** release build, capacity usize::MAX: a buffer that claims that capacity and
    panics on the first push *)
Theorem c17_new_max_refuted : forall T E (v : T) dp, debug_build E = false -> 0 < usize_max E ->
  exists c, new T E (usize_max E) = Ret c /\ capacity E c = Ret (usize_max E) /\
    snd (push_back E dp v c) = Panic.
Proof. exact (fun T E v dp => @new_wraps T E v dp). Qed.
Print Assumptions c17_new_max_refuted.

Theorem c17_from_iter : forall T E xs, indexable T E -> length xs + 1 <= alloc_max E ->
  exists c, from_iter E xs = Ret c /\ shows (T:=T) E c (length xs) xs.
Proof. exact (fun T E xs => @from_iter_full T E xs). Qed.
Print Assumptions c17_from_iter.

Theorem c17_from_vec : forall T E d xs, indexable T E -> length xs + 1 <= alloc_max E ->
  exists c, from_vec E d xs = Ret c /\ shows (T:=T) E c (length xs) xs.
Proof. exact (fun T E d xs => @from_vec_full T E d xs). Qed.
Print Assumptions c17_from_vec.

Example c17_ex : new nat E0 99 <> Panic /\ new nat E0 100 = Panic /\ new nat E0 1000 = Panic /\
  from_vec E0 true [4; 5] = Ret (CB [Init 4; Init 5; Uninit] 0 2) /\ from_iter E0 [4; 5] = from_vec E0 true [4; 5] /\
  new nat E0r 1000 = Ret (CB [] 0 0).
Proof. split; [vm_compute; discriminate|]. repeat split. Qed.

(** ** C18 *)
(** whatever destructors panicked during the history, the buffer still shows a
    sequence within its capacity, and any later history (with any other
    destructor behaviour) is that of the bounded sequence *)
Theorem c18_panicking_destructors : forall T E (dp dp' : T -> bool) ops ops' c,
  indexable T E -> reachable E c -> Forall (op_ok E) ops -> Forall (op_ok E) ops' ->
  exists k l, shows E (fst (cb_run E dp ops c)) k l /\ length l <= k /\
    snd (cb_run E dp' ops' (fst (cb_run E dp ops c))) = snd (spec_run dp' ops' (Deque k l)).
Proof. exact (fun T E dp dp' ops ops' c HE => @after_panics T E HE dp dp' ops ops' c). Qed.
Print Assumptions c18_panicking_destructors.

(** crash points of the individual operations *)
Theorem c18_push_back_crash : forall T E (dp : T -> bool) v x t c k,
  indexable T E -> reachable E c -> shows E c k (x :: t) -> length (x :: t) = k -> dp x = true ->
  exists c', push_back E dp v c = (c', [x; v], if dp v then Abort else Panic) /\ shows E c' k t.
Proof. exact (fun T E dp v x t c k HE => @push_back_crash T E HE dp v x t c k). Qed.
Print Assumptions c18_push_back_crash.

Theorem c18_clear_crash : forall T E (dp : T -> bool) a x b c k,
  indexable T E -> reachable E c -> shows E c k (a ++ x :: b) -> dp x = true -> existsb dp b = false ->
  exists c', clear E dp c = (c', rev b ++ [x], Panic) /\ shows E c' k a.
Proof. exact (fun T E dp a x b c k HE => @clear_crash T E HE dp a x b c k). Qed.
Print Assumptions c18_clear_crash.

Theorem c18_resize_crash : forall T E (dp : T -> bool) a x b c k q,
  indexable T E -> reachable E c -> shows E c k (a ++ x :: b) -> q + 1 <= alloc_max E ->
  length a < length (a ++ x :: b) - q -> dp x = true -> existsb dp a = false ->
  exists c', resize E dp q c = (c', a ++ [x], Panic) /\ shows E c' k b.
Proof. exact (fun T E dp a x b c k q HE => @resize_crash T E HE dp a x b c k q). Qed.
Print Assumptions c18_resize_crash.

Definition bad4 : nat -> bool := fun x => x =? 4.
Definition bad3 : nat -> bool := fun x => x =? 3.
Example c18_ex : push_back E0 bad3 8 demo = (fst (fst (push_back E0 bad3 8 demo)), [3; 8], Panic) /\
  iter (fst (fst (push_back E0 bad3 8 demo))) = Ret [4; 6] /\
  snd (fst (clear E0 bad4 demo)) = [6; 4] /\ snd (clear E0 bad4 demo) = Panic /\
  iter (fst (fst (clear E0 bad4 demo))) = Ret [3] /\
  snd (fst (resize E0 bad4 0 demo)) = [3; 4] /\ iter (fst (fst (resize E0 bad4 0 demo))) = Ret [6].
Proof. repeat split. Qed.

(** ** C19 *)
Theorem c19_storage_fixed : forall T E (dp : T -> bool) o c,
  indexable T E -> reachable E c -> op_ok E o -> (forall q, o <> OResize q) ->
  length (buffer (fst (fst (cb_step E dp o c)))) = length (buffer c).
Proof. exact (fun T E dp o c HE => @step_storage T E HE dp o c). Qed.
Print Assumptions c19_storage_fixed.

Theorem c19_push_touches_two_slots : forall T E (dp : T -> bool) v c,
  (exists s, length s <= 2 /\ frame s c (fst (fst (push_back E dp v c)))) /\
  (exists s, length s <= 2 /\ frame s c (fst (fst (push_front E dp v c)))).
Proof. exact (fun T E dp v c => conj (framed_push_back E dp v c) (framed_push_front E dp v c)). Qed.
Print Assumptions c19_push_touches_two_slots.

Theorem c19_pop_touches_one_slot : forall T E (dp : T -> bool) c,
  (exists s, length s <= 1 /\ frame s c (fst (fst (pop_back E c)))) /\
  (exists s, length s <= 1 /\ frame s c (fst (fst (pop_front E dp c)))).
Proof. exact (fun T E dp c => conj (framed_pop_back E c) (framed_pop_front E dp c)). Qed.
Print Assumptions c19_pop_touches_one_slot.

Example c19_ex : buffer demo = [Init 6; Uninit; Init 3; Init 4] /\
  buffer (fst (fst (push_back E0 never 8 demo))) = [Init 6; Init 8; Uninit; Init 4] /\
  buffer (fst (fst (pop_back E0 demo))) = [Uninit; Uninit; Init 3; Init 4].
Proof. repeat split. Qed.
