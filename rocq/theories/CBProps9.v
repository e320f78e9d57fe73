(** C108: the heap memory of circular buffers. *)
From Coq Require Import Permutation.
From Verif Require Import Base CBSpec CBModel CBModel2 CBRun CBRun2 CBProofs CBProofs2 CBProofs3 CBProofs7 CBProps CBProps3 CBSpec6 CBModel7 CBRun4 CBProofs14 CBProofs15 CBProofs16.
Set Implicit Arguments.

(** an allocator handing out the smallest address above all in use, and a growth strategy *)
Definition place0 (es : list event) : nat :=
  match settle [] es with Some l => list_max (map (fun b => fst b + 1) l) | None => 0 end.
Definition grow0 (n : nat) : nat := Nat.max (n + 1) (Nat.min 100 (2 * n)).
Lemma place0_allocator : allocator place0.
Proof.
  intros es l (l' & Q & P) I. unfold place0 in I. rewrite Q in I. apply (Permutation_in _ (Permutation_map fst (Permutation_sym P))) in I.
  apply in_map_iff in I as (b & Hb & I). pose proof (proj1 (list_max_le (map (fun b => fst b + 1) l') _) (le_n _)) as F. rewrite Forall_forall in F.
  specialize (F (fst b + 1) (in_map (fun b => fst b + 1) _ _ I)). lia.
Qed.
Lemma grow0_growing : growing 100 grow0.
Proof. intros n L. unfold grow0. lia. Qed.
(** the heap of a program that has just made the buffer [demo] *)
Lemma demo_heap : in_use [Take (0, 4)] (owns (demo, Some 0) ++ []).
Proof. exists [(0, 4)]. split; reflexivity. Qed.
Lemma demo_block : has_block true (demo, Some 0).
Proof. split; intros X; vm_compute in X; discriminate. Qed.

(** Constructors behave as in [CBModel] and [CBModel2] and leave one block in use, of
    exactly the size of the storage; if they panic, none.  [From<Vec>] takes over the
    caller's block. *)
Theorem c108_construction_owns_one_block : forall T E sized grow place h bs,
  allocator place -> growing (alloc_max E) grow -> in_use h bs ->
  (forall k, accounted sized bs (new_h T E sized grow place k (h, tt)) (new T E k)) /\
  (forall c0 (evs : list (option T)), c0 <= alloc_max E ->
     accounted sized bs (from_iter_h E sized grow place c0 evs (h, tt)) (snd (from_iter_from E evs))) /\
  (forall c0 cl (xs : list T), c0 <= alloc_max E ->
     accounted sized bs (from_iter_refs_h E sized grow place c0 cl xs (h, tt)) (snd (from_iter_refs E cl xs))) /\
  (forall c bw (f : T -> T), length (buffer c) <= alloc_max E ->
     accounted sized bs (clone_h E sized place bw (fun x => Some (f x)) c (h, tt)) (clone_cb bw f c)).
Proof.
  intros T E sized grow place h bs HA HG U.
  assert (G : forall r o, rel (built E sized True bs) (fun s1 _ => True -> in_use (fst s1) bs) r (tt, [], o) ->
    (match o with Abort | NoFuel => False | _ => True end) -> accounted (T:=T) sized bs r o).
  { intros [[[h1 []] d] o1] o [-> X] NA. unfold accounted. destruct o1, o; try contradiction; auto.
    destruct X as (X1 & X2 & _ & X3). auto. }
  assert (GF : forall evs, match snd (from_iter_from (T:=T) E evs) with Abort | NoFuel => False | _ => True end).
  { intros evs. unfold from_iter_from. destruct (collect_from E [] evs) as [xs [?| | | |]]; cbn; auto. unfold vec_push_uninit.
    destruct (_ <=? _); cbn; auto. unfold usub. destruct (_ <=? _); cbn; auto. destruct (debug_build E); cbn; auto. }
  split; [|split; [|split]].
  - intros k. apply G; [now apply new_rel|]. unfold new, with_capacity, uadd, vec_with_capacity, vec_push_uninit.
    destruct (_ <=? _); [|destruct (debug_build E)]; cbn; auto; destruct (_ <=? _); cbn; auto; destruct (_ <=? _); cbn; auto.
  - intros c0 evs L. apply G; [now apply from_iter_rel|apply GF].
  - intros c0 cl xs L. apply G; [now apply from_iter_rel|apply GF].
  - intros c bw f L. pose proof (@clone_rel T E sized place HA unit bw (fun x => Some (f x)) c (h, tt) True bs L (fun _ => U)) as X.
    unfold clone_cb. rewrite clone_slots_total in X.
    assert (NA : forall l, match @clone_slots T bw f l with Ret _ | UB => True | _ => False end).
    { induction l as [|[|v] l IH]; cbn; auto; [destruct bw; auto|]; destruct (clone_slots _ f l); cbn; auto. }
    specialize (NA (buffer c)). destruct (clone_h E sized place bw (fun x => Some (f x)) c (h, tt)) as [[[h1 []] d] o1].
    destruct (clone_slots bw f (buffer c)); try contradiction; destruct X as [-> X]; destruct o1; try contradiction; cbn; auto.
    destruct X as (_ & X1 & X2 & _ & X3). auto.
Qed.
Print Assumptions c108_construction_owns_one_block.
(** A clone in which an element panics returns its block. *)
Theorem c108_interrupted_clone_owns_nothing : forall T E sized place h bs bw (cl : T -> option T) c v,
  allocator place -> in_use h bs -> length (buffer c) <= alloc_max E ->
  bw = true \/ ~ In Uninit (buffer c) -> In (Init v) (buffer c) -> cl v = None ->
  let '((h', _), d, o) := clone_h E sized place bw cl c (h, tt) in
  o = Panic /\ d = [] /\ in_use h' bs.
Proof.
  intros T E sized place h bs bw cl c v HA U L B I N.
  pose proof (@clone_rel T E sized place HA unit bw cl c (h, tt) True bs L (fun _ => U)) as X.
  assert (P : clone_slots_h bw cl (buffer c) = Panic).
  { clear - B I N. induction (buffer c) as [|[|w] l IH]; cbn in *; [contradiction|..].
    - destruct B as [->|B]; [|tauto]. destruct I as [I|I]; [discriminate|]. rewrite IH; auto.
    - destruct (cl w) eqn:W; [|reflexivity]. destruct I as [I|I]; [congruence|]. rewrite IH; auto. tauto. }
  rewrite P in X. cbn [obind] in X. destruct (clone_h E sized place bw cl c (h, tt)) as [[[h1 u] d] o].
  destruct X as [-> X]. destruct o; try contradiction. split; [reflexivity|]. split; [reflexivity|]. apply X. exact Logic.I.
Qed.
Print Assumptions c108_interrupted_clone_owns_nothing.
Example c108_ex_construction :
  new_h nat E0 true grow0 place0 3 ([], tt) = (([Take (0, 4)], tt), [], Ret (demo0, Some 0)) /\
  new_h nat E0 true grow0 place0 200 ([], tt) = (([], tt), [], Panic) /\
  new_h nat E0 false grow0 place0 3 ([], tt) = (([], tt), [], Ret (demo0, None)) /\
  from_iter_h E0 true grow0 place0 2 [Some 1; Some 2; Some 3] ([], tt) =
    (([Take (0, 2); Give (0, 2); Take (0, 4)], tt), [], Ret (CB [Init 1; Init 2; Init 3; Uninit] 0 3, Some 0)) /\
  from_iter_h E0 true grow0 place0 2 [Some 1; Some 2; Some 3; None] ([], tt) =
    (([Take (0, 2); Give (0, 2); Take (0, 4); Give (0, 4)], tt), [], Panic) /\
  from_iter_refs_h E0 true grow0 place0 8 Some [1] ([], tt) =
    (([Take (0, 8); Give (0, 8); Take (0, 2)], tt), [], Ret (CB [Init 1; Uninit] 0 1, Some 0)) /\
  clone_h E0 true place0 true (fun x => Some (x + 1)) demo ([Take (0, 4)], tt) =
    (([Take (0, 4); Take (1, 4)], tt), [], Ret (CB [Init 7; Uninit; Init 4; Init 5] 2 1, Some 1)) /\
  clone_h E0 true place0 true (fun x => if x =? 4 then None else Some x) demo ([Take (0, 4)], tt) =
    (([Take (0, 4); Take (1, 4); Give (1, 4)], tt), [], Panic).
Proof. repeat split. Qed.

Theorem c108_from_vec_takes_the_block_over : forall T E sized grow place h bs droppable (xs : list T) a cap,
  allocator place -> growing (alloc_max E) grow ->
  vec_ok E sized (Vec (map Init xs) a cap) -> in_use h (blk a cap ++ bs) ->
  accounted sized bs (from_vec_h E sized grow place droppable xs a cap (h, tt)) (from_vec E droppable xs).
Proof.
  intros T E sized grow place h bs droppable xs a cap HA HG K U.
  pose proof (@from_vec_rel T E sized grow place HA HG droppable xs a cap (h, tt) True bs K (fun _ => U)) as X.
  destruct (from_vec_h E sized grow place droppable xs a cap (h, tt)) as [[[h1 []] d] o1].
  unfold from_vec, vec_push_uninit in *. destruct (_ <=? _); cbn [obind] in X; [|destruct droppable]; destruct X as [-> X]; destruct o1; try contradiction; cbn; auto.
  destruct X as (X1 & X2 & _ & X3). auto.
Qed.
Print Assumptions c108_from_vec_takes_the_block_over.
Example c108_ex_from_vec :
  vec_ok E0 true (Vec (map (@Init nat) [1; 2; 3]) (Some 5) 9) /\ in_use [Take (5, 9)] (blk (Some 5) 9 ++ []) /\
  from_vec_h E0 true grow0 place0 true [1; 2; 3] (Some 5) 9 ([Take (5, 9)], tt) =
    (([Take (5, 9); Give (5, 9); Take (0, 4)], tt), [], Ret (CB [Init 1; Init 2; Init 3; Uninit] 0 3, Some 0)) /\
  from_vec_h E0 true grow0 place0 true [1; 2; 3] (Some 5) 4 ([Take (5, 4)], tt) =
    (([Take (5, 4)], tt), [], Ret (CB [Init 1; Init 2; Init 3; Uninit] 0 3, Some 5)).
Proof. repeat split; try discriminate; try (apply Nat.leb_le; reflexivity). exists [(5, 9)]. split; reflexivity. Qed.

(** Every call does what it does in [CBModel], also if it panics, and the buffer has one
    block, of the size of its storage; only [resize] requests memory. *)
Theorem c108_history_owns_one_block : forall T E (dp : T -> bool) sized grow place ops h c a bs,
  indexable T E -> allocator place -> growing (alloc_max E) grow ->
  reachable E c -> Forall (op_ok E) ops -> has_block sized (c, a) -> in_use h (owns (c, a) ++ bs) ->
  match run (step_h E dp sized grow place) ops (h, (c, a)) with
  | ((h', (c', a')), tr) =>
      cb_run E dp ops c = (c', tr) /\ has_block sized (c', a') /\ in_use h' (owns (c', a') ++ bs) /\
      exists es, h' = h ++ es /\ requests es <= (if sized then resizes ops else 0)
  end.
Proof. intros T E dp sized grow place ops h c a bs HE HA HG R O HB U. now apply run_in_use. Qed.
Print Assumptions c108_history_owns_one_block.
Example c108_ex_history :
  Forall (op_ok E0) [OPushBack 7; OResize 2; OPopFront; OResize 5; OPushBack 9] /\
  run (step_h E0 never true grow0 place0) [OPushBack 7; OResize 2; OPopFront; OResize 5; OPushBack 9] ([Take (0, 4)], (demo, Some 0)) =
    (([Take (0, 4); Take (1, 3); Give (0, 4); Take (2, 6); Give (1, 3)],
      (CB [Init 7; Init 9; Uninit; Uninit; Uninit; Uninit] 0 2, Some 2)),
     [([3], Ret RUnit); ([4], Ret RUnit); ([], Ret (ROpt (Some 6))); ([], Ret RUnit); ([], Ret RUnit)]) /\
  in_use [Take (0, 4); Take (1, 3); Give (0, 4); Take (2, 6); Give (1, 3)] [(2, 6)].
Proof. split; [repeat constructor; apply Nat.leb_le; reflexivity|]. split; [reflexivity|]. exists [(2, 6)]. split; reflexivity. Qed.

(** exactly what [new] and [resize] request and return, and how much memory [resize]
    needs in between *)
Theorem c108_requests_exactly : forall T E (dp : T -> bool) sized grow place h k, indexable T E -> k + 1 <= alloc_max E ->
  (exists c, new_h T E sized grow place k (h, tt) = ((h ++ taken sized place h (k + 1), tt), [], Ret (c, put sized place h (k + 1)))) /\
  (forall c a, reachable E c -> exists c' dr o a', resize E dp k c = (c', dr, o) /\
     match o with
     | Ret _ => a' = put sized place h (k + 1) /\
         resize_h E dp sized grow place k (h, (c, a)) = ((h ++ taken sized place h (k + 1) ++ given a (length (buffer c)), (c', a')), dr, o)
     | Panic => a' = a /\
         resize_h E dp sized grow place k (h, (c, a)) = ((h ++ taken sized place h (k + 1) ++ given (put sized place h (k + 1)) (k + 1), (c', a')), dr, o)
     | _ => False
     end).
Proof.
  intros T E dp sized grow place h k HE L. split.
  - destruct (@new_requests T E HE sized grow place k h L) as (c & Q & _). eauto.
  - intros c a R. destruct (reachable_matches HE R) as [d M].
    destruct (@resize_requests T E HE dp sized grow place k h c a d M L) as (c' & dr & o & a' & Q1 & Q2 & Q3).
    exists c', dr, o, a'. split; [exact Q2|]. destruct o; try contradiction; destruct Q3; auto.
Qed.
Print Assumptions c108_requests_exactly.
Example c108_ex_requests : 1 + 1 <= alloc_max E0 /\
  resize_h E0 never true grow0 place0 1 ([Take (0, 4)], (demo, Some 0)) =
    (([Take (0, 4); Take (1, 2); Give (0, 4)], (CB [Init 6; Uninit] 0 1, Some 1)), [3; 4], Ret tt) /\
  resize_h E0 (fun x => x =? 4) true grow0 place0 1 ([Take (0, 4)], (demo, Some 0)) =
    (([Take (0, 4); Take (1, 2); Give (1, 2)], (CB [Init 6; Uninit; Uninit; Uninit] 0 1, Some 0)), [3; 4], Panic).
Proof. split; [apply Nat.leb_le; reflexivity|]. repeat split. Qed.

(** while [resize] runs, the old and the new storage exist side by side; no more *)
Theorem c108_peak_of_resize : forall T E (dp : T -> bool) grow place h l k c a, indexable T E -> allocator place ->
  k + 1 <= alloc_max E -> reachable E c -> settle [] h = Some l -> In (a, length (buffer c)) l ->
  exists es, fst (fst (fst (resize_h E dp true grow place k (h, (c, Some a))))) = h ++ es /\
    peak l es = room l + (k + 1).
Proof.
  intros T E dp grow place h l k c a HE HA L R S I. destruct (reachable_matches HE R) as [d M].
  destruct (@resize_requests T E HE dp true grow place k h c (Some a) d M L) as (c' & dr & o & a' & Q1 & Q2 & Q3). rewrite Q1. cbn [fst].
  eexists. split; [reflexivity|]. unfold taken, put, given. replace (0 <? k + 1) with true by (symmetry; apply Nat.ltb_lt; lia). cbn [andb app].
  assert (RM : forall l1 l2, Permutation l1 l2 -> room l1 = room l2) by (unfold room; induction 1; cbn in *; lia).
  assert (GV : forall b, In b ((place h, k + 1) :: l) -> peak l ([Take (place h, k + 1)] ++ [Give b]) = room l + (k + 1)).
  { intros b Ib. destruct (without_in _ _ Ib) as (l' & W & P). cbn [app peak]. rewrite W. apply RM in P. unfold room in *; cbn [fold_right snd] in *. lia. }
  destruct o; try contradiction; apply GV; [now right|now left].
Qed.
Print Assumptions c108_peak_of_resize.
Example c108_ex_peak : settle [] [Take (0, 4)] = Some [(0, 4)] /\ peak [(0, 4)] [Take (1, 2); Give (0, 4)] = 6.
Proof. split; reflexivity. Qed.

(** Any call on any buffer, also [resize] to a capacity that cannot be had or whose
    increment overflows. *)
Theorem c108_any_call : forall T E (dp : T -> bool) sized grow place h bs o c a,
  indexable T E -> 0 < usize_max E -> allocator place -> growing (alloc_max E) grow ->
  obtained E c -> op_usize E o -> has_block sized (c, a) -> in_use h (owns (c, a) ++ bs) ->
  match step_h E dp sized grow place o (h, (c, a)), cb_step E dp o c with
  | ((h', (c', a')), d, r), (c2, d2, r2) => d = d2 /\ r = r2 /\
      (r <> Abort -> c' = c2 /\ has_block sized (c', a') /\ in_use h' (owns (c', a') ++ bs))
  end.
Proof.
  intros T E dp sized grow place h bs o c a HE HU HA HG OB OK HB U. pose proof (obtained_good HE HU OB) as G.
  assert (LA : length (buffer c) <= alloc_max E).
  { destruct G as [R|R]; [|rewrite R; cbn; lia]. destruct (reachable_matches HE R) as [d [RP _]]. exact (rep_alloc RP). }
  assert (NF : forall n c1 d1, drain_skip E dp n c = (c1, d1, Ret tt) -> snd (drain_all E dp (S (length (buffer c1))) c1) <> NoFuel).
  { intros n c1 d1 Q. destruct G as [R|R].
    - destruct (reachable_matches HE R) as [d M]. exact (no_fuel HE dp M _ Q).
    - pose proof (@tame_drain_skip T E dp n c R) as X. rewrite Q in X. destruct X as [X _].
      pose proof (@tame_drain_all T E dp c1 X) as Y. cbv beta in Y. destruct (drain_all E dp _ c1) as [[c2 d2] r]. cbn. intros ->. tauto. }
  pose proof (fun c' dr r => @good_step T E HE HU dp o c c' dr r G OK) as GS.
  assert (RS : (exists k, o = OResize k) \/ step_h E dp sized grow place o (h, (c, a)) = quiet (on_fst (cb_step E dp o)) (h, (c, a)) /\ keeps_capacity o).
  { destruct o; cbn [step_h keeps_capacity]; eauto. }
  destruct RS as [[k ->]|[-> KC]].
  - cbn [step_h cb_step] in *. pose proof (mmap_end (fun _ => RUnit (T:=T)) (resize E dp k) c) as M2.
    pose proof (@resize_rel T E dp sized grow place HA HG k h c a True bs LA HB NF (fun _ => U)) as X.
    unfold mmap at 1, bind at 1. destruct (resize E dp k c) as [[c2 d2] o2]. rewrite M2 in GS |- *. specialize (GS _ _ _ eq_refl). destruct GS as [_ SE].
    destruct (resize_h E dp sized grow place k (h, (c, a))) as [[[h1 [c1 a1]] d1] o1]. destruct X as [-> X].
    destruct o1, o2; try contradiction; cbn [ret omap]; rewrite ?app_nil_r; split; auto; split; auto; intros NA; try congruence.
    + destruct X as (X1 & X2 & _ & X3). cbn in X1. auto.
    + destruct X as ((X1 & X2 & _ & X3) & _). cbn in X1. auto.
  - unfold quiet, on_snd, on_fst. cbn [fst snd].
    assert (KL : forall c2 d2 r2, cb_step E dp o c = (c2, d2, r2) -> length (buffer c2) = length (buffer c)).
    { intros c2 d2 r2 Q. destruct G as [R|R].
      - destruct (reachable_matches HE R) as [d M]. assert (O : op_ok E o) by (destruct o; cbn in *; auto; contradiction).
        destruct (@step_requests T E HE dp sized grow place o h c a d M O) as (c' & dr & r & es & a' & _ & Q2 & X).
        rewrite Q2 in Q. injection Q as <- <- <-. destruct o; try tauto. contradiction.
      - pose proof (@tame_step T E dp HU o OK KC c R) as X. rewrite Q in X. destruct X as [X _]. rewrite X, R. reflexivity. }
    destruct (cb_step E dp o c) as [[c2 d2] r2]. specialize (KL _ _ _ eq_refl). split; auto. split; auto. intros _. split; auto.
    split; [eapply has_len; eauto|]. rewrite (@owns_len T _ _ a KL). exact U.
Qed.
Print Assumptions c108_any_call.
Lemma demo_obtained : obtained E0 demo.
Proof.
  assert (G : forall ops c, obtained E0 c -> Forall (@op_usize nat E0) ops -> obtained E0 (fst (cb_run E0 never ops c))).
  { unfold cb_run. induction ops as [|o ops IH]; intros c OB F; cbn [run]; [exact OB|]. apply Forall_cons_iff in F as [F1 F].
    destruct (cb_step E0 never o c) as [[c1 dr] r] eqn:Q. pose proof (o_call never o OB F1 Q) as O1. specialize (IH c1 O1 F).
    destruct r; auto; destruct (run _ ops c1) as [c2 tr]; exact IH. }
  apply G; [|repeat constructor]. apply (@o_new nat E0 3); [apply Nat.leb_le|]; reflexivity.
Qed.
Example c108_ex_any : op_usize E0 (OResize (T:=nat) 200) /\
  resize_h E0 never true grow0 place0 200 ([Take (0, 4)], (demo, Some 0)) = (([Take (0, 4)], (demo, Some 0)), [], Panic) /\
  resize_h E0r never true grow0 place0 1000 ([Take (0, 2)], (demo_e, Some 0)) =
    (([Take (0, 2); Give (0, 2)], (CB [] 0 0, None)), [], Ret tt).
Proof. split; [apply Nat.leb_le; reflexivity|]. split; reflexivity. Qed.

(** Dropping a buffer returns its block, also if the destructor of an element panics. *)
Theorem c108_drop_returns_the_block : forall T E (dp : T -> bool) h c a bs,
  indexable T E -> 0 < usize_max E -> obtained E c -> in_use h (owns (c, a) ++ bs) ->
  match drop_h E dp (h, (c, a)), drop_cb E dp c with
  | ((h', (c', _)), d, r), (c2, d2, r2) => d = d2 /\ r = r2 /\ (r = Ret tt \/ r = Panic) /\ c' = c2 /\ in_use h' bs
  end.
Proof.
  intros T E dp h c a bs HE HU OB U. pose proof (obtained_good HE HU OB) as G.
  pose proof (@drop_rel T E dp h c a True bs (fun _ => U)) as X.
  assert (CL : match drop_cb E dp c with (_, _, r) => r = Ret tt \/ r = Panic end).
  { destruct G as [R|R].
    - destruct (reachable_matches HE R) as [d M]. pose proof (clear_ok dp M) as S. unfold drop_cb, sim, s_clear in *.
      pose proof (drop_each_ends dp (rev (items d))) as DE. destruct (drop_each dp (rev (items d))) as [[r dr] o].
      destruct S as (c1 & -> & _). destruct o as [[]| | | |]; auto; contradiction.
    - unfold drop_cb. unfold clear. rewrite R. cbn [length clear_loop].
      pose proof (@tame_pop_back T E (fun _ => false) c R) as Y. unfold bind. destruct (pop_back E c) as [[c1 d1] [x| | | |]]; cbn; auto; try tauto.
      + destruct Y as [_ ->]. cbn. auto.
      + destruct Y as [_ (x & _ & Y)]. discriminate. }
  destruct (drop_h E dp (h, (c, a))) as [[[h1 [c1 a1]] d1] o1]. destruct (drop_cb E dp c) as [[c2 d2] o2].
  destruct X as [-> X]. destruct CL as [->| ->]; destruct o1 as [[]| | | |]; try contradiction; destruct X as [X1 X2]; cbn in X1; auto 10.
Qed.
Print Assumptions c108_drop_returns_the_block.
Example c108_ex_drop :
  drop_h E0 (fun x => x =? 4) ([Take (0, 4)], (demo, Some 0)) =
    (([Take (0, 4); Give (0, 4)], (CB [Uninit; Uninit; Init 3; Uninit] 2 3, Some 0)), [6; 4], Panic) /\
  in_use [Take (0, 4); Give (0, 4)] [].
Proof. split; [reflexivity|]. exists []. split; reflexivity. Qed.

(** The same for the owning iterator, wherever it is abandoned. *)
Theorem c108_into_iter_returns_the_block : forall T E (dp : T -> bool) h c a bs n,
  indexable T E -> reachable E c -> in_use h (owns (c, a) ++ bs) ->
  match into_iter_take_h E dp n (h, (c, a)), into_iter_take E dp n c with
  | ((h', (c', _)), d, r), (c2, d2, r2) => d = d2 /\ r = r2 /\ (r = Panic \/ exists vs, r = Ret vs) /\ c' = c2 /\ in_use h' bs
  end.
Proof.
  intros T E dp h c a bs n HE R U. destruct (reachable_matches HE R) as [d M].
  destruct (drain_take_ok dp HE n M) as (c1 & Q & M1).
  pose proof (@into_iter_rel T E dp n h c a True bs (fun _ => U) (ex_intro _ c1 (ex_intro _ _ (ex_intro _ _ Q)))) as X.
  pose proof (clear_ok dp M1) as S. unfold sim, s_clear in S.
  assert (CL : match into_iter_take E dp n c with (_, _, r) => r = Panic \/ exists vs, r = Ret vs end).
  { unfold into_iter_take, bind. rewrite Q. unfold drop_cb.
    match type of S with context [drop_each dp ?l] => pose proof (drop_each_ends dp l) as DE; destruct (drop_each dp l) as [[r dr] o] end.
    destruct S as (c2 & -> & _). destruct o as [[]| | | |]; cbn; eauto; contradiction. }
  destruct (into_iter_take_h E dp n (h, (c, a))) as [[[h1 [c3 a1]] d1] o1]. destruct (into_iter_take E dp n c) as [[c2 d2] o2].
  destruct X as [-> X]. destruct CL as [->|[vs ->]]; destruct o1 as [vs1| | | |]; try contradiction.
  - destruct X as [X1 X2]; cbn in X1; auto 10.
  - destruct X as (-> & X1 & X2); cbn in X1. repeat split; eauto.
Qed.
Print Assumptions c108_into_iter_returns_the_block.
Example c108_ex_into_iter :
  into_iter_take_h E0 never 1 ([Take (0, 4)], (demo, Some 0)) =
    (([Take (0, 4); Give (0, 4)], (CB [Uninit; Uninit; Uninit; Uninit] 3 3, Some 0)), [6; 4], Ret [3]) /\
  into_iter_take_h E0 (fun x => x =? 6) 1 ([Take (0, 4)], (demo, Some 0)) =
    (([Take (0, 4); Give (0, 4)], (CB [Uninit; Uninit; Uninit; Init 4] 3 0, Some 0)), [6], Panic).
Proof. split; reflexivity. Qed.

(** [clone_from]: the old block is returned, also if a destructor panics; the buffer has
    a new one.  If cloning panics nothing changes. *)
Theorem c108_clone_from : forall T E (dp : T -> bool) sized place bw (cl : T -> option T) src b h c a bs,
  indexable T E -> 0 < usize_max E -> allocator place -> obtained E c -> obtained E src -> has_block sized (c, a) -> in_use h (owns (c, a) ++ bs) ->
  (clone_slots_h bw cl (buffer src) = Ret b ->
   match clone_from_h E dp sized place bw cl src (h, (c, a)), drop_cb E dp c with
   | ((h', p), d, r), (_, d2, r2) => d = d2 /\ r = r2 /\ (r = Ret tt \/ r = Panic) /\
       fst p = CB b (start src) (end_ src) /\ has_block sized p /\ in_use h' (owns p ++ bs)
   end) /\
  (clone_slots_h bw cl (buffer src) = Panic ->
   match clone_from_h E dp sized place bw cl src (h, (c, a)) with
   | ((h', p), d, r) => p = (c, a) /\ d = [] /\ r = Panic /\ in_use h' (owns p ++ bs)
   end).
Proof.
  intros T E dp sized place bw cl src b h c a bs HE HU HA OB OS HB U.
  assert (LA : length (buffer src) <= alloc_max E).
  { destruct (obtained_good HE HU OS) as [R|R]; [|rewrite R; cbn; lia]. destruct (reachable_matches HE R) as [d [RP _]]. exact (rep_alloc RP). }
  pose proof (@clone_from_rel T E dp sized place HA bw cl src h c a True bs LA (fun _ => U)) as X.
  split; intros Q; rewrite Q in X.
  - pose proof (@c108_drop_returns_the_block T E dp h c a bs HE HU OB U) as D. destruct (drop_h E dp (h, (c, a))) as [[[h2 [c2 a2]] d2] r2].
    destruct (drop_cb E dp c) as [[c3 d3] r3]. destruct D as (_ & -> & D & _).
    destruct (clone_from_h E dp sized place bw cl src (h, (c, a))) as [[[h1 p] d1] r1]. destruct X as [-> X].
    destruct D as [->| ->]; destruct r1 as [[]| | | |]; try contradiction; destruct X as (X1 & X2 & X3); auto 10.
  - destruct X as (h1 & -> & X). auto.
Qed.
Print Assumptions c108_clone_from.
Example c108_ex_clone_from :
  clone_slots_h true Some (buffer demo2) = Ret (buffer demo2) /\
  clone_from_h E0 (fun x => x =? 4) true place0 true Some demo2 ([Take (0, 4)], (demo, Some 0)) =
    (([Take (0, 4); Take (1, 4); Give (0, 4)], (demo2, Some 1)), [6; 4], Panic) /\
  clone_from_h E0 never true place0 true (fun x => if x =? 8 then None else Some x) demo2 ([Take (0, 4)], (demo, Some 0)) =
    (([Take (0, 4); Take (1, 4); Give (1, 4)], (demo, Some 0)), [], Panic).
Proof. repeat split. Qed.
