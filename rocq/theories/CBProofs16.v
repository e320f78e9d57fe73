(** Blocks of heap memory: what exactly is requested, and histories of calls. *)
From Coq Require Import Permutation.
From Verif Require Import Base CBSpec CBModel CBModel2 CBRun CBProofs CBProofs2 CBProofs3 CBSpec6 CBModel7 CBRun4 CBProofs14 CBProofs15.
Local Open Scope outcome_scope.
Set Implicit Arguments.

Section Proofs.
Variable T : Type.
Variable E : machine.
Hypothesis HE : indexable T E.
Variable dp : T -> bool.
Variable sized : bool.
Variable grow : nat -> nat.
Variable place : list event -> nat.
Notation matches := (matches E).

(** ** Vectors with enough room *)
Lemma push_room S (v : vec T) x (s : list event * S) : length (v_items v) < v_cap v ->
  vec_push_h E sized grow place v x s = (s, [], Ret (Vec (v_items v ++ [x]) (v_at v) (v_cap v))).
Proof. intros L. unfold vec_push_h. now rewrite (proj2 (Nat.ltb_lt _ _) L). Qed.

Lemma fill_room S n : forall (v : vec T) (s : list event * S), length (v_items v) + n <= v_cap v ->
  vec_fill_h E sized grow place n v s = (s, [], Ret (Vec (v_items v ++ repeat Uninit n) (v_at v) (v_cap v))).
Proof.
  induction n as [|n IH]; intros v s L; cbn [vec_fill_h repeat].
  - rewrite app_nil_r. now destruct v.
  - rewrite (bind_nil _ (@push_room S v Uninit s ltac:(lia))), IH by (cbn; rewrite app_length; cbn; lia).
    cbn [v_items v_at v_cap]. now rewrite <- app_assoc.
Qed.

Lemma shrink_full S (v : vec T) (s : list event * S) : length (v_items v) = v_cap v -> vec_shrink_h sized place v s = (s, [], Ret v).
Proof. intros L. unfold vec_shrink_h. now rewrite (proj2 (Nat.ltb_ge _ _)) by lia. Qed.

Lemma extend_room fuel : forall (v : vec T) h c (a : option nat) d, matches c d -> length (items d) < fuel -> length (v_items v) + length (items d) <= v_cap v ->
  exists c', extend_vec_h E dp sized grow place fuel v (h, (c, a)) =
    ((h, (c', a)), [], Ret (Vec (v_items v ++ map Init (items d)) (v_at v) (v_cap v))) /\ matches c' (Deque (cap d) []).
Proof.
  induction fuel as [|f IH]; intros v h c a d M L R; [lia|]. cbn [extend_vec_h].
  assert (X : exists c1, pop_front E dp c = (c1, [], Ret (hd_error (items d))) /\ matches c1 (Deque (cap d) (tl (items d)))).
  { destruct d as [k [|x l]]; [exact (pop_front_nil dp HE M eq_refl)|exact (pop_front_cons dp HE M eq_refl)]. }
  destruct X as (c1 & P & M1).
  assert (Q : releasing v (quiet (on_fst (pop_front E dp))) (h, (c, a)) = ((h, (c1, a)), [], Ret (hd_error (items d)))).
  { unfold releasing, quiet, on_snd, on_fst. cbn [fst snd]. now rewrite P. }
  rewrite (bind_nil _ Q). destruct d as [k l]. cbn [items cap] in *. destruct l as [|x l]; cbn [hd_error tl] in *.
  - exists c1. cbn. rewrite app_nil_r. destruct v. auto.
  - cbn [length] in *. rewrite (bind_nil _ (@push_room _ v (Init x) (h, (c1, a)) ltac:(lia))).
    destruct (IH (Vec (v_items v ++ [Init x]) (v_at v) (v_cap v)) h c1 a (Deque k l) M1) as (c2 & Q2 & M2); cbn [items v_items v_cap]; [lia|rewrite app_length; cbn; lia|].
    exists c2. split; [|exact M2]. rewrite Q2. cbn [v_items v_at v_cap items]. rewrite <- app_assoc. reflexivity.
Qed.

(** ** What is requested *)
Notation taken := (taken sized place).
Notation put := (put sized place).

Lemma take_taken S n (s : list event * S) : take T sized place n s = ((fst s ++ taken (fst s) n, snd s), [], Ret (put (fst s) n)).
Proof. unfold take, taken, put. destruct (sized && (0 <? n)); [reflexivity|]. rewrite app_nil_r. now destruct s. Qed.

Lemma give_given S a n (s : list event * S) : give T a n s = ((fst s ++ given a n, snd s), [], Ret tt).
Proof. unfold give, given. destruct a; [reflexivity|]. rewrite app_nil_r. now destruct s. Qed.

Lemma room_taken S n (s : list event * S) : n <= alloc_max E ->
  vec_with_capacity_h T E sized place n s = ((fst s ++ taken (fst s) n, snd s), [], Ret (Vec [] (put (fst s) n) n)).
Proof. intros L. unfold vec_with_capacity_h. rewrite (proj2 (Nat.leb_le _ _) L). now rewrite (bind_nil _ (take_taken n s)). Qed.

Lemma new_requests k h : k + 1 <= alloc_max E ->
  exists c, new_h T E sized grow place k (h, tt) = ((h ++ taken h (k + 1), tt), [], Ret (c, put h (k + 1))) /\ new T E k = Ret c.
Proof.
  intros L. pose proof HE as [HU _]. destruct (@new_ok T E HE k L) as (c & N & _). exists c. split; [|exact N].
  unfold new_h, with_capacity_h. unfold new, with_capacity in N. rewrite uadd_fits in * by lia. cbn [obind] in N.
  unfold vec_with_capacity in N. rewrite (proj2 (Nat.leb_le _ _) L) in N. cbn [obind] in N.
  unfold vec_push_uninit in N. cbn [length Nat.add app] in N. rewrite (proj2 (Nat.leb_le _ _) L) in N. cbn [obind] in N. injection N as <-.
  rewrite (@bind_nil _ _ _ _ (liftO (Ret (k + 1))) _ (h, tt) (h, tt) (k + 1) eq_refl).
  rewrite (bind_nil _ (room_taken (h, tt) L)). cbn [fst snd].
  rewrite (@bind_nil _ _ _ _ (releasing _ (liftO (Ret (k + 1)))) _ _ (h ++ taken h (k + 1), tt) (k + 1) eq_refl).
  rewrite (bind_nil _ (@fill_room unit (k + 1) (Vec [] (put h (k + 1)) (k + 1)) _ ltac:(cbn; lia))).
  cbn [v_items app v_at v_cap].
  rewrite (bind_nil _ (@shrink_full unit (Vec (repeat Uninit (k + 1)) (put h (k + 1)) (k + 1)) _ (repeat_length _ _))). reflexivity.
Qed.

Lemma resize_requests k h c a d : matches c d -> k + 1 <= alloc_max E ->
  exists c' dr o a', resize_h E dp sized grow place k (h, (c, a)) =
    ((h ++ taken h (k + 1) ++ match o with Ret _ => given a (length (buffer c)) | _ => given (put h (k + 1)) (k + 1) end, (c', a')), dr, o) /\
    resize E dp k c = (c', dr, o) /\
    match o with Ret _ => a' = put h (k + 1) /\ length (buffer c') = k + 1 | Panic => a' = a /\ length (buffer c') = length (buffer c) | _ => False end.
Proof.
  intros M L. pose proof HE as [HU _]. pose proof M as [R Hn]. unfold resize_h, resize.
  rewrite uadd_fits by lia.
  rewrite (@bind_nil _ _ _ _ (liftO (Ret (k + 1))) _ (h, (c, a)) (h, (c, a)) (k + 1) eq_refl).
  rewrite (@bind_nil _ _ _ _ (liftO (Ret (k + 1))) _ c c (k + 1) eq_refl).
  rewrite (bind_nil _ (room_taken (h, (c, a)) L)). cbn [fst snd].
  set (h1 := h ++ taken h (k + 1)). set (p := put h (k + 1)).
  unfold vec_with_capacity. rewrite (proj2 (Nat.leb_le _ _) L).
  rewrite (@bind_nil _ _ _ _ (liftO (Ret [])) _ c c [] eq_refl).
  assert (Hskip : (obind (len E c) (fun q => if k <? q then obind (len E c) (fun q' => usub E q' k) else Ret 0)) = Ret (length (items d) - k)).
  { rewrite (rep_len_ok HE R); cbn [obind]. destruct (Nat.ltb_spec k (length (items d))); [rewrite usub_fits by lia; reflexivity|f_equal; lia]. }
  rewrite (@bind_nil _ _ _ _ (gets (fun c0 : cb T => let* l := len E c0 in if k <? l then let* l' := len E c0 in usub E l' k else Ret 0)) _ c c (length (items d) - k))
    by (unfold gets; now rewrite Hskip).
  rewrite (@bind_nil _ _ _ _ (releasing (Vec [] p (k + 1)) (quiet (on_fst (gets (fun c0 : cb T => let* l := len E c0 in if k <? l then let* l' := len E c0 in usub E l' k else Ret 0))))) _ (h1, (c, a)) (h1, (c, a)) (length (items d) - k))
    by (unfold releasing, quiet, on_snd, on_fst, gets; cbn [fst snd]; now rewrite Hskip).
  set (n := length (items d) - k).
  pose proof (drain_skip_ok dp HE n M) as Hs. pose proof (drop_each_Ret dp (firstn n (items d))) as Hd.
  destruct (drop_each dp (firstn n (items d))) as [[r dr] o]. destruct Hs as (c1 & H1 & M1).
  pose proof (kept_drain_skip E dp n c) as K1. rewrite H1 in K1. cbn in K1.
  destruct o as [[]| | | |]; try contradiction.
  - destruct Hd as [-> ->]. cbn [app] in M1.
    assert (Hf : length (skipn n (items d)) < S (length (buffer c1))) by (destruct M1 as [R1 _]; pose proof (rep_len R1); simpl in *; lia).
    assert (Hlen : length (skipn n (items d)) <= k) by (rewrite skipn_length; unfold n; lia).
    destruct (drain_all_ok dp HE M1 (fuel:=S (length (buffer c1))) Hf) as (c2 & H2 & M2). cbn [items] in H2.
    destruct (@extend_room (S (length (buffer c1))) (Vec [] p (k + 1)) h1 c1 a _ M1 Hf) as (c3 & Q3 & M3); [cbn; lia|].
    cbn [v_items app v_at v_cap items] in Q3.
    assert (L3 : length (buffer c3) = length (buffer c)) by (destruct M3 as [_ X3]; destruct M1 as [_ X1]; cbn in *; lia).
    unfold bind at 1. unfold releasing at 1, quiet, on_snd, on_fst. cbn [fst snd]. rewrite H1.
    rewrite (@bind_nil _ _ _ _ (fun s => extend_vec_h E dp sized grow place (S (length (buffer (fst (snd s))))) (Vec [] p (k + 1)) s) _ (h1, (c1, a)) _ _ Q3).
    cbv zeta. cbn [v_items]. rewrite map_length. rewrite usub_fits by lia. cbn [obind]. rewrite uadd_fits by lia.
    set (m := k - length (skipn n (items d)) + 1).
    rewrite (@bind_nil _ _ _ _ (releasing (Vec (map Init (skipn n (items d))) p (k + 1)) (liftO (Ret m))) _ (h1, (c3, a)) (h1, (c3, a)) m eq_refl).
    rewrite (bind_nil _ (@fill_room _ m (Vec (map Init (skipn n (items d))) p (k + 1)) (h1, (c3, a)) ltac:(cbn; rewrite map_length; lia))).
    cbn [v_items v_at v_cap].
    assert (LB : length (map Init (skipn n (items d)) ++ repeat Uninit m) = k + 1) by (rewrite app_length, map_length, repeat_length; lia).
    rewrite (bind_nil _ (@shrink_full _ (Vec (map Init (skipn n (items d)) ++ repeat Uninit m) p (k + 1)) (h1, (c3, a)) LB)).
    rewrite (bind_nil _ (@shrink_full _ (Vec (map Init (skipn n (items d)) ++ repeat Uninit m) p (k + 1)) (h1, (c3, a)) LB)).
    rewrite (@bind_nil _ _ _ _ (fun s => give T (snd (snd s)) (length (buffer (fst (snd s)))) s) _ (h1, (c3, a)) _ tt (give_given a (length (buffer c3)) (h1, (c3, a)))).
    cbn [fst snd modify v_items v_at]. rewrite L3.
    exists (CB (map Init (skipn n (items d)) ++ repeat Uninit m) 0 (length (skipn n (items d)))), (firstn n (items d)), (Ret tt), p.
    split; [unfold h1; rewrite <- app_assoc, app_nil_r; reflexivity|].
    split; [|split; [reflexivity|exact LB]].
    unfold bind at 1. rewrite H1.
    rewrite (@bind_nil _ _ _ _ (fun c : cb T => drain_all E dp (S (length (buffer c))) c) _ c1 _ _ H2).
    cbv zeta. rewrite map_length, usub_fits by lia. cbn [obind]. rewrite uadd_fits by lia. fold m.
    rewrite (@bind_nil _ _ _ _ (liftO (Ret m)) _ c2 c2 m eq_refl).
    unfold vec_push_uninit. rewrite map_length, (proj2 (Nat.leb_le (length (skipn n (items d)) + m) (alloc_max E))) by lia.
    rewrite (@bind_nil _ _ _ _ (liftO (Ret (map Init (skipn n (items d)) ++ repeat Uninit m))) _ c2 c2 _ eq_refl).
    unfold modify. rewrite app_nil_r. reflexivity.
  - exists c1, dr, Panic, a. unfold bind at 1. unfold releasing at 1, quiet, on_snd, on_fst. cbn [fst snd]. rewrite H1.
    cbn [v_at v_cap]. rewrite (give_given p (k + 1) (h1, (c1, a))). cbn [fst snd]. split; [unfold h1; rewrite <- app_assoc; reflexivity|].
    split; [|auto]. unfold bind at 1. now rewrite H1.
Qed.

(** ** Histories *)

Lemma step_requests o h c a d : matches c d -> op_ok E o ->
  exists c' dr r es a', step_h E dp sized grow place o (h, (c, a)) = ((h ++ es, (c', a')), dr, r) /\ cb_step E dp o c = (c', dr, r) /\
    match o with
    | OResize k => es = taken h (k + 1) ++ match r with Ret _ => given a (length (buffer c)) | _ => given (put h (k + 1)) (k + 1) end /\
        match r with Ret _ => a' = put h (k + 1) /\ length (buffer c') = k + 1 | Panic => a' = a /\ length (buffer c') = length (buffer c) | _ => False end
    | _ => es = [] /\ a' = a /\ length (buffer c') = length (buffer c)
    end.
Proof.
  intros M O.
  assert (G : (forall k, o <> OResize k) -> exists c' dr r, quiet (on_fst (cb_step E dp o)) (h, (c, a)) = ((h ++ [], (c', a)), dr, r) /\
    cb_step E dp o c = (c', dr, r) /\ length (buffer c') = length (buffer c)).
  { intros N. unfold quiet, on_snd, on_fst. cbn [fst snd]. pose proof (step_ok dp HE o M O) as S.
    destruct (spec_step dp o d) as [[d' dr'] r'] eqn:QS. destruct S as (c' & Q & M'). rewrite Q. exists c', dr', r'. rewrite app_nil_r. repeat split.
    destruct M as [R1 L1], M' as [R2 L2]. pose proof (@spec_step_cap T dp o d N) as X. rewrite QS in X. cbn in X. rewrite L1, L2, X. reflexivity. }
  destruct o; try (destruct (G ltac:(discriminate)) as (c' & dr & r & Q1 & Q2 & Q3); exists c', dr, r, [], a; repeat split; auto; fail).
  clear G. destruct (@resize_requests c0 h c a d M O) as (c' & dr & r & a' & Q1 & Q2 & Q3).
  cbn [step_h cb_step]. unfold mmap, bind. rewrite Q1, Q2.
  destruct r as [[]| | | |]; try contradiction.
  - exists c', dr, (Ret RUnit), (taken h (c0 + 1) ++ given a (length (buffer c))), a'. cbn. rewrite !app_nil_r. auto.
  - exists c', dr, Panic, (taken h (c0 + 1) ++ given (put h (c0 + 1)) (c0 + 1)), a'. cbn. auto.
Qed.

Hypothesis HA : allocator place.
Hypothesis HG : growing (alloc_max E) grow.

Lemma no_fuel c d : matches c d -> forall n c1 d1, drain_skip E dp n c = (c1, d1, Ret tt) -> snd (drain_all E dp (S (length (buffer c1))) c1) <> NoFuel.
Proof.
  intros M n c1 d1 Q. pose proof (drain_skip_ok dp HE n M) as Hs. destruct (drop_each dp (firstn n (items d))) as [[r dr] o].
  destruct Hs as (c1' & H1 & M1). rewrite Q in H1. injection H1 as <- _ _.
  destruct M1 as [R1 L1]. pose proof (rep_len R1) as X.
  destruct (drain_all_ok dp HE (conj R1 L1) (fuel:=S (length (buffer c1)))) as (c2 & -> & _); [cbn in *; lia|discriminate].
Qed.

(** one call: what is in use *)
Lemma step_in_use o h c a d bs : matches c d -> op_ok E o -> has_block sized (c, a) -> in_use h (owns (c, a) ++ bs) ->
  match step_h E dp sized grow place o (h, (c, a)), cb_step E dp o c with
  | ((h', (c', a')), dr, r), (c2, dr2, r2) => c' = c2 /\ dr = dr2 /\ r = r2 /\ has_block sized (c', a') /\
      in_use h' (owns (c', a') ++ bs) /\ exists es, h' = h ++ es /\
      requests es = match o with OResize _ => if sized then 1 else 0 | _ => 0 end
  end.
Proof.
  intros M O HB U. destruct (@step_requests o h c a d M O) as (c' & dr & r & es & a' & Q1 & Q2 & Q3). rewrite Q1, Q2.
  split; [reflexivity|]. split; [reflexivity|]. split; [reflexivity|].
  assert (G : (exists k, o = OResize k) \/ es = [] /\ a' = a /\ length (buffer c') = length (buffer c)) by (destruct o; eauto).
  destruct G as [(k & ->)|(-> & -> & L)].
  - destruct Q3 as (-> & Q3). pose proof M as [R _]. pose proof (rep_alloc R) as LA.
    pose proof (@resize_rel T E dp sized grow place HA HG k h c a True bs LA HB (no_fuel M) (fun _ => U)) as X.
    destruct (@resize_requests k h c a d M O) as (c2 & dr2 & r2 & a2 & Q4 & Q5 & Q6). rewrite Q4, Q5 in X.
    cbn [step_h cb_step] in Q1, Q2. unfold mmap, bind in Q1, Q2. rewrite Q4 in Q1. rewrite Q5 in Q2.
    assert (RQ : forall a0 n, requests (taken h (k + 1) ++ given a0 n) = if sized then 1 else 0).
    { intros a0 n. unfold taken, given, requests. replace (0 <? k + 1) with true by (symmetry; apply Nat.ltb_lt; lia). rewrite Bool.andb_true_r.
      destruct sized, a0; reflexivity. }
    destruct r2 as [[]| | | |]; try contradiction; cbn in Q1, Q2; injection Q2 as -> <- <-; rewrite ?app_nil_r in Q1; injection Q1 as <-.
    + destruct X as (_ & X). unfold kept in X. cbn [fst snd] in X. destruct X as (_ & X1 & _ & X2). split; [exact X1|]. split; [exact (X2 Logic.I)|].
      eexists. split; [reflexivity|]. apply RQ.
    + destruct X as (_ & X & _). unfold kept in X. cbn [fst snd] in X. destruct X as (_ & X1 & _ & X2). split; [exact X1|]. split; [exact (X2 Logic.I)|].
      eexists. split; [reflexivity|]. apply RQ.
  - rewrite app_nil_r. split; [exact (@has_len T sized c c' a L HB)|]. rewrite (@owns_len T c c' a L). split; [exact U|].
    exists []. rewrite app_nil_r. split; [reflexivity|].
    destruct o; try reflexivity. destruct Q3 as (Q3 & _). symmetry in Q3. apply app_eq_nil in Q3. destruct Q3 as [Q3 _].
    unfold taken in Q3. replace (0 <? c0 + 1) with true in Q3 by (symmetry; apply Nat.ltb_lt; lia). rewrite Bool.andb_true_r in Q3.
    destruct sized; [discriminate|reflexivity].
Qed.

Lemma requests_app es1 es2 : requests (es1 ++ es2) = requests es1 + requests es2.
Proof. unfold requests. now rewrite filter_app, app_length. Qed.

(** a history of calls *)
Lemma run_in_use ops : forall h c a bs, reachable E c -> Forall (op_ok E) ops -> has_block sized (c, a) -> in_use h (owns (c, a) ++ bs) ->
  match run (step_h E dp sized grow place) ops (h, (c, a)) with
  | ((h', (c', a')), tr) => run (cb_step E dp) ops c = (c', tr) /\ has_block sized (c', a') /\
      in_use h' (owns (c', a') ++ bs) /\ exists es, h' = h ++ es /\ requests es <= (if sized then resizes ops else 0)
  end.
Proof.
  induction ops as [|o ops IH]; intros h c a bs R O HB U; cbn [run].
  - split; [reflexivity|]. split; [exact HB|]. split; [exact U|]. exists []. rewrite app_nil_r. split; [reflexivity|]. destruct sized; cbn; lia.
  - inversion_clear O. destruct (reachable_matches HE R) as [d M].
    pose proof (@step_in_use o h c a d bs M H HB U) as X. pose proof (@r_call T E dp o c) as RC.
    destruct (step_h E dp sized grow place o (h, (c, a))) as [[[h1 [c1 a1]] dr] r].
    destruct (cb_step E dp o c) as [[c2 dr2] r2]. destruct X as (<- & <- & <- & HB1 & U1 & es & -> & Q).
    specialize (RC _ _ _ R H eq_refl).
    specialize (IH (h ++ es) c1 a1 bs RC H0 HB1 U1).
    assert (Z : (if sized then resizes (o :: ops) else 0) = requests es + if sized then resizes ops else 0)
      by (rewrite Q; unfold resizes; destruct sized, o; reflexivity).
    destruct (run (step_h E dp sized grow place) ops (h ++ es, (c1, a1))) as [[h3 [c3 a3]] tr].
    destruct IH as (IH1 & IH2 & IH3 & es2 & -> & IH4). rewrite IH1, Z.
    destruct r.
    + split; [reflexivity|]. split; [exact IH2|]. split; [exact IH3|]. exists (es ++ es2). rewrite app_assoc, requests_app. split; [reflexivity|lia].
    + split; [reflexivity|]. split; [exact IH2|]. split; [exact IH3|]. exists (es ++ es2). rewrite app_assoc, requests_app. split; [reflexivity|lia].
    + split; [reflexivity|]. split; [exact HB1|]. split; [exact U1|]. exists es. split; [reflexivity|lia].
    + split; [reflexivity|]. split; [exact HB1|]. split; [exact U1|]. exists es. split; [reflexivity|lia].
    + split; [reflexivity|]. split; [exact HB1|]. split; [exact U1|]. exists es. split; [reflexivity|lia].
Qed.

End Proofs.
