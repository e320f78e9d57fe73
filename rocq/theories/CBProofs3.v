(** API-level consequences of the simulation. *)
From Coq Require Import Permutation.
From Verif Require Import Base CBSpec CBSpec2 CBModel CBRun CBProofs CBProofs2.
Set Implicit Arguments.

Section Api.
Variable T : Type.
Variable E : machine.
Hypothesis HE : indexable T E.
Notation matches := (@matches T E).
Implicit Types c : cb T.

(** *** reachable buffers satisfy the invariant *)
Lemma clone_slots_ok bw cl (b b' : list (slot T)) : clone_slots bw cl b = Ret b' ->
  b' = map (fun s => match s with Uninit => Uninit | Init v => Init (cl v) end) b.
Proof.
  revert b'; induction b as [|[|v] b IH]; intros b' H; cbn [clone_slots] in H.
  - inversion H; auto.
  - destruct bw; [|discriminate]. destruct (clone_slots true cl b); try discriminate.
    inversion H; subst; cbn; f_equal; auto.
  - destruct (clone_slots bw cl b); try discriminate.
    inversion H; subst; cbn; f_equal; auto.
Qed.

Lemma clone_matches bw cl c c' d : matches c d -> clone_cb bw cl c = Ret c' ->
  matches c' (Deque (cap d) (map cl (items d))).
Proof.
  intros [R Hn] H; unfold clone_cb in H.
  destruct (clone_slots bw cl (buffer c)) as [b| | | |] eqn:Hc; try discriminate.
  inversion H; subst; clear H. apply clone_slots_ok in Hc.
  set (f := fun s => match s with Uninit => Uninit | Init v => Init (cl v) end) in *.
  assert (Hl : length b = length (buffer c)) by (subst b; apply map_length).
  pose proof R as [Hs Hlen He Hr Ha].
  split; [|cbn [buffer cap]; congruence].
  constructor; cbn [start end_ buffer items]; rewrite ?Hl, ?map_length; auto.
  subst b. unfold rot. rewrite firstn_map, skipn_map, <- map_app. fold (rot (start c) (buffer c)).
  rewrite Hr, map_app, !map_map. f_equal. generalize (length (buffer c) - length (items d)).
  induction n; cbn; f_equal; auto.
Qed.

Lemma reachable_matches c : reachable E c -> exists d, matches c d.
Proof.
  induction 1 as [k c Hk H | xs c H | b xs c H | dp o c c' dr r Hr IH Ho H
    | dp c1 c2 c1' c2' dr r H1 IH1 H2 IH2 H | dp c1 c2 c1' c2' dr r H1 IH1 H2 IH2 H
    | g c c' dr r Hr IH Hg H | bw cl c c' Hr IH H].
  - destruct (@new_ok T E HE k Hk) as (c0 & H0 & Hm). rewrite H in H0; inversion H0; subst; eauto.
  - assert (Hk : length xs + 1 <= alloc_max E).
    { unfold from_iter, vec_push_uninit in H. rewrite map_length in H.
      destruct (Nat.leb_spec (length xs + 1) (alloc_max E)); auto; discriminate. }
    destruct (@from_iter_ok T E xs Hk) as (c0 & H0 & Hm). rewrite H in H0; inversion H0; subst; eauto.
  - assert (Hk : length xs + 1 <= alloc_max E).
    { unfold from_vec, vec_push_uninit in H. rewrite map_length in H.
      destruct (Nat.leb_spec (length xs + 1) (alloc_max E)); auto; destruct b; discriminate. }
    destruct (@from_vec_ok T E b xs Hk) as (c0 & H0 & Hm). rewrite H in H0; inversion H0; subst; eauto.
  - destruct IH as [d Hm]. pose proof (step_ok dp HE o Hm Ho) as Hs.
    destruct (spec_step dp o d) as [[d' dr'] r']. destruct Hs as (c2 & Hc & Hm').
    rewrite H in Hc; inversion Hc; subst; eauto.
  - destruct IH1 as [d1 Hm1], IH2 as [d2 Hm2]. pose proof (append_ok dp HE Hm1 Hm2) as Hs.
    destruct (s_append dp (items d2) d1) as [[[d1' rest] dr'] o'].
    destruct Hs as (a & b & Hc & Ha & Hb). rewrite H in Hc; inversion Hc; subst; eauto.
  - destruct IH1 as [d1 Hm1], IH2 as [d2 Hm2]. pose proof (append_ok dp HE Hm1 Hm2) as Hs.
    destruct (s_append dp (items d2) d1) as [[[d1' rest] dr'] o'].
    destruct Hs as (a & b & Hc & Ha & Hb). rewrite H in Hc; inversion Hc; subst; eauto.
  - destruct IH as [d Hm]. destruct (@slices_mut_with_ok T E g c d Hm Hg) as (a & b & _ & _ & Hs).
    destruct Hs as (c2 & Hc & Hm'). rewrite H in Hc; inversion Hc; subst; eauto.
  - destruct IH as [d Hm]. eauto using clone_matches.
Qed.

Lemma matches_shows c d : matches c d -> shows E c (cap d) (items d).
Proof.
  intros Hm; pose proof Hm as [R Hn]. split.
  - rewrite (rep_capacity_ok R), Hn. f_equal; lia.
  - exact (iter_ok Hm).
Qed.

Lemma shows_fun c k l k' l' : shows E c k l -> shows E c k' l' -> k = k' /\ l = l'.
Proof. intros [H1 H2] [H3 H4]; split; congruence. Qed.

Lemma shows_matches c k l : reachable E c -> shows E c k l -> matches c (Deque k l).
Proof.
  intros Hr Hs. destruct (reachable_matches Hr) as [[k' l'] Hm].
  destruct (shows_fun Hs (matches_shows Hm)) as [-> ->]; auto.
Qed.

Lemma reachable_shows c : reachable E c -> exists k l, shows E c k l /\ length l <= k.
Proof.
  intros Hr; destruct (reachable_matches Hr) as [[k l] Hm]. exists k, l.
  split; [exact (matches_shows Hm)|]. destruct Hm as [R Hn]; pose proof (rep_len R); cbn in *; lia.
Qed.

Lemma sim_shows {A} (m : cb T * list T * outcome A) (d : deque T) dr o :
  sim E m (d, dr, o) -> exists c', m = (c', dr, o) /\ shows E c' (cap d) (items d).
Proof. intros (c' & -> & Hm). exists c'; split; auto using matches_shows. Qed.

(** a history from any reachable buffer *)
Lemma history_ok dp ops c k l : reachable E c -> shows E c k l -> Forall (op_ok E) ops ->
  snd (cb_run E dp ops c) = snd (spec_run dp ops (Deque k l)) /\
  shows E (fst (cb_run E dp ops c)) (cap (fst (spec_run dp ops (Deque k l))))
     (items (fst (spec_run dp ops (Deque k l)))).
Proof.
  intros Hr Hs Ho. destruct (run_ok dp HE (shows_matches Hr Hs) Ho) as [Hm Ht].
  split; auto using matches_shows.
Qed.

Lemma run_reachable dp ops c : reachable E c -> Forall (op_ok E) ops ->
  reachable E (fst (cb_run E dp ops c)).
Proof.
  unfold cb_run; revert c; induction ops as [|o ops IH]; intros c Hr Ho; cbn [run]; auto.
  inversion Ho; subst.
  destruct (cb_step E dp o c) as [[c1 dr] r] eqn:Hs.
  assert (Hr1 : reachable E c1) by (eapply r_call; eauto).
  destruct r; auto; specialize (IH c1 Hr1 H2); destruct (run (cb_step E dp) ops c1); auto.
Qed.

(** *** observers *)
Lemma observers_ok c k l : reachable E c -> shows E c k l ->
  length l <= k /\ len E c = Ret (length l) /\
  (is_empty c = true <-> length l = 0) /\
  is_full E c = Ret (length l =? k).
Proof.
  intros Hr Hs. destruct (shows_matches Hr Hs) as [R Hn]; cbn [items cap] in *.
  pose proof (rep_len R). split; [lia|]. split; [exact (rep_len_ok HE R)|].
  split; [rewrite (rep_is_empty_ok R); apply Nat.eqb_eq|].
  rewrite (rep_is_full_ok HE R), Hn. do 2 f_equal; lia.
Qed.

Lemma s_push_back_cap dp v (d : deque T) : match s_push_back dp v d with (d', _, _) => cap d' = cap d end.
Proof.
  unfold s_push_back; destruct d as [[|k] l]; cbn [cap items]; auto.
  destruct (_ <? _); auto. destruct l; auto. destruct (dp t); auto.
Qed.

Lemma s_push_front_cap dp v (d : deque T) : match s_push_front dp v d with (d', _, _) => cap d' = cap d end.
Proof.
  unfold s_push_front; destruct d as [[|k] l]; cbn [cap items]; auto.
  destruct (_ <? _); auto. destruct (rev l); auto. destruct (dp t); auto.
Qed.

Lemma s_extend_cap dp xs (d : deque T) : match s_extend dp xs d with (d', _, _) => cap d' = cap d end.
Proof.
  revert d; induction xs as [|x xs IH]; intros d; cbn [s_extend]; auto.
  pose proof (s_push_back_cap dp x d) as H.
  destruct (s_push_back dp x d) as [[d1 dr] o]. destruct o; auto.
  specialize (IH d1). destruct (s_extend dp xs d1) as [[d2 dr2] o2]. congruence.
Qed.

Lemma spec_step_cap dp o (d : deque T) : (forall k, o <> OResize k) ->
  cap (fst (fst (spec_step dp o d))) = cap d.
Proof.
  intros Hne; destruct o; cbn [spec_step]; unfold answer, with_unit, s_clear; auto.
  - pose proof (s_push_back_cap dp v d); destruct (s_push_back dp v d) as [[? ?] ?]; auto.
  - pose proof (s_push_front_cap dp v d); destruct (s_push_front dp v d) as [[? ?] ?]; auto.
  - destruct (rev (items d)); auto.
  - destruct (items d); auto.
  - destruct (drop_each dp (rev (items d))) as [[? ?] ?]; auto.
  - now destruct (Hne c).
  - destruct (nth_error _ _); auto.
  - destruct (nth_error _ _); auto.
  - destruct (items d); auto.
  - destruct (rev (items d)); auto.
  - destruct (nth_error (items d) a), (nth_error (items d) b); auto.
  - pose proof (s_extend_cap dp xs d); destruct (s_extend dp xs d) as [[? ?] ?]; auto.
Qed.

Lemma capacity_stable dp o c k : reachable E c -> op_ok E o -> (forall q, o <> OResize q) ->
  capacity E c = Ret k -> capacity E (fst (fst (cb_step E dp o c))) = Ret k.
Proof.
  intros Hr Ho Hne Hk. destruct (reachable_matches Hr) as [d Hm].
  pose proof (step_ok dp HE o Hm Ho) as Hs.
  pose proof (spec_step_cap dp d Hne) as Hc.
  destruct (spec_step dp o d) as [[d' dr] r]. cbn in Hc.
  destruct Hs as (c' & -> & Hm'). cbn.
  destruct (matches_shows Hm), (matches_shows Hm'). congruence.
Qed.

(** *** pushing sequences; no destructor panics *)
Definition nopanic : T -> bool := fun _ => false.

Lemma lastn_all2 {A} n (l : list A) : length l <= n -> lastn n l = l.
Proof. intros H; unfold lastn. now replace (length l - n) with 0 by lia. Qed.

Lemma lastn_length {A} n (l : list A) : length (lastn n l) = Nat.min n (length l).
Proof. unfold lastn; rewrite skipn_length; lia. Qed.

Lemma skipn_app_le {A} n (l r : list A) : n <= length l -> skipn n (l ++ r) = skipn n l ++ r.
Proof. intros H; rewrite skipn_app. now replace (n - length l) with 0 by lia. Qed.

Lemma firstn_S_nth {A} n (l : list A) x : nth_error l n = Some x -> firstn (S n) l = firstn n l ++ [x].
Proof. revert l; induction n; intros [|y l] H; try discriminate; cbn in *; [congruence|]. f_equal; auto. Qed.

Lemma skipn_nth {A} n (l : list A) x : nth_error l n = Some x -> skipn n l = x :: skipn (S n) l.
Proof. revert l; induction n; intros [|y l] H; try discriminate; cbn in *; [congruence|auto]. Qed.

(** one push on a buffer holding the newest elements of [h] *)
Lemma s_push_back_window k h v :
  s_push_back nopanic v (Deque k (lastn k h)) =
  (Deque k (lastn k (h ++ [v])), skipn (length h - k) (firstn (S (length h) - k) (h ++ [v])), Ret tt).
Proof.
  unfold s_push_back; cbn [cap items nopanic].
  destruct k as [|k].
  - unfold lastn. rewrite !Nat.sub_0_r, app_length. cbn [length].
    replace (length h + 1) with (length (h ++ [v])) by (rewrite app_length; simpl; lia).
    rewrite !skipn_all. replace (S (length h)) with (length (h ++ [v])) by (rewrite app_length; simpl; lia).
    rewrite firstn_all, skipn_app, skipn_all, Nat.sub_diag. reflexivity.
  - rewrite lastn_length. destruct (Nat.ltb_spec (Nat.min (S k) (length h)) (S k)) as [H|H].
    + assert (length h < S k) by lia.
      rewrite !lastn_all2 by (rewrite ?app_length; simpl; lia).
      replace (S (length h) - S k) with 0 by lia. now rewrite firstn_O, skipn_nil.
    + assert (Hk : S k <= length h) by lia.
      unfold lastn at 1.
      destruct (nth_error h (length h - S k)) as [x|] eqn:Hx; [|apply nth_error_None in Hx; lia].
      rewrite (skipn_nth _ _ Hx). cbn [nopanic].
      unfold lastn. rewrite app_length; cbn [length].
      rewrite skipn_app_le by lia.
      replace (length h + 1 - S k) with (S (length h - S k)) by lia.
      replace (S (length h) - S k) with (S (length h - S k)) by lia.
      rewrite firstn_app. replace (S (length h - S k) - length h) with 0 by lia. rewrite firstn_O, app_nil_r.
      rewrite (firstn_S_nth _ _ Hx), skipn_app, firstn_length.
      replace (length h - S k - Nat.min (length h - S k) (length h)) with 0 by lia.
      rewrite (@skipn_all2 T (length h - S k) (firstn (length h - S k) h)) by (rewrite firstn_length; lia). reflexivity.
Qed.

Lemma s_push_front_window k h v :
  s_push_front nopanic v (Deque k (rev (lastn k h))) =
  (Deque k (rev (lastn k (h ++ [v]))), skipn (length h - k) (firstn (S (length h) - k) (h ++ [v])), Ret tt).
Proof.
  unfold s_push_front; cbn [cap items nopanic].
  destruct k as [|k].
  - unfold lastn. rewrite !Nat.sub_0_r, app_length. cbn [length].
    replace (length h + 1) with (length (h ++ [v])) by (rewrite app_length; simpl; lia).
    rewrite !skipn_all. replace (S (length h)) with (length (h ++ [v])) by (rewrite app_length; simpl; lia).
    rewrite firstn_all, skipn_app, skipn_all, Nat.sub_diag. reflexivity.
  - rewrite rev_length, lastn_length, rev_involutive. destruct (Nat.ltb_spec (Nat.min (S k) (length h)) (S k)) as [H|H].
    + assert (length h < S k) by lia.
      rewrite !lastn_all2 by (rewrite ?app_length; simpl; lia).
      replace (S (length h) - S k) with 0 by lia. rewrite firstn_O, skipn_nil, rev_app_distr; reflexivity.
    + assert (Hk : S k <= length h) by lia.
      unfold lastn. rewrite app_length; cbn [length].
      destruct (nth_error h (length h - S k)) as [x|] eqn:Hx; [|apply nth_error_None in Hx; lia].
      rewrite (skipn_nth _ _ Hx). cbn [nopanic].
      replace (length h + 1 - S k) with (S (length h - S k)) by lia.
      rewrite skipn_app_le by lia. rewrite rev_app_distr. cbn [rev app].
      replace (S (length h) - S k) with (S (length h - S k)) by lia.
      rewrite firstn_app. replace (S (length h - S k) - length h) with 0 by lia. rewrite firstn_O, app_nil_r.
      rewrite (firstn_S_nth _ _ Hx), skipn_app, firstn_length.
      replace (length h - S k - Nat.min (length h - S k) (length h)) with 0 by lia.
      rewrite (@skipn_all2 T (length h - S k) (firstn (length h - S k) h)) by (rewrite firstn_length; lia). reflexivity.
Qed.

Lemma firstn_skipn_glue {A} a b (l : list A) : a <= b ->
  firstn a l ++ skipn a (firstn b l) = firstn b l.
Proof.
  intros H. rewrite <- (firstn_skipn a (firstn b l)) at 2. rewrite firstn_firstn, Nat.min_l by lia. reflexivity.
Qed.

Lemma s_pushes_back k h xs :
  let '(d, tr) := spec_run nopanic (map (@OPushBack T) xs) (Deque k (lastn k h)) in
  d = Deque k (lastn k (h ++ xs)) /\
  firstn (length h - k) (h ++ xs) ++ dropped tr = firstn (length (h ++ xs) - k) (h ++ xs) /\
  Forall (fun p => snd p = Ret RUnit) tr.
Proof.
  unfold spec_run, dropped. revert h; induction xs as [|x xs IH]; intros h; cbn [map run].
  - rewrite app_nil_r. repeat split; auto. cbn. now rewrite app_nil_r.
  - cbn [spec_step]. rewrite s_push_back_window. cbn [with_unit omap obind].
    specialize (IH (h ++ [x])).
    destruct (run (spec_step nopanic) (map (@OPushBack T) xs) (Deque k (lastn k (h ++ [x])))) as [d tr].
    rewrite <- app_assoc in IH; cbn [app] in IH. destruct IH as (-> & IH & Ht).
    repeat split; auto. cbn [flat_map fst]. rewrite <- IH.
    rewrite !app_length; cbn [length]. rewrite app_assoc. f_equal.
    replace (length h + 1 - k) with (S (length h) - k) by lia.
    rewrite <- (@firstn_skipn_glue T (length h - k) (S (length h) - k) (h ++ x :: xs)) by lia.
    do 2 f_equal. replace (h ++ x :: xs) with ((h ++ [x]) ++ xs) by now rewrite <- app_assoc.
    rewrite (@firstn_app _ _ (h ++ [x])). rewrite app_length; cbn [length].
    replace (S (length h) - k - (length h + 1)) with 0 by lia. now rewrite firstn_O, app_nil_r.
Qed.

Lemma s_pushes_front k h xs :
  let '(d, tr) := spec_run nopanic (map (@OPushFront T) xs) (Deque k (rev (lastn k h))) in
  d = Deque k (rev (lastn k (h ++ xs))) /\
  firstn (length h - k) (h ++ xs) ++ dropped tr = firstn (length (h ++ xs) - k) (h ++ xs) /\
  Forall (fun p => snd p = Ret RUnit) tr.
Proof.
  unfold spec_run, dropped. revert h; induction xs as [|x xs IH]; intros h; cbn [map run].
  - rewrite app_nil_r. repeat split; auto. cbn. now rewrite app_nil_r.
  - cbn [spec_step]. rewrite s_push_front_window. cbn [with_unit omap obind].
    specialize (IH (h ++ [x])).
    destruct (run (spec_step nopanic) (map (@OPushFront T) xs) (Deque k (rev (lastn k (h ++ [x]))))) as [d tr].
    rewrite <- app_assoc in IH; cbn [app] in IH. destruct IH as (-> & IH & Ht).
    repeat split; auto. cbn [flat_map fst]. rewrite <- IH.
    rewrite !app_length; cbn [length]. rewrite app_assoc. f_equal.
    replace (length h + 1 - k) with (S (length h) - k) by lia.
    rewrite <- (@firstn_skipn_glue T (length h - k) (S (length h) - k) (h ++ x :: xs)) by lia.
    do 2 f_equal. replace (h ++ x :: xs) with ((h ++ [x]) ++ xs) by now rewrite <- app_assoc.
    rewrite (@firstn_app _ _ (h ++ [x])). rewrite app_length; cbn [length].
    replace (S (length h) - k - (length h + 1)) with 0 by lia. now rewrite firstn_O, app_nil_r.
Qed.

Lemma pushes_op_ok (f : T -> op T) xs : (forall v, op_ok E (f v)) -> Forall (op_ok E) (map f xs).
Proof. intros H; induction xs; cbn; auto. Qed.

Lemma push_back_history k xs c : k + 1 <= alloc_max E -> new T E k = Ret c ->
  exists c' tr, cb_run E nopanic (map (@OPushBack T) xs) c = (c', tr) /\
    shows E c' k (lastn k xs) /\ dropped tr = firstn (length xs - k) xs /\
    Forall (fun p => snd p = Ret RUnit) tr.
Proof.
  intros Hk H. pose proof (@r_new T E k c Hk H) as Hr.
  destruct (@new_ok T E HE k Hk) as (c0 & H0 & Hm). rewrite H in H0; inversion H0; subst c0.
  pose proof (s_pushes_back k [] xs) as Hp. cbn [app length firstn] in Hp.
  assert (Ho : Forall (op_ok E) (map (@OPushBack T) xs)) by (apply pushes_op_ok; simpl; auto).
  destruct (@history_ok nopanic _ c k [] Hr (matches_shows Hm) Ho) as [Ht Hs].
  assert (Hln : lastn k (@nil T) = []) by (unfold lastn; apply skipn_nil).
  rewrite Hln in Hp. destruct (spec_run nopanic (map (@OPushBack T) xs) (Deque k [])) as [d tr].
  destruct Hp as (-> & Hd & Hf). destruct (cb_run E nopanic _ c) as [c' tr']. cbn in *; subst.
  exists c', tr; auto.
Qed.

Lemma push_front_history k xs c : k + 1 <= alloc_max E -> new T E k = Ret c ->
  exists c' tr, cb_run E nopanic (map (@OPushFront T) xs) c = (c', tr) /\
    shows E c' k (rev (lastn k xs)) /\ dropped tr = firstn (length xs - k) xs /\
    Forall (fun p => snd p = Ret RUnit) tr.
Proof.
  intros Hk H. pose proof (@r_new T E k c Hk H) as Hr.
  destruct (@new_ok T E HE k Hk) as (c0 & H0 & Hm). rewrite H in H0; inversion H0; subst c0.
  pose proof (s_pushes_front k [] xs) as Hp. cbn [app length firstn] in Hp.
  assert (Ho : Forall (op_ok E) (map (@OPushFront T) xs)) by (apply pushes_op_ok; simpl; auto).
  destruct (@history_ok nopanic _ c k [] Hr (matches_shows Hm) Ho) as [Ht Hs].
  assert (Hln : lastn k (@nil T) = []) by (unfold lastn; apply skipn_nil).
  rewrite Hln in Hp. cbn [rev] in Hp. destruct (spec_run nopanic (map (@OPushFront T) xs) (Deque k [])) as [d tr].
  destruct Hp as (-> & Hd & Hf). destruct (cb_run E nopanic _ c) as [c' tr']. cbn in *; subst.
  exists c', tr; auto.
Qed.

(** *** extend and append, no destructor panics *)
Lemma s_extend_window k h xs :
  s_extend nopanic xs (Deque k (lastn k h)) =
  (Deque k (lastn k (h ++ xs)), skipn (length h - k) (firstn (length (h ++ xs) - k) (h ++ xs)), Ret tt).
Proof.
  revert h; induction xs as [|x xs IH]; intros h; cbn [s_extend].
  - rewrite app_nil_r. rewrite skipn_all2; auto. rewrite firstn_length; lia.
  - rewrite s_push_back_window, IH. rewrite <- app_assoc; cbn [app]. f_equal. f_equal.
    rewrite !app_length; cbn [length].
    set (L := h ++ x :: xs).
    assert (HL : firstn (S (length h) - k) (h ++ [x]) = firstn (S (length h) - k) L).
    { unfold L. replace (h ++ x :: xs) with ((h ++ [x]) ++ xs) by now rewrite <- app_assoc.
      rewrite (@firstn_app _ _ (h ++ [x])), app_length; cbn [length].
      replace (S (length h) - k - (length h + 1)) with 0 by lia. now rewrite firstn_O, app_nil_r. }
    rewrite HL. replace (length h + 1 - k) with (S (length h) - k) by lia.
    replace (length h + 1 + length xs - k) with (length h + S (length xs) - k) by lia.
    set (a := length h - k). set (b := S (length h) - k). set (e := length h + S (length xs) - k).
    assert (Hab : a <= b) by (unfold a, b; lia). assert (Hbe : b <= e) by (unfold b, e; lia).
    assert (HlL : length L = length h + S (length xs)) by (unfold L; rewrite app_length; reflexivity).
    transitivity (skipn a (firstn b L ++ skipn b (firstn e L))); [|now rewrite (@firstn_skipn_glue T b e L Hbe)].
    rewrite (@skipn_app T a), firstn_length. replace (a - Nat.min b (length L)) with 0 by (unfold a, b in *; lia). reflexivity.
Qed.

Lemma extend_api xs c k l : reachable E c -> shows E c k l ->
  exists c', extend E nopanic xs c = (c', firstn (length (l ++ xs) - k) (l ++ xs), Ret tt) /\
    shows E c' k (lastn k (l ++ xs)).
Proof.
  intros Hr Hs. pose proof (shows_matches Hr Hs) as Hm.
  pose proof (extend_ok nopanic HE xs Hm) as H.
  destruct (observers_ok Hr Hs) as (Hlen & _).
  rewrite <- (@lastn_all2 T _ _ Hlen) in H. rewrite s_extend_window in H.
  replace (length l - k) with 0 in H by lia. cbn [skipn] in H.
  destruct (sim_shows H) as (c' & H1 & H2). eauto.
Qed.

Lemma s_append_is_extend ys (d : deque T) :
  s_append nopanic ys d =
  match s_extend nopanic ys d with (d', dr, o) => (d', [], dr, o) end.
Proof.
  revert d; induction ys as [|y ys IH]; intros d; cbn [s_append s_extend]; auto.
  destruct (s_push_back nopanic y d) as [[d1 dr] o] eqn:Hp.
  assert (Ho : o = Ret tt).
  { unfold s_push_back, nopanic in Hp. destruct (cap d); [inversion Hp; auto|].
    destruct (_ <? _); [inversion Hp; auto|]. destruct (items d); inversion Hp; auto. }
  subst o. rewrite IH. destruct (s_extend nopanic ys d1) as [[? ?] ?]; auto.
Qed.

Lemma append_api c1 c2 k1 l1 k2 l2 : reachable E c1 -> reachable E c2 ->
  shows E c1 k1 l1 -> shows E c2 k2 l2 ->
  exists c1' c2', append E nopanic (c1, c2) =
     ((c1', c2'), firstn (length (l1 ++ l2) - k1) (l1 ++ l2), Ret tt) /\
    shows E c1' k1 (lastn k1 (l1 ++ l2)) /\ shows E c2' k2 [].
Proof.
  intros Hr1 Hr2 Hs1 Hs2.
  pose proof (shows_matches Hr1 Hs1) as Hm1. pose proof (shows_matches Hr2 Hs2) as Hm2.
  pose proof (append_ok nopanic HE Hm1 Hm2) as H. cbn [items cap] in H.
  destruct (observers_ok Hr1 Hs1) as (Hlen & _).
  rewrite s_append_is_extend in H.
  rewrite <- (@lastn_all2 T _ _ Hlen) in H. rewrite s_extend_window in H.
  replace (length l1 - k1) with 0 in H by lia. cbn [skipn] in H.
  destruct H as (a & b & H & Ha & Hb). exists a, b; split; auto.
  split; [exact (matches_shows Ha) | exact (matches_shows Hb)].
Qed.

Lemma drain_api dp n c k l : reachable E c -> shows E c k l ->
  exists c', drain_take E dp n c = (c', [], Ret (firstn n l)) /\ shows E c' k (skipn n l).
Proof.
  intros Hr Hs. exact (sim_shows (drain_take_ok dp HE n (shows_matches Hr Hs))).
Qed.

Lemma drop_each_nopanic (l : list T) : drop_each nopanic l = ([], l, Ret tt).
Proof. induction l as [|x l IH]; cbn; auto. cbn in IH; now rewrite IH. Qed.

Lemma into_iter_api n c k l : reachable E c -> shows E c k l ->
  exists c', into_iter_take E nopanic n c = (c', rev (skipn n l), Ret (firstn n l)).
Proof.
  intros Hr Hs. pose proof (shows_matches Hr Hs) as Hm.
  destruct (drain_take_ok nopanic HE n Hm) as (c1 & H1 & Hm1); cbn [items cap] in *.
  pose proof (clear_ok nopanic Hm1) as H2. unfold s_clear in H2; cbn [items cap] in H2.
  rewrite drop_each_nopanic in H2. destruct H2 as (c2 & H2 & _).
  exists c2. unfold into_iter_take. rewrite (bind_Ret_nil _ _ _ H1).
  unfold drop_cb. rewrite (bind_Ret _ _ _ H2). cbn. now rewrite app_nil_r.
Qed.

Lemma resize_api q c k l : reachable E c -> shows E c k l -> q + 1 <= alloc_max E ->
  exists c', resize E nopanic q c = (c', firstn (length l - q) l, Ret tt) /\ shows E c' q (lastn q l).
Proof.
  intros Hr Hs Hq. pose proof (resize_ok nopanic HE q (shows_matches Hr Hs) Hq) as H.
  unfold s_resize in H; cbn [items cap] in H. rewrite drop_each_nopanic in H. exact (sim_shows H).
Qed.

(** *** linearize leaves one slice *)
Lemma linearize_api c k l : reachable E c -> shows E c k l ->
  exists c', linearize E c = (c', [], Ret l) /\ shows E c' k l /\ slices c' = Ret (l, []).
Proof.
  intros Hr Hs. pose proof (shows_matches Hr Hs) as Hm.
  destruct (linearize_ok HE Hm) as (c' & H & Hm' & Hst & _). exists c'; split; auto.
  split; [exact (matches_shows Hm')|].
  destruct Hm' as [R Hn]; cbn [items cap] in *.
  pose proof (rep_end_lt R).
  destruct (rep_straight R) as [_ Hf]; [lia|].
  unfold slices, slice_range. rewrite Hst in *. cbn [Nat.leb andb].
  rewrite (proj2 (Nat.leb_le _ _)) by lia. cbn [obind].
  rewrite Hf, read_slots_Init. reflexivity.
Qed.

(** *** slices *)
Lemma slices_api c k l : reachable E c -> shows E c k l ->
  exists a b, slices c = Ret (a, b) /\ a ++ b = l.
Proof. intros Hr Hs; exact (slices_ok (shows_matches Hr Hs)). Qed.

(** [slices_mut] gives the same two slices, in place *)
Lemma slices_mut_api g c k l : reachable E c -> shows E c k l ->
  (forall a b, length (fst (g a b)) = length a /\ length (snd (g a b)) = length b) ->
  exists a b c', slices c = Ret (a, b) /\ slices_mut_with g c = (c', [], Ret tt) /\
    slices c' = Ret (g a b) /\ shows E c' k (fst (g a b) ++ snd (g a b)).
Proof.
  intros Hr Hs Hg. pose proof (shows_matches Hr Hs) as Hm.
  destruct (@slices_mut_with_ok T E g c _ Hm Hg) as (a & b & Hab & Hsl & c' & H & Hm').
  exists a, b, c'; split; auto. split; auto. split; [|exact (matches_shows Hm')].
  (* the split point depends only on start, end and the storage length *)
  assert (Hse : start c' = start c /\ end_ c' = end_ c).
  { unfold slices_mut_with, bind, gets, modify in H.
    destruct (slices_mut c) as [[[oa x] [ob y]]| | | |]; try discriminate.
    destruct (g x y). inversion H; subst; auto. }
  destruct Hse as [H1 H2]. destruct Hm as [R Hn], Hm' as [R' Hn']; cbn [items cap] in *.
  destruct (@slices_ok T E c' (Deque k (fst (g a b) ++ snd (g a b)))) as (a' & b' & Hs' & Hab'); [split; auto|].
  cbn [items] in Hab'. rewrite Hs'. f_equal.
  assert (Hla : length a' = length a).
  { unfold slices in Hsl, Hs'. rewrite H1, H2, Hn' in Hs'. rewrite Hn in Hsl.
    assert (Hrs : forall (s : list (slot T)) v, read_slots s = Ret v -> length v = length s).
    { clear. induction s as [|[|x] s IH]; intros v H; cbn in H; try discriminate.
      - inversion H; auto.
      - destruct (read_slots s) eqn:Hx; try discriminate. inversion H; cbn; auto. }
    assert (Hsr : forall (s : list (slot T)) u w v, slice_range s u w = Ret v -> length v = w - u).
    { clear. unfold slice_range. intros s u w v H.
      destruct (Nat.leb_spec u w), (Nat.leb_spec w (length s)); try discriminate.
      inversion H. rewrite firstn_length, skipn_length. lia. }
    destruct (start c <=? end_ c).
    - destruct (slice_range (buffer c) (start c) (end_ c)) eqn:X1; try discriminate.
      destruct (slice_range (buffer c') (start c) (end_ c)) eqn:X2; try discriminate.
      apply Hsr in X1, X2. cbn [obind] in *.
      destruct (slice_range (buffer c) 0 0); try discriminate.
      destruct (slice_range (buffer c') 0 0); try discriminate. cbn [obind] in *.
      destruct (read_slots a0) eqn:Y1; try discriminate. destruct (read_slots a1) eqn:Y2; try discriminate.
      apply Hrs in Y1, Y2. cbn [obind] in *.
      destruct (read_slots a2); try discriminate. destruct (read_slots a3); try discriminate.
      inversion Hsl; inversion Hs'; subst. congruence.
    - destruct (slice_range (buffer c) (start c) (S k)) eqn:X1; try discriminate.
      destruct (slice_range (buffer c') (start c) (S k)) eqn:X2; try discriminate.
      apply Hsr in X1, X2. cbn [obind] in *.
      destruct (slice_range (buffer c) 0 (end_ c)); try discriminate.
      destruct (slice_range (buffer c') 0 (end_ c)); try discriminate. cbn [obind] in *.
      destruct (read_slots a0) eqn:Y1; try discriminate. destruct (read_slots a1) eqn:Y2; try discriminate.
      apply Hrs in Y1, Y2. cbn [obind] in *.
      destruct (read_slots a2); try discriminate. destruct (read_slots a3); try discriminate.
      inversion Hsl; inversion Hs'; subst. congruence. }
  destruct (Hg a b) as [Hga _]. destruct (g a b) as [ga gb]; cbn [fst snd] in *.
  assert (Hl2 : length a' = length ga) by congruence.
  f_equal.
  - apply (f_equal (firstn (length a'))) in Hab'. rewrite Hl2 in Hab' at 2.
    rewrite !firstn_app, !Nat.sub_diag, !firstn_all, !firstn_O, !app_nil_r in Hab'. auto.
  - apply (f_equal (skipn (length a'))) in Hab'. rewrite Hl2 in Hab' at 2.
    rewrite !skipn_app, !Nat.sub_diag, !skipn_all in Hab'. auto.
Qed.

(** *** conservation of elements *)
Lemma drop_each_perm dp (l : list T) : match drop_each dp l with (r, dr, _) => l = dr ++ r end.
Proof.
  induction l as [|x l IH]; cbn; auto. destruct (dp x); auto.
  destruct (drop_each dp l) as [[r dr] o]; cbn; congruence.
Qed.

Lemma s_push_back_perm dp v (d : deque T) : length (items d) <= cap d ->
  match s_push_back dp v d with
  | (d', dr, _) => Permutation (items d ++ [v]) (dr ++ items d') /\ length (items d') <= cap d'
  end.
Proof.
  intros Hl; unfold s_push_back; destruct d as [[|k] l]; cbn [cap items] in *.
  - destruct l; [|cbn in Hl; lia]. cbn; auto.
  - destruct (Nat.ltb_spec (length l) (S k)) as [H|H]; cbn [cap items].
    + split; auto. rewrite app_length; cbn; lia.
    + destruct l as [|x l]; [cbn in *; lia|]. destruct (dp x); cbn in *; split; try (rewrite ?app_length; cbn; lia).
      * constructor. rewrite Permutation_app_comm. reflexivity.
      * constructor. reflexivity.
Qed.

Lemma s_push_front_perm dp v (d : deque T) : length (items d) <= cap d ->
  match s_push_front dp v d with
  | (d', dr, _) => Permutation (items d ++ [v]) (dr ++ items d') /\ length (items d') <= cap d'
  end.
Proof.
  intros Hl; unfold s_push_front; destruct d as [[|k] l]; cbn [cap items] in *.
  - destruct l; [|cbn in Hl; lia]. cbn; auto.
  - destruct (Nat.ltb_spec (length l) (S k)) as [H|H]; cbn [cap items].
    + split; [|cbn; lia]. cbn. now rewrite Permutation_app_comm.
    + destruct (rev l) as [|x r] eqn:Hr.
      { assert (Hl0 : length l = 0) by (rewrite <- rev_length, Hr; reflexivity). lia. }
      assert (Hlr : l = rev r ++ [x]) by (rewrite <- (rev_involutive l), Hr; reflexivity).
      assert (Hlen : length l = S (length (rev r))) by (rewrite Hlr, app_length; cbn; lia).
      rewrite Hlr. rewrite <- app_assoc. cbn [app].
      destruct (dp x); cbn [cap items length app]; split; try lia;
        rewrite Permutation_app_comm; cbn; auto.
Qed.

Lemma s_extend_perm dp xs (d : deque T) : length (items d) <= cap d ->
  match s_extend dp xs d with
  | (d', dr, o) => (o <> Abort -> Permutation (items d ++ xs) (dr ++ items d')) /\ length (items d') <= cap d'
  end.
Proof.
  revert d; induction xs as [|x xs IH]; intros d Hl; cbn [s_extend].
  - rewrite app_nil_r; auto.
  - pose proof (s_push_back_perm dp x _ Hl) as Hp.
    pose proof (s_push_back_outcome dp x d) as Ho.
    destruct (s_push_back dp x d) as [[d1 dr] o]. destruct Hp as [Hp Hl1].
    assert (Hx : Permutation (items d ++ x :: xs) ((dr ++ items d1) ++ xs)).
    { rewrite <- Hp, <- app_assoc. reflexivity. }
    destruct Ho as [->|[->| ->]].
    + specialize (IH d1 Hl1). destruct (s_extend dp xs d1) as [[d2 dr2] o2]. destruct IH as [IH ?]. split; auto.
      intros Ho. rewrite Hx, <- !app_assoc. apply Permutation_app_head. auto.
    + split; auto. intros _. rewrite Hx, <- !app_assoc. apply Permutation_app_head. apply Permutation_app_comm.
    + split; auto. congruence.
Qed.

Lemma upd_swap_perm (l : list T) : forall a b x y,
  nth_error l a = Some x -> nth_error l b = Some y -> Permutation l (upd (upd l a y) b x).
Proof.
  assert (H1 : forall (q : list T) i x, nth_error q i = Some x -> forall y, Permutation (y :: q) (x :: upd q i y)).
  { induction q as [|h t IH]; intros [|i] x H y; try discriminate; cbn in *.
    - inversion H; subst. apply perm_swap.
    - rewrite perm_swap, (IH i x H y). apply perm_swap. }
  induction l as [|h t IH]; intros a b x y Ha Hb; [destruct a; discriminate|].
  destruct a as [|a], b as [|b]; cbn in *.
  - inversion Ha; subst; reflexivity.
  - inversion Ha; subst. apply H1; auto.
  - inversion Hb; subst. apply H1; auto.
  - constructor; auto.
Qed.

Lemma spec_step_perm dp o (d d' : deque T) dr r : length (items d) <= cap d -> moves_only o ->
  spec_step dp o d = (d', dr, r) ->
  length (items d') <= cap d' /\
  (r <> Abort -> Permutation (items d ++ taken_in o) (handed_back o r ++ dr ++ items d')).
Proof.
  intros Hl Hmo H.
  assert (Hsame : d' = d -> dr = [] -> handed_back o r = [] -> taken_in o = [] ->
    length (items d') <= cap d' /\
    (r <> Abort -> Permutation (items d ++ taken_in o) (handed_back o r ++ dr ++ items d'))).
  { intros -> -> -> ->. split; auto. intros _. rewrite app_nil_r; reflexivity. }
  destruct o; cbn [spec_step moves_only taken_in] in *; unfold answer, with_unit in H.
  - pose proof (s_push_back_perm dp v _ Hl) as Hp. destruct (s_push_back dp v d) as [[d1 dr1] o1].
    inversion H; subst. destruct Hp; split; auto.
  - pose proof (s_push_front_perm dp v _ Hl) as Hp. destruct (s_push_front dp v d) as [[d1 dr1] o1].
    inversion H; subst. destruct Hp; split; auto.
  - destruct (rev (items d)) as [|x t] eqn:Hr; inversion H; subst.
    + apply Hsame; auto.
    + assert (Hlr : items d = rev t ++ [x]) by (rewrite <- (rev_involutive (items d)), Hr; reflexivity).
      cbn [handed_back cap items app]. rewrite Hlr in *. rewrite app_length in Hl; cbn in Hl. split; [lia|].
      intros _. rewrite app_nil_r. apply Permutation_app_comm.
  - destruct (items d) as [|x t] eqn:Hr; inversion H; subst.
    + apply Hsame; auto.
    + cbn [handed_back cap items app] in *. cbn in Hl. split; [lia|].
      intros _. rewrite app_nil_r. reflexivity.
  - unfold s_clear in H. pose proof (drop_each_perm dp (rev (items d))) as Hd.
    destruct (drop_each dp (rev (items d))) as [[r1 dr1] o1]. inversion H; subst.
    cbn [handed_back cap items app].
    assert (Hi : items d = rev (dr ++ r1)) by (rewrite <- Hd, rev_involutive; reflexivity).
    rewrite Hi in *. rewrite rev_length, app_length in Hl. rewrite rev_length. split; [lia|]. intros _.
    rewrite app_nil_r, rev_app_distr, Permutation_app_comm.
    apply Permutation_app_tail, Permutation_sym, Permutation_rev.
  - unfold s_resize in H.
    set (k := length (items d) - c) in *.
    pose proof (drop_each_perm dp (firstn k (items d))) as Hd.
    pose proof (drop_each_Ret dp (firstn k (items d))) as Hd2.
    destruct (drop_each dp (firstn k (items d))) as [[r1 dr1] o1].
    assert (Hsp : items d = (dr1 ++ r1) ++ skipn k (items d)) by (rewrite <- Hd, firstn_skipn; reflexivity).
    destruct o1 as [[]| | | |]; try contradiction; inversion H; subst; cbn [handed_back cap items app].
    + destruct Hd2 as [-> ->]. split; [rewrite skipn_length; lia|].
      intros _. rewrite app_nil_r, firstn_skipn. reflexivity.
    + split.
      * apply (f_equal (@length T)) in Hsp. rewrite !app_length in *. lia.
      * intros _. rewrite app_nil_r. rewrite Hsp at 1. now rewrite <- app_assoc.
  - inversion H; subst; apply Hsame; auto.
  - inversion H; subst; apply Hsame; auto.
  - inversion H; subst; apply Hsame; auto.
  - inversion H; subst; apply Hsame; auto.
  - destruct (nth_error _ _); inversion H; subst; apply Hsame; auto.
  - contradiction.
  - inversion H; subst; apply Hsame; auto.
  - contradiction.
  - inversion H; subst; apply Hsame; auto.
  - contradiction.
  - inversion H; subst; apply Hsame; auto.
  - inversion H; subst. cbn [handed_back cap items app]. rewrite app_nil_r.
    specialize (Hmo (items d)). rewrite (Permutation_length Hmo). split; auto.
    intros _; symmetry; auto.
  - inversion H; subst; apply Hsame; auto.
  - inversion H; subst. cbn [handed_back cap items app]. rewrite app_nil_r.
    specialize (Hmo (items d)). rewrite (Permutation_length Hmo). split; auto.
    intros _; symmetry; auto.
  - destruct (nth_error (items d) a) as [x|] eqn:Hx; [|inversion H; subst; apply Hsame; auto].
    destruct (nth_error (items d) b) as [y|] eqn:Hy; [|inversion H; subst; apply Hsame; auto].
    inversion H; subst. cbn [handed_back cap items app]. rewrite app_nil_r.
    assert (Ha : a < length (items d)) by (apply nth_error_Some; congruence).
    assert (Hb : b < length (items d)) by (apply nth_error_Some; congruence).
    rewrite <- (@upd_replace T (items d) a y) by auto. rewrite <- upd_replace by (rewrite length_upd; auto).
    rewrite !length_upd. split; auto. intros _. apply upd_swap_perm; auto.
  - inversion H; subst. cbn [handed_back cap items app]. rewrite app_nil_r, rev_length. split; auto.
    intros _. apply Permutation_rev.
  - pose proof (s_extend_perm dp xs _ Hl) as Hp. destruct (s_extend dp xs d) as [[d1 dr1] o1].
    inversion H; subst. destruct Hp as [Hp ?]; split; auto.
    intros Ho. cbn [handed_back app]. apply Hp. intros ->. apply Ho. reflexivity.
  - inversion H; subst. cbn [handed_back cap items app]. rewrite app_nil_r, skipn_length. split; [lia|].
    intros _. now rewrite firstn_skipn.
Qed.

Lemma spec_run_perm dp ops (d d' : deque T) tr : length (items d) <= cap d -> Forall (@moves_only T) ops ->
  spec_run dp ops d = (d', tr) -> Forall (fun p => snd p <> Abort) tr ->
  Permutation (items d ++ received ops tr) (returned ops tr ++ dropped tr ++ items d').
Proof.
  unfold spec_run, received, returned, dropped.
  revert d tr; induction ops as [|o ops IH]; intros d tr Hl Hmo H Hna; cbn [run] in H.
  - inversion H; subst; cbn. rewrite app_nil_r; reflexivity.
  - inversion Hmo as [|? ? Ho Hos]; subst.
    destruct (spec_step dp o d) as [[d1 dr] r] eqn:Hs.
    destruct (spec_step_perm dp o _ Hl Ho Hs) as [Hl1 Hp].
    assert (Hgo : forall tr1, run (spec_step dp) ops d1 = (d', tr1) -> r <> Abort -> tr = (dr, r) :: tr1 ->
      Permutation (items d ++ flat_map (@taken_in T) (firstn (length tr) (o :: ops)))
        (flat_map (fun p => handed_back (fst p) (snd (snd p))) (combine (o :: ops) tr) ++
         flat_map fst tr ++ items d')).
    { intros tr1 Hr1 Hr ->. inversion Hna; subst.
      specialize (IH d1 tr1 Hl1 Hos Hr1 H3). specialize (Hp Hr).
      cbn [length firstn flat_map combine fst snd].
      rewrite (app_assoc (items d)), Hp.
      rewrite <- !app_assoc. apply Permutation_app_head.
      rewrite (Permutation_app_comm dr), <- app_assoc.
      rewrite (app_assoc (items d1)). rewrite IH.
      rewrite (Permutation_app_comm dr (flat_map fst tr1 ++ items d')).
      rewrite <- !app_assoc. reflexivity. }
    destruct r.
    + destruct (run (spec_step dp) ops d1) as [d2 tr2]; inversion H; subst.
      apply (Hgo tr2); auto; discriminate.
    + destruct (run (spec_step dp) ops d1) as [d2 tr2]; inversion H; subst.
      apply (Hgo tr2); auto; discriminate.
    + inversion H; subst. inversion Hna; cbn in *; congruence.
    + inversion H; subst. specialize (Hp ltac:(discriminate)).
      cbn [length firstn flat_map combine fst snd]. rewrite !app_nil_r. destruct ops; cbn; rewrite ?app_nil_r; auto.
    + inversion H; subst. specialize (Hp ltac:(discriminate)).
      cbn [length firstn flat_map combine fst snd]. rewrite !app_nil_r. destruct ops; cbn; rewrite ?app_nil_r; auto.
Qed.

Lemma conservation dp ops c k l : reachable E c -> shows E c k l ->
  Forall (op_ok E) ops -> Forall (@moves_only T) ops ->
  Forall (fun p => snd p <> Abort) (snd (cb_run E dp ops c)) ->
  exists k' l', shows E (fst (cb_run E dp ops c)) k' l' /\
    Permutation (l ++ received ops (snd (cb_run E dp ops c)))
      (returned ops (snd (cb_run E dp ops c)) ++ dropped (snd (cb_run E dp ops c)) ++ l').
Proof.
  intros Hr Hs Ho Hmo Hna. destruct (history_ok dp Hr Hs Ho) as [Ht Hs'].
  destruct (observers_ok Hr Hs) as (Hlen & _).
  do 2 eexists; split; [exact Hs'|]. rewrite Ht in *.
  apply spec_run_perm with (dp := dp) (d := Deque k l); auto.
  now destruct (spec_run dp ops (Deque k l)).
Qed.

(** dropping the buffer itself *)
Lemma drop_each_exact dp (l : list T) : match drop_each dp l with
  | (r, dr, Ret _) => r = [] /\ existsb dp dr = false
  | (r, dr, Panic) => exists a x, dr = a ++ [x] /\ dp x = true /\ existsb dp a = false
  | _ => False
  end.
Proof.
  induction l as [|x l IH]; cbn; auto. destruct (dp x) eqn:Hx; [exists [], x; auto|].
  destruct (drop_each dp l) as [[r dr] [| | | |]]; auto.
  - cbn. rewrite Hx. exact IH.
  - destruct IH as (a & z & -> & Hz & Ha). exists (x :: a), z. cbn. rewrite Hx. auto.
Qed.

Lemma drop_api dp c k l : reachable E c -> shows E c k l ->
  exists c' dr o l', drop_cb E dp c = (c', dr, o) /\ shows E c' k l' /\ l = l' ++ rev dr /\
    (o = Ret tt /\ l' = [] /\ existsb dp dr = false \/
     o = Panic /\ exists a x, dr = a ++ [x] /\ dp x = true /\ existsb dp a = false).
Proof.
  intros Hr Hs. pose proof (clear_ok dp (shows_matches Hr Hs)) as H.
  unfold s_clear in H; cbn [items cap] in H.
  pose proof (drop_each_perm dp (rev l)) as Hp.
  pose proof (drop_each_exact dp (rev l)) as Hd.
  destruct (drop_each dp (rev l)) as [[r dr] o].
  destruct (sim_shows H) as (c' & H1 & H2); cbn [items cap] in *.
  exists c', dr, o, (rev r). split; auto. split; auto. split.
  - rewrite <- rev_app_distr, <- Hp, rev_involutive; auto.
  - destruct o as [[]| | | |]; try contradiction; auto.
    left; split; auto. destruct Hd as [-> Hd]; auto.
Qed.

(** *** how calls can end *)
Lemma s_push_back_ends dp v (d : deque T) : match s_push_back dp v d with
  | (_, dr, Ret _) => True
  | (_, dr, Panic) => exists x, In x dr /\ dp x = true
  | (_, dr, Abort) => exists x y, In x dr /\ In y dr /\ dp x = true /\ dp y = true
  | _ => False end.
Proof.
  unfold s_push_back, unwind. destruct (cap d).
  - destruct (dp v) eqn:Hv; auto. exists v; cbn; auto.
  - destruct (_ <? _); auto. destruct (items d) as [|x t]; auto.
    destruct (dp x) eqn:Hx; auto. cbn. rewrite orb_false_r. destruct (dp v) eqn:Hv.
    + exists x, v; cbn; auto.
    + exists x; cbn; auto.
Qed.

Lemma s_push_front_ends dp v (d : deque T) : match s_push_front dp v d with
  | (_, dr, Ret _) => True
  | (_, dr, Panic) => exists x, In x dr /\ dp x = true
  | (_, dr, Abort) => exists x y, In x dr /\ In y dr /\ dp x = true /\ dp y = true
  | _ => False end.
Proof.
  unfold s_push_front, unwind. destruct (cap d).
  - destruct (dp v) eqn:Hv; auto. exists v; cbn; auto.
  - destruct (_ <? _); auto. destruct (rev (items d)) as [|x t]; auto.
    destruct (dp x) eqn:Hx; auto. cbn. rewrite orb_false_r. destruct (dp v) eqn:Hv.
    + exists x, v; cbn; auto.
    + exists x; cbn; auto.
Qed.

Lemma s_extend_ends dp xs (d : deque T) : match s_extend dp xs d with
  | (_, dr, Ret _) => True
  | (_, dr, Panic) => exists x, In x dr /\ dp x = true
  | (_, dr, Abort) => exists x y, In x dr /\ In y dr /\ dp x = true /\ dp y = true
  | _ => False end.
Proof.
  revert d; induction xs as [|x xs IH]; intros d; cbn [s_extend]; auto.
  pose proof (s_push_back_ends dp x d) as H.
  destruct (s_push_back dp x d) as [[d1 dr] o]. destruct o as [[]| | | |]; auto.
  - specialize (IH d1). destruct (s_extend dp xs d1) as [[d2 dr2] [| | | |]]; auto.
    + destruct IH as (z & ? & ?); exists z; rewrite in_app_iff; auto.
    + destruct IH as (z & y & ? & ? & ? & ?); exists z, y; rewrite !in_app_iff; auto.
  - unfold unwind. destruct H as (z & ? & ?).
    destruct (existsb dp xs) eqn:He.
    + apply existsb_exists in He. destruct He as (y & ? & ?). exists z, y; rewrite !in_app_iff; auto.
    + exists z; rewrite in_app_iff; auto.
Qed.

Lemma drop_each_ends dp (l : list T) : match drop_each dp l with
  | (_, dr, Ret _) => True
  | (_, dr, Panic) => exists x, In x dr /\ dp x = true
  | _ => False end.
Proof.
  induction l as [|x l IH]; cbn; auto. destruct (dp x) eqn:Hx; [exists x; cbn; auto|].
  destruct (drop_each dp l) as [[r dr] [| | | |]]; auto. destruct IH as (z & ? & ?). exists z; cbn; auto.
Qed.

Lemma spec_step_ends dp o (d d' : deque T) dr r : spec_step dp o d = (d', dr, r) ->
  match r with
  | Ret _ => ~ out_of_range o (items d)
  | Panic => out_of_range o (items d) /\ d' = d /\ dr = [] \/ exists x, In x dr /\ dp x = true
  | Abort => exists x y, In x dr /\ In y dr /\ dp x = true /\ dp y = true
  | UB | NoFuel => False
  end.
Proof.
  intros H; destruct o; cbn [spec_step] in H; unfold answer, with_unit in H.
  - pose proof (s_push_back_ends dp v d) as Hp. destruct (s_push_back dp v d) as [[d1 dr1] [| | | |]]; inversion H; subst; cbn; auto.
  - pose proof (s_push_front_ends dp v d) as Hp. destruct (s_push_front dp v d) as [[d1 dr1] [| | | |]]; inversion H; subst; cbn; auto.
  - destruct (rev (items d)); inversion H; subst; cbn; auto.
  - destruct (items d); inversion H; subst; cbn; auto.
  - unfold s_clear in H. pose proof (drop_each_ends dp (rev (items d))) as Hp.
    destruct (drop_each dp (rev (items d))) as [[d1 dr1] [| | | |]]; inversion H; subst; cbn; auto; contradiction.
  - unfold s_resize in H. pose proof (drop_each_ends dp (firstn (length (items d) - c) (items d))) as Hp.
    destruct (drop_each dp (firstn (length (items d) - c) (items d))) as [[d1 dr1] [| | | |]]; inversion H; subst; cbn; auto; contradiction.
  - inversion H; subst; cbn; auto.
  - inversion H; subst; cbn; auto.
  - inversion H; subst; cbn; auto.
  - inversion H; subst; cbn; auto.
  - destruct (nth_error (items d) i) eqn:Hi; inversion H; subst; cbn.
    + assert (i < length (items d')) by (apply nth_error_Some; congruence). lia.
    + apply nth_error_None in Hi. auto.
  - destruct (nth_error (items d) i) eqn:Hi; inversion H; subst; cbn.
    + assert (i < length (items d)) by (apply nth_error_Some; congruence). lia.
    + apply nth_error_None in Hi. auto.
  - inversion H; subst; cbn; auto.
  - destruct (items d); inversion H; subst; cbn; auto.
  - inversion H; subst; cbn; auto.
  - destruct (rev (items d)); inversion H; subst; cbn; auto.
  - inversion H; subst; cbn; auto.
  - inversion H; subst; cbn; auto.
  - inversion H; subst; cbn; auto.
  - inversion H; subst; cbn; auto.
  - destruct (nth_error (items d) a) eqn:Ha.
    + destruct (nth_error (items d) b) eqn:Hb; inversion H; subst; cbn.
      * assert (a < length (items d)) by (apply nth_error_Some; congruence).
        assert (b < length (items d)) by (apply nth_error_Some; congruence). lia.
      * apply nth_error_None in Hb. auto.
    + apply nth_error_None in Ha. inversion H; subst; cbn. auto.
  - inversion H; subst; cbn; auto.
  - pose proof (s_extend_ends dp xs d) as Hp. destruct (s_extend dp xs d) as [[d1 dr1] [| | | |]]; inversion H; subst; cbn; auto.
  - inversion H; subst; cbn; auto.
Qed.

Lemma step_ends dp o c k l c' dr r : reachable E c -> shows E c k l -> op_ok E o ->
  cb_step E dp o c = (c', dr, r) ->
  match r with
  | Ret _ => ~ out_of_range o l
  | Panic => out_of_range o l /\ shows E c' k l /\ dr = [] \/ exists x, In x dr /\ dp x = true
  | Abort => exists x y, In x dr /\ In y dr /\ dp x = true /\ dp y = true
  | UB | NoFuel => False
  end.
Proof.
  intros Hr Hs Ho H. pose proof (step_ok dp HE o (shows_matches Hr Hs) Ho) as Hm.
  pose proof (spec_step_ends dp o (Deque k l)) as He.
  destruct (spec_step dp o (Deque k l)) as [[d1 dr1] r1].
  destruct Hm as (c1 & Hc & Hm). rewrite H in Hc; inversion Hc; subst. specialize (He _ _ _ eq_refl).
  destruct r1; auto. destruct He as [(? & -> & ->)|?]; auto.
  left; repeat split; auto; apply (matches_shows Hm).
Qed.

(** *** comparison *)
Lemma iter_eq_spec peq (a b : list T) : iter_eq peq a b = true <-> Forall2 (fun x y => peq x y = true) a b.
Proof.
  split.
  - revert b; induction a as [|x a IH]; intros [|y b] H; cbn in H; try discriminate; auto.
    destruct (peq x y) eqn:He; try discriminate. auto.
  - induction 1; cbn; auto. now rewrite H.
Qed.

Lemma iter_pcmp_spec pc (a b : list T) : match iter_partial_cmp pc a b with
  | Some Eq => Forall2 (fun x y => pc x y = Some Eq) a b
  | Some Lt => lex_before (fun x y => pc x y = Some Eq) (fun x y => pc x y = Some Lt) a b
  | Some Gt => exists p q u v, a = p ++ u /\ b = q ++ v /\ Forall2 (fun x y => pc x y = Some Eq) p q /\
      match u, v with _ :: _, [] => True | x :: _, y :: _ => pc x y = Some Gt | _, _ => False end
  | None => exists p q x y u v, a = p ++ x :: u /\ b = q ++ y :: v /\
      Forall2 (fun x y => pc x y = Some Eq) p q /\ pc x y = None
  end.
Proof.
  revert b; induction a as [|x a IH]; intros [|y b]; cbn.
  - constructor.
  - exists [], [], [], (y :: b); repeat split; auto.
  - exists [], [], (x :: a), []; repeat split; auto.
  - destruct (pc x y) as [[| |]|] eqn:Hp.
    + specialize (IH b). destruct (iter_partial_cmp pc a b) as [[| |]|].
      * constructor; auto.
      * destruct IH as (p & q & u & v & -> & -> & ? & ?). exists (x :: p), (y :: q), u, v; cbn; repeat split; auto.
      * destruct IH as (p & q & u & v & -> & -> & ? & ?). exists (x :: p), (y :: q), u, v; cbn; repeat split; auto.
      * destruct IH as (p & q & x' & y' & u & v & -> & -> & ? & ?). exists (x :: p), (y :: q), x', y', u, v; cbn; repeat split; auto.
    + exists [], [], (x :: a), (y :: b); repeat split; auto.
    + exists [], [], (x :: a), (y :: b); repeat split; auto.
    + exists [], [], x, y, a, b; repeat split; auto.
Qed.

Lemma iter_cmp_pcmp cmp (a b : list T) :
  iter_partial_cmp (fun x y => Some (cmp x y)) a b = Some (iter_cmp cmp a b).
Proof.
  revert b; induction a as [|x a IH]; intros [|y b]; cbn; auto.
  destruct (cmp x y); auto.
Qed.

Section CmpLaws.
Variable cmp : T -> T -> comparison.
Hypothesis cmp_opp : forall x y, cmp y x = CompOpp (cmp x y).
Hypothesis cmp_eq_trans : forall x y z, cmp x y = Eq -> cmp x z = cmp y z.
Hypothesis cmp_lt_trans : forall x y z, cmp x y = Lt -> cmp y z = Lt -> cmp x z = Lt.

Lemma iter_cmp_opp a b : iter_cmp cmp b a = CompOpp (iter_cmp cmp a b).
Proof.
  revert b; induction a as [|x a IH]; intros [|y b]; cbn; auto.
  rewrite cmp_opp. destruct (cmp x y); cbn; auto.
Qed.

Lemma iter_cmp_eq_trans a b e : iter_cmp cmp a b = Eq -> iter_cmp cmp a e = iter_cmp cmp b e.
Proof.
  revert b e; induction a as [|x a IH]; intros [|y b] [|z e] H; cbn in *; try discriminate; auto.
  destruct (cmp x y) eqn:Hxy; try discriminate.
  rewrite (@cmp_eq_trans x y z Hxy). destruct (cmp y z); auto.
Qed.

Lemma cmp_eq_trans_r x y z : cmp x y = Eq -> cmp z x = cmp z y.
Proof. intros H. rewrite (cmp_opp x z), (cmp_opp y z). f_equal. auto. Qed.

Lemma iter_cmp_lt_trans a b e : iter_cmp cmp a b = Lt -> iter_cmp cmp b e = Lt -> iter_cmp cmp a e = Lt.
Proof.
  revert b e; induction a as [|x a IH]; intros [|y b] [|z e] H1 H2; cbn in *; try discriminate; auto.
  destruct (cmp x y) eqn:Hxy; try discriminate.
  - rewrite (@cmp_eq_trans x y z Hxy). destruct (cmp y z); try discriminate; eauto.
  - destruct (cmp y z) eqn:Hyz; try discriminate.
    + rewrite <- (@cmp_eq_trans_r y z x Hyz), Hxy. auto.
    + rewrite (@cmp_lt_trans x y z Hxy Hyz). auto.
Qed.
End CmpLaws.

(** *** storage and frame *)
Definition same_storage (c c' : cb T) : Prop := buffer c' = buffer c.

Lemma step_storage dp o c : reachable E c -> op_ok E o -> (forall q, o <> OResize q) ->
  length (buffer (fst (fst (cb_step E dp o c)))) = length (buffer c).
Proof.
  intros Hr Ho Hne. destruct (reachable_matches Hr) as [d Hm].
  pose proof (step_ok dp HE o Hm Ho) as Hs.
  pose proof (spec_step_cap dp d Hne) as Hc.
  destruct (spec_step dp o d) as [[d' dr] r]. cbn in Hc.
  destruct Hs as (c' & -> & Hm'). cbn. destruct Hm as [_ H1], Hm' as [_ H2]. congruence.
Qed.

End Api.

(** Frame: which slots a call can touch, for arbitrary states. *)
Section Frame.
Variable T : Type.
Variable E : machine.
Variable dp : T -> bool.
Implicit Types c : cb T.

Lemma frame_trans a b c1 c2 c3 : frame a c1 c2 -> frame b c2 c3 -> frame (a ++ b) c1 c3.
Proof. intros H1 H2 i Hi. rewrite in_app_iff in Hi. rewrite H2, H1; auto. Qed.

Definition framed {A} (n : nat) (m : M T (cb T) A) : Prop :=
  forall c, exists s, length s <= n /\ frame s c (fst (fst (m c))).

Lemma framed_bind {A B} n k (m : M T (cb T) A) (f : A -> M T (cb T) B) :
  framed n m -> (forall a, framed k (f a)) -> framed (n + k) (bind m f).
Proof.
  intros Hm Hf c. destruct (Hm c) as (s & Hs & H). unfold bind.
  destruct (m c) as [[c1 d1] o]; cbn in H.
  destruct o as [a| | | |]; cbn; try (exists s; split; [lia|exact H]).
  destruct (Hf a c1) as (s2 & Hs2 & H2). destruct (f a c1) as [[c2 d2] o2]; cbn in *.
  exists (s ++ s2). rewrite app_length. split; [lia|]. eapply frame_trans; eauto.
Qed.

Lemma framed_bind0 {A B} n (m : M T (cb T) A) (f : A -> M T (cb T) B) :
  framed 0 m -> (forall a, framed n (f a)) -> framed n (bind m f).
Proof. intros; apply (@framed_bind _ _ 0 n); auto. Qed.

Lemma framed_le {A} n k (m : M T (cb T) A) : framed n m -> n <= k -> framed k m.
Proof. intros H Hle c; destruct (H c) as (s & ? & ?); exists s; split; auto; lia. Qed.

Lemma framed_pure {A} (m : M T (cb T) A) : (forall c, buffer (fst (fst (m c))) = buffer c) -> framed 0 m.
Proof. intros H c; exists []; split; auto. intros i _. now rewrite H. Qed.

Lemma framed_gets {A} (f : cb T -> outcome A) : framed 0 (gets f).
Proof. apply framed_pure; auto. Qed.
Lemma framed_ret {A} (a : A) : framed 0 (ret a).
Proof. apply framed_pure; auto. Qed.
Lemma framed_drop v : framed 0 (drop_val dp v).
Proof. apply framed_pure; auto. Qed.

Lemma framed_unwinding {A} n v (m : M T (cb T) A) : framed n m -> framed n (unwinding dp v m).
Proof.
  intros H c; destruct (H c) as (s & Hs & Hf); exists s; split; auto.
  unfold unwinding. destruct (m c) as [[c1 d1] [| | | |]]; auto.
Qed.

Lemma framed_incr_end : framed 0 (incr_end E).
Proof.
  unfold incr_end. repeat (apply framed_bind0; [apply framed_gets || (apply framed_pure; reflexivity)|intros]).
  apply framed_pure; intros c. cbn. destruct (_ =? _); auto.
Qed.
Lemma framed_incr_start : framed 0 (incr_start E).
Proof.
  unfold incr_start. repeat (apply framed_bind0; [apply framed_gets || (apply framed_pure; reflexivity)|intros]).
  apply framed_pure; intros c. cbn. destruct (_ =? _); auto.
Qed.
Lemma framed_decr_end : framed 0 (decr_end E).
Proof.
  unfold decr_end. repeat (apply framed_bind0; [apply framed_gets|intros]). apply framed_pure; reflexivity.
Qed.
Lemma framed_decr_start : framed 0 (decr_start E).
Proof.
  unfold decr_start. repeat (apply framed_bind0; [apply framed_gets|intros]). apply framed_pure; reflexivity.
Qed.

Lemma framed_pop_at i : framed 1 (@pop_at T i).
Proof.
  intros c; exists [i]; split; auto. unfold pop_at. intros j Hj.
  destruct (nth_error (buffer c) i) as [[|v]|]; cbn; auto.
  apply nth_error_upd_other. cbn in Hj; auto.
Qed.

Lemma framed_push_at v i : framed 1 (@push_at T v i).
Proof.
  intros c; exists [i]; split; auto. unfold push_at. intros j Hj.
  destruct (i <? _); cbn; auto. apply nth_error_upd_other. cbn in Hj; auto.
Qed.

Lemma framed_pop_back : framed 1 (@pop_back T E).
Proof.
  unfold pop_back. apply framed_bind0; [apply framed_gets|]. intros [|].
  - eapply framed_le; [apply framed_ret|lia].
  - apply framed_bind0; [apply framed_decr_end|intros]. apply framed_bind0; [apply framed_gets|intros].
    apply (@framed_bind _ _ 1 0); [apply framed_pop_at|intros; apply framed_ret].
Qed.

Lemma framed_pop_front : framed 1 (pop_front E dp).
Proof.
  unfold pop_front. apply framed_bind0; [apply framed_gets|]. intros [|].
  - eapply framed_le; [apply framed_ret|lia].
  - apply framed_bind0; [apply framed_gets|intros].
    apply (@framed_bind _ _ 1 0); [apply framed_pop_at|intros].
    apply framed_bind0; [apply framed_unwinding, framed_incr_start|intros; apply framed_ret].
Qed.

Lemma framed_drop_opt o : framed 0 (drop_opt dp o).
Proof. destruct o; [apply framed_drop | apply framed_ret]. Qed.

Lemma framed_evict {A} (m : M T (cb T) (option T)) (f : cb T -> outcome A) (g : A -> bool) (h : cb T -> outcome nat) :
  framed 1 m -> framed 1 (bind (gets f) (fun full => if g full then
      bind (gets h) (fun k => if k =? 0 then ret false
        else bind m (fun x => bind (drop_opt dp x) (fun _ => ret true)))
    else ret true)).
Proof.
  intros Hm. apply framed_bind0; [apply framed_gets|intros a]. destruct (g a).
  - apply framed_bind0; [apply framed_gets|intros k]. destruct (k =? 0).
    + eapply framed_le; [apply framed_ret|lia].
    + apply (@framed_bind _ _ 1 0); [auto|intros x].
      apply framed_bind0; [apply framed_drop_opt|intros; apply framed_ret].
  - eapply framed_le; [apply framed_ret|lia].
Qed.

Lemma framed_push_back v : framed 2 (push_back E dp v).
Proof.
  unfold push_back. apply (@framed_bind _ _ 1 1).
  - apply framed_unwinding. apply (framed_evict (is_full E) (fun b : bool => b) (capacity E) framed_pop_front).
  - intros [|].
    + apply (@framed_bind _ _ 1 0).
      * apply framed_bind0; [apply framed_gets|intros; apply framed_push_at].
      * intros; apply framed_incr_end.
    + eapply framed_le; [apply framed_drop|lia].
Qed.

Lemma framed_push_front v : framed 2 (push_front E dp v).
Proof.
  unfold push_front. apply (@framed_bind _ _ 1 1).
  - apply framed_unwinding. apply (framed_evict (is_full E) (fun b : bool => b) (capacity E) framed_pop_back).
  - intros [|].
    + apply framed_bind0; [apply framed_unwinding, framed_decr_start|intros].
      apply framed_bind0; [apply framed_gets|intros; apply framed_push_at].
    + eapply framed_le; [apply framed_drop|lia].
Qed.

End Frame.
