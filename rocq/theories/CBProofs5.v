(** Lemmas for the second part of the circular buffer model. *)
From Coq Require Import Permutation.
From Verif Require Import Base CBSpec CBSpec2 CBModel CBModel2 CBRun CBProofs CBProofs2 CBProofs3 CBProofs4.
Set Implicit Arguments.

(** ** Traversals *)
Section Walks.
Variable A : Type.
Implicit Types ch : chain A.

Lemma take_last_spec l (x : A) : fst (take_last x l) ++ [snd (take_last x l)] = x :: l.
Proof.
  revert x; induction l as [|y t IH]; intros x; simpl; auto.
  specialize (IH y). destruct (take_last y t) as [r z]; simpl in *. now rewrite IH.
Qed.

Definition all_of ch : list A := chain_a ch ++ chain_b ch.

Lemma chain_next_spec ch : snd (chain_next ch) = hd_error (all_of ch) /\
  all_of (fst (chain_next ch)) = tl (all_of ch).
Proof. destruct ch as [[|x a] [|y b]]; split; reflexivity. Qed.

Lemma hd_rev_snoc (l : list A) x : hd_error (rev (l ++ [x])) = Some x.
Proof. now rewrite rev_app_distr. Qed.

Lemma chain_next_back_spec ch : snd (chain_next_back ch) = hd_error (rev (all_of ch)) /\
  all_of (fst (chain_next_back ch)) = removelast (all_of ch).
Proof.
  destruct ch as [a [|y b]]; unfold chain_next_back, all_of; cbn [chain_a chain_b].
  - destruct a as [|x a]; [split; reflexivity|].
    rewrite app_nil_r. pose proof (take_last_spec a x) as H. destruct (take_last x a) as [r z]; cbn [fst snd] in *.
    rewrite <- H, hd_rev_snoc, removelast_last; cbn [chain_a chain_b]. now rewrite app_nil_r.
  - pose proof (take_last_spec b y) as H. destruct (take_last y b) as [r z]; cbn [fst snd] in *.
    rewrite <- H, app_assoc, hd_rev_snoc, removelast_last; cbn [chain_a chain_b]. auto.
Qed.

Lemma walk_spec calls ch ch' tr : walk (@chain_next A) (@chain_next_back A) calls ch = (ch', tr) ->
  all_of ch = from_front tr ++ all_of ch' ++ rev (from_back tr).
Proof.
  revert ch ch' tr; induction calls as [|s calls IH]; intros ch ch' tr; cbn [walk].
  - intros H; inversion H; subst; simpl. now rewrite app_nil_r.
  - destruct s.
    + pose proof (chain_next_spec ch) as [H1 H2]. destruct (chain_next ch) as [ch1 x]; cbn [fst snd] in *.
      destruct (walk _ _ calls ch1) as [ch2 tr2] eqn:Hw. intros H; inversion H; subst.
      apply IH in Hw. simpl. fold (from_front tr2) (from_back tr2).
      rewrite Hw in H2. destruct (all_of ch) as [|y l]; simpl in *; [|now rewrite H2].
      apply app_eq_nil in H2 as [H3 H4]; apply app_eq_nil in H4 as [H4 H5].
      rewrite H3, H4, H5; reflexivity.
    + pose proof (chain_next_back_spec ch) as [H1 H2]. destruct (chain_next_back ch) as [ch1 x]; cbn [fst snd] in *.
      destruct (walk _ _ calls ch1) as [ch2 tr2] eqn:Hw. intros H; inversion H; subst.
      apply IH in Hw. simpl. fold (from_front tr2) (from_back tr2).
      rewrite Hw in H2. destruct (rev (all_of ch)) as [|y l] eqn:Hr; simpl.
      * apply (f_equal (@rev A)) in Hr; rewrite rev_involutive in Hr; simpl in Hr. rewrite Hr in *; simpl in H2.
        symmetry; congruence.
      * assert (He : all_of ch = rev l ++ [y]) by (rewrite <- (rev_involutive (all_of ch)), Hr; reflexivity).
        rewrite He in H2 |- *. rewrite removelast_last in H2. rewrite <- H2.
        rewrite !app_assoc; auto.
Qed.

Lemma walk_api calls ch ch' tr : walk (@chain_next A) (@chain_next_back A) calls ch = (ch', tr) ->
  exists rest, all_of ch = from_front tr ++ rest ++ rev (from_back tr) /\
    snd (chain_next ch') = hd_error rest /\ snd (chain_next_back ch') = hd_error (rev rest).
Proof.
  intros H; exists (all_of ch'); split; [eapply walk_spec; eauto|].
  split; [apply chain_next_spec | apply chain_next_back_spec].
Qed.
End Walks.

Section Api.
Variable T : Type.
Variable E : machine.
Hypothesis HE : indexable T E.
Implicit Types c : cb T.
Implicit Types l : list T.

Lemma iter_walk calls c k l : reachable E c -> shows E c k l ->
  exists ch ch' tr rest, iter_begin c = Ret ch /\ into_iter_ref c = Ret ch /\
    walk (@chain_next T) (@chain_next_back T) calls ch = (ch', tr) /\
    l = from_front tr ++ rest ++ rev (from_back tr) /\
    snd (chain_next ch') = hd_error rest /\ snd (chain_next_back ch') = hd_error (rev rest).
Proof.
  intros Hr Hs. destruct (slices_api HE Hr Hs) as (a & b & Hsl & Hab).
  destruct (walk (@chain_next T) (@chain_next_back T) calls (Chain a b)) as [ch' tr] eqn:Hw.
  destruct (walk_api _ _ Hw) as (rest & H1 & H2 & H3).
  exists (Chain a b), ch', tr, rest. unfold into_iter_ref, iter_begin. rewrite Hsl; cbn [obind fst snd].
  repeat split; auto. rewrite <- Hab; exact H1.
Qed.

(** ** Mutable iteration *)
Lemma seq_phys_straight n s m : s + m <= n -> seq s m = map (phys n s) (seq 0 m).
Proof.
  intros H. rewrite <- (map_id (seq s m)). rewrite <- (Nat.add_0_r s) at 1.
  assert (G : forall j q, s + q + j <= n -> map (fun x => x) (seq (s + q) j) = map (phys n s) (seq q j)).
  { induction j as [|j IH]; intros q Hq; simpl; auto. f_equal.
    - unfold phys. rewrite (proj2 (Nat.ltb_lt _ _)) by lia; auto.
    - rewrite <- IH by lia. do 2 f_equal; lia. }
  rewrite (G m 0) by lia. reflexivity.
Qed.

Lemma seq_phys_wrapped n s q m : s < n -> q = n - s -> m <= s -> seq 0 m = map (phys n s) (seq q m).
Proof.
  intros Hs -> Hm. rewrite <- (map_id (seq 0 m)).
  assert (G : forall j x, x + j <= m -> map (fun x => x) (seq x j) = map (phys n s) (seq (n - s + x) j)).
  { induction j as [|j IH]; intros x Hx; simpl; auto. f_equal.
    - unfold phys. rewrite (proj2 (Nat.ltb_ge _ _)) by lia; lia.
    - rewrite IH by lia. do 2 f_equal; lia. }
  rewrite (G m 0) by lia. now rewrite Nat.add_0_r.
Qed.

Lemma iter_mut_positions c (d : deque T) : matches E c d ->
  exists ch, iter_mut_begin c = Ret ch /\
    all_of ch = map (phys (length (buffer c)) (start c)) (seq 0 (length (items d))).
Proof.
  intros [R Hn]; unfold iter_mut_begin, slices_mut, slice_range, split_at.
  pose proof (rep_end_lt R) as Hel. pose proof (rep_start R) as Hs. pose proof (rep_len R) as Hl.
  destruct (Nat.leb_spec (start c) (end_ c)) as [H|H].
  - destruct (rep_straight R H) as [Hlen Hf].
    rewrite (proj2 (Nat.leb_le (end_ c) _)) by lia. cbn [obind fst snd].
    rewrite firstn_length, (proj2 (Nat.leb_le (end_ c) _)) by lia. cbn [andb obind Nat.leb Nat.sub firstn].
    assert (Hq : firstn (end_ c - start c) (skipn (start c) (firstn (end_ c) (buffer c)))
               = firstn (end_ c - start c) (skipn (start c) (buffer c))).
    { rewrite skipn_firstn_comm, firstn_firstn. f_equal; lia. }
    rewrite Hq, Hf, read_slots_Init. cbn [obind read_slots].
    eexists; split; [reflexivity|]. unfold all_of; cbn [chain_a chain_b length seq]. rewrite app_nil_r.
    apply seq_phys_straight. lia.
  - destruct (rep_wrapped R H) as (Hlen & Ha & Hb).
    rewrite (proj2 (Nat.leb_le (start c) _)) by lia. cbn [obind fst snd].
    rewrite firstn_length, (proj2 (Nat.leb_le (end_ c) _)) by lia. cbn [andb obind Nat.leb].
    rewrite Nat.sub_0_r; cbn [skipn].
    rewrite firstn_firstn, (Nat.min_l (end_ c) (start c)) by lia.
    rewrite Ha, Hb, !read_slots_Init. cbn [obind].
    eexists; split; [reflexivity|]. unfold all_of; cbn [chain_a chain_b].
    rewrite firstn_length, skipn_length.
    set (n := length (buffer c)) in *. set (m := length (items d)) in *.
    assert (Hnm : m = n - start c + end_ c) by lia.
    replace (Nat.min (n - start c) m) with (n - start c) by lia.
    replace (m - (n - start c)) with (end_ c) by lia.
    rewrite Hnm, seq_app, map_app. f_equal.
    + apply seq_phys_straight; lia.
    + apply seq_phys_wrapped; lia.
Qed.

Lemma nodup_phys n s m : s < n -> m <= n -> NoDup (map (phys n s) (seq 0 m)).
Proof.
  intros Hs Hm. induction m as [|m IH]; [constructor|].
  rewrite seq_S, map_app; simpl. apply NoDup_Add with (a := phys n s m) (l := map (phys n s) (seq 0 m)).
  - rewrite <- (app_nil_r (map (phys n s) (seq 0 m))) at 1. apply Add_app.
  - split; [apply IH; lia|]. rewrite in_map_iff. intros (j & Hj & Hin). apply in_seq in Hin.
    apply phys_inj in Hj; lia.
Qed.

Lemma nth_error_seq m : forall q i, i < m -> nth_error (seq q m) i = Some (q + i).
Proof.
  induction m as [|m IH]; intros q i Hi; [lia|]. destruct i as [|i]; simpl; [f_equal; lia|].
  rewrite IH by lia. f_equal; lia.
Qed.

Lemma nth_positions n s m i : i < m -> nth_error (map (phys n s) (seq 0 m)) i = Some (phys n s i).
Proof. intros Hi. apply (map_nth_error (phys n s)). now rewrite nth_error_seq. Qed.

Lemma replace_len {A} i (x : A) (l : list A) : i < length l -> length (replace i x l) = length l.
Proof.
  intros Hi; unfold replace. rewrite app_length, firstn_length; cbn [length]. rewrite skipn_length; lia.
Qed.

Lemma write_refs_ok ws c (d : deque T) : matches E c d ->
  sim E (write_refs (map (phys (length (buffer c)) (start c)) (seq 0 (length (items d)))) ws c)
    (Deque (cap d) (write_all ws (items d)), [], Ret tt).
Proof.
  revert c d; induction ws as [|[i f] ws IH]; intros c d Hm; cbn [write_refs write_all].
  - exists c; split; auto; destruct d; auto.
  - destruct (nth_error (items d) i) as [x|] eqn:Hx.
    + assert (Hi : i < length (items d)) by (apply nth_error_Some; congruence).
      rewrite nth_positions by auto.
      destruct (modify_slot_phys i f Hm Hx) as (c' & Hc & Hm').
      specialize (IH c' _ Hm'). cbn [cap items] in IH.
      rewrite replace_len in IH by auto.
      assert (Hsame : start c' = start c /\ length (buffer c') = length (buffer c)).
      { unfold modify_slot in Hc. destruct (nth_error (buffer c) _) as [[|v]|]; inversion Hc; subst.
        unfold set_buffer; cbn [start buffer]. now rewrite length_upd. }
      destruct Hsame as [Hs Hb]. rewrite Hs, Hb in IH.
      destruct IH as (c2 & Hw & Hm2). exists c2; split; auto.
      unfold bind. rewrite Hc, Hw. reflexivity.
    + rewrite (proj2 (nth_error_None _ _)).
      * apply IH; auto.
      * rewrite map_length, seq_length. now apply nth_error_None.
Qed.

Lemma iter_mut_api c k l : reachable E c -> shows E c k l ->
  exists ch, iter_mut_begin c = Ret ch /\ into_iter_mut_ref c = Ret ch /\
    length (chain_a ch ++ chain_b ch) = length l /\ NoDup (chain_a ch ++ chain_b ch) /\
    (forall i, i < length l -> exists p, nth_error (chain_a ch ++ chain_b ch) i = Some p /\
       read_slot c p = index E c i) /\
    forall ws, exists c', write_refs (chain_a ch ++ chain_b ch) ws c = (c', [], Ret tt) /\
      shows E c' k (write_all ws l).
Proof.
  intros Hr Hs. pose proof (shows_matches HE Hr Hs) as Hm.
  destruct (iter_mut_positions Hm) as (ch & Hch & Hall). cbn [items] in Hall. unfold all_of in Hall.
  exists ch. rewrite Hall. split; auto. split; auto.
  pose proof Hm as [R Hn]; cbn [items cap] in R. pose proof (rep_start R). pose proof (rep_len R).
  split; [now rewrite map_length, seq_length|].
  split; [apply nodup_phys; lia|]. split.
  - intros i Hi. rewrite nth_positions by auto. eexists; split; [reflexivity|].
    unfold read_slot; rewrite (rep_nth R Hi), (rep_index HE i R). now destruct (nth_error l i).
  - intros ws. exact (sim_shows (write_refs_ok ws Hm)).
Qed.

Lemma iter_mut_walk calls c k l : reachable E c -> shows E c k l ->
  exists ch ch' tr rest, iter_mut_begin c = Ret ch /\
    walk (@chain_next nat) (@chain_next_back nat) calls ch = (ch', tr) /\
    chain_a ch ++ chain_b ch = from_front tr ++ rest ++ rev (from_back tr) /\
    snd (chain_next ch') = hd_error rest /\ snd (chain_next_back ch') = hd_error (rev rest).
Proof.
  intros Hr Hs. destruct (iter_mut_api Hr Hs) as (ch & Hch & _).
  destruct (walk (@chain_next nat) (@chain_next_back nat) calls ch) as [ch' tr] eqn:Hw.
  destruct (walk_api _ _ Hw) as (rest & H1 & H2 & H3).
  exists ch, ch', tr, rest. auto.
Qed.

(** ** Extension from arbitrary iterators *)
Lemma extend_from_ok dp evs c (d : deque T) : matches E c d ->
  sim E (extend_from E dp evs c)
    (s_extend_then dp (snd (before_panic evs)) (fst (before_panic evs)) d).
Proof.
  revert c d; induction evs as [|[v|] evs IH]; intros c d Hm; cbn [extend_from before_panic].
  - exists c; auto.
  - pose proof (push_back_ok dp HE v Hm) as Hp.
    destruct (before_panic evs) as [xs b]; cbn [fst snd s_extend_then].
    destruct (s_push_back dp v d) as [[d1 dr] o]. destruct Hp as (c1 & Hp & Hm1).
    unfold bind; rewrite Hp. destruct o as [[]| | | |]; try (exists c1; auto; fail).
    specialize (IH c1 d1 Hm1). cbn [fst snd] in IH.
    destruct (s_extend_then dp b xs d1) as [[d2 dr2] o2]. destruct IH as (c2 & -> & Hm2).
    exists c2; auto.
  - exists c; auto.
Qed.

Lemma s_extend_then_nopanic b xs (d : deque T) :
  s_extend_then (fun _ => false) b xs d =
  match s_extend (fun _ => false) xs d with (d', dr, o) => (d', dr, if b then Panic else Ret tt) end.
Proof.
  revert d; induction xs as [|x xs IH]; intros d; cbn [s_extend_then s_extend]; auto.
  pose proof (s_push_back_window (cap d) (items d) x) as _.
  assert (Ho : exists d1 dr, s_push_back (fun _ => false) x d = (d1, dr, Ret tt)).
  { unfold s_push_back. destruct (cap d); [eauto|]. destruct (_ <? _); [eauto|].
    destruct (items d); eauto. }
  destruct Ho as (d1 & dr & ->). rewrite IH.
  destruct (s_extend (fun _ => false) xs d1) as [[d2 dr2] o]; auto.
Qed.

Lemma extend_from_api dp evs c k l : reachable E c -> shows E c k l ->
  match s_extend_then dp (snd (before_panic evs)) (fst (before_panic evs)) (Deque k l) with
  | (d, dr, o) => exists c', extend_from E dp evs c = (c', dr, o) /\ shows E c' (cap d) (items d)
  end.
Proof.
  intros Hr Hs. pose proof (extend_from_ok dp evs (shows_matches HE Hr Hs)) as H.
  destruct (s_extend_then dp _ _ _) as [[d dr] o]. destruct H as (c' & H & Hm).
  exists c'; split; auto. exact (matches_shows Hm).
Qed.

Lemma extend_from_quiet evs c k l : reachable E c -> shows E c k l ->
  exists c', extend_from E (fun _ => false) evs c =
     (c', firstn (length (l ++ fst (before_panic evs)) - k) (l ++ fst (before_panic evs)),
      if snd (before_panic evs) then Panic else Ret tt) /\
    shows E c' k (lastn k (l ++ fst (before_panic evs))).
Proof.
  intros Hr Hs. pose proof (extend_from_api (fun _ => false) evs Hr Hs) as H.
  rewrite s_extend_then_nopanic in H.
  destruct (extend_api HE (fst (before_panic evs)) Hr Hs) as (c1 & H1 & Hs1).
  pose proof (extend_ok (fun _ => false) HE (fst (before_panic evs)) (shows_matches HE Hr Hs)) as H2.
  destruct (s_extend (fun _ => false) (fst (before_panic evs)) (Deque k l)) as [[d dr] o].
  destruct H2 as (c2 & H2 & Hm2). unfold nopanic in H1. rewrite H1 in H2; inversion H2; subst.
  destruct H as (c' & H & Hs'). exists c'; split; auto.
  destruct (shows_fun Hs1 (matches_shows Hm2)) as [-> ->]. auto.
Qed.

Lemma before_panic_total {A} (f : A -> T) xs : before_panic (map (fun x => Some (f x)) xs) = (map f xs, false).
Proof. induction xs as [|x xs IH]; simpl; auto. now rewrite IH. Qed.

Lemma before_panic_stops {A} (cl : A -> option T) (a b : list A) x ys :
  map cl a = map Some ys -> cl x = None -> before_panic (map cl (a ++ x :: b)) = (ys, true).
Proof.
  revert ys; induction a as [|y a IH]; intros ys Ha Hx; simpl.
  - rewrite Hx. destruct ys; [auto | discriminate].
  - destruct ys as [|z ys]; [discriminate|]. simpl in Ha; inversion Ha as [[H1 H2]].
    rewrite H1, (IH ys H2 Hx). reflexivity.
Qed.


(** ** Construction from arbitrary iterators *)
Lemma collect_from_spec (evs : list (option T)) acc : length acc <= alloc_max E ->
  collect_from E acc evs =
  let xs := acc ++ fst (before_panic evs) in
  if length xs <=? alloc_max E then (xs, if snd (before_panic evs) then Panic else Ret tt)
  else (firstn (S (alloc_max E)) xs, Panic).
Proof.
  revert acc; induction evs as [|[v|] evs IH]; intros acc Ha; cbn [collect_from before_panic].
  - cbn [fst snd]. rewrite app_nil_r. rewrite (proj2 (Nat.leb_le _ _)) by auto. reflexivity.
  - destruct (Nat.leb_spec (length acc + 1) (alloc_max E)) as [H|H].
    + rewrite IH by (rewrite app_length; simpl; lia).
      destruct (before_panic evs) as [xs b]; cbn [fst snd]. cbv zeta.
      rewrite <- app_assoc; simpl. reflexivity.
    + destruct (before_panic evs) as [xs b]; cbn [fst snd]. cbv zeta.
      rewrite (proj2 (Nat.leb_gt _ _)) by (rewrite app_length; simpl; lia).
      replace (S (alloc_max E)) with (length (acc ++ [v])) by (rewrite app_length; simpl; lia).
      replace (acc ++ v :: xs) with ((acc ++ [v]) ++ xs) by now rewrite <- app_assoc.
      rewrite firstn_app, Nat.sub_diag, firstn_all, firstn_O, app_nil_r. reflexivity.
  - cbn [fst snd]. rewrite app_nil_r. rewrite (proj2 (Nat.leb_le _ _)) by auto. reflexivity.
Qed.

Lemma from_iter_from_ok (evs : list (option T)) xs : before_panic evs = (xs, false) -> length xs + 1 <= alloc_max E ->
  exists c, from_iter_from E evs = ([], Ret c) /\ from_iter E xs = Ret c /\ shows E c (length xs) xs.
Proof.
  intros Hb Hl. destruct (@from_iter_ok T E xs Hl) as (c & Hc & Hm).
  exists c. split; [|split; auto; exact (matches_shows Hm)].
  unfold from_iter_from. rewrite collect_from_spec by (simpl; lia). rewrite Hb; cbn [fst snd app]. cbv zeta.
  rewrite (proj2 (Nat.leb_le _ _)) by lia. unfold from_iter in Hc.
  destruct (vec_push_uninit E (map Init xs) 1) as [b| | | |]; try discriminate. cbn [obind] in Hc.
  now rewrite Hc.
Qed.

Lemma from_iter_from_raises (evs : list (option T)) xs : before_panic evs = (xs, true) -> length xs <= alloc_max E ->
  from_iter_from E evs = (xs, Panic).
Proof.
  intros Hb Hl. unfold from_iter_from. rewrite collect_from_spec by (simpl; lia).
  rewrite Hb; cbn [fst snd app]. cbv zeta. now rewrite (proj2 (Nat.leb_le _ _)) by lia.
Qed.

Lemma from_iter_from_too_long (evs : list (option T)) xs b : before_panic evs = (xs, b) -> alloc_max E < length xs + 1 ->
  from_iter_from E evs = (firstn (S (alloc_max E)) xs, Panic).
Proof.
  intros Hb Hl. unfold from_iter_from. rewrite collect_from_spec by (simpl; lia).
  rewrite Hb; cbn [fst snd app]. cbv zeta.
  destruct (Nat.leb_spec (length xs) (alloc_max E)) as [H|H]; auto.
  assert (He : length xs = alloc_max E) by lia.
  rewrite (@firstn_all2 _ (S (alloc_max E))) by lia. destruct b; auto.
  unfold vec_push_uninit. rewrite map_length. now rewrite (proj2 (Nat.leb_gt _ _)) by lia.
Qed.

Lemma from_vec_too_long b xs : alloc_max E < length xs + 1 ->
  from_vec E b xs = if b then @UB (cb T) else Panic.
Proof.
  intros H. unfold from_vec, vec_push_uninit. rewrite map_length.
  now rewrite (proj2 (Nat.leb_gt _ _)) by lia.
Qed.

Lemma from_iter_too_long xs : alloc_max E < length xs + 1 -> from_iter E xs = @Panic (cb T).
Proof.
  intros H. unfold from_iter, vec_push_uninit. rewrite map_length.
  now rewrite (proj2 (Nat.leb_gt _ _)) by lia.
Qed.

(** ** append and into_iter with panicking destructors *)
Lemma append_any dp c1 c2 k1 l1 k2 l2 : reachable E c1 -> reachable E c2 ->
  shows E c1 k1 l1 -> shows E c2 k2 l2 ->
  match s_append dp l2 (Deque k1 l1) with
  | (d, rest, dr, o) => exists c1' c2', append E dp (c1, c2) = ((c1', c2'), dr, o) /\
      shows E c1' (cap d) (items d) /\ shows E c2' k2 rest
  end.
Proof.
  intros Hr1 Hr2 Hs1 Hs2.
  pose proof (append_ok dp HE (shows_matches HE Hr1 Hs1) (shows_matches HE Hr2 Hs2)) as H.
  cbn [items cap] in H. destruct (s_append dp l2 (Deque k1 l1)) as [[[d rest] dr] o].
  destruct H as (a & b & H & Ha & Hb). exists a, b; split; auto.
  split; [exact (matches_shows Ha) | exact (matches_shows Hb)].
Qed.

Lemma s_append_facts dp ys (d d' : deque T) rest dr o : length (items d) <= cap d ->
  s_append dp ys d = (d', rest, dr, o) ->
  cap d' = cap d /\ Permutation (items d ++ ys) (items d' ++ rest ++ dr) /\
  (exists m, rest = skipn m ys) /\
  match o with
  | Ret _ => rest = []
  | Panic => exists x, In x dr /\ dp x = true
  | Abort => exists x y, In x dr /\ In y dr /\ dp x = true /\ dp y = true
  | UB | NoFuel => False
  end.
Proof.
  revert d d' rest dr o; induction ys as [|y ys IH]; intros d d' rest dr o Hl; cbn [s_append].
  - intros H; inversion H; subst. repeat split; auto. exists 0; auto.
  - pose proof (s_push_back_cap dp y d) as Hc. pose proof (s_push_back_perm dp y d Hl) as Hp.
    pose proof (s_push_back_ends dp y d) as He.
    destruct (s_push_back dp y d) as [[d1 dr1] o1].
    destruct Hp as [Hp Hl1].
    destruct o1 as [[]| | | |]; try contradiction.
    + destruct (s_append dp ys d1) as [[[d2 rest2] dr2] o2] eqn:Hrec.
      intros H; inversion H; subst.
      destruct (IH _ _ _ _ _ Hl1 Hrec) as (Hc2 & Hp2 & (m & Hm) & Ho). split; [congruence|]. split; [|split].
      * change (y :: ys) with ([y] ++ ys). rewrite app_assoc, Hp, <- app_assoc, Hp2.
        rewrite !app_assoc. rewrite <- !app_assoc.
        rewrite Permutation_app_comm, <- !app_assoc. do 2 apply Permutation_app_head. apply Permutation_app_comm.
      * exists (S m); auto.
      * destruct o as [[]| | | |]; auto.
        -- destruct Ho as (x & Hx & Hd). exists x; split; auto. apply in_app_iff; auto.
        -- destruct Ho as (x & z & Hx & Hz & Hd). exists x, z; rewrite !in_app_iff; tauto.
    + intros H; inversion H; subst. split; auto. split; [|split; [exists 1; auto | exact He]].
      change (y :: rest) with ([y] ++ rest). rewrite app_assoc, Hp.
      rewrite <- app_assoc, Permutation_app_comm, <- app_assoc. reflexivity.
    + intros H; inversion H; subst. split; auto. split; [|split; [exists 1; auto | exact He]].
      change (y :: rest) with ([y] ++ rest). rewrite app_assoc, Hp.
      rewrite <- app_assoc, Permutation_app_comm, <- app_assoc. reflexivity.
Qed.

Lemma append_conserves dp c1 c2 k1 l1 k2 l2 : reachable E c1 -> reachable E c2 ->
  shows E c1 k1 l1 -> shows E c2 k2 l2 ->
  exists c1' c2' l1' m dr o, append E dp (c1, c2) = ((c1', c2'), dr, o) /\
    shows E c1' k1 l1' /\ shows E c2' k2 (skipn m l2) /\
    Permutation (l1 ++ l2) (l1' ++ skipn m l2 ++ dr) /\
    match o with
    | Ret _ => skipn m l2 = []
    | Panic => exists x, In x dr /\ dp x = true
    | Abort => exists x y, In x dr /\ In y dr /\ dp x = true /\ dp y = true
    | UB | NoFuel => False
    end.
Proof.
  intros Hr1 Hr2 Hs1 Hs2. pose proof (append_any dp Hr1 Hr2 Hs1 Hs2) as H.
  destruct (s_append dp l2 (Deque k1 l1)) as [[[d rest] dr] o] eqn:Hsa.
  destruct (observers_ok HE Hr1 Hs1) as (Hl & _).
  apply s_append_facts in Hsa; [|cbn; auto]. cbn [cap items] in Hsa.
  destruct Hsa as (Hc & Hp & (m & ->) & Ho). destruct H as (a & b & H & Ha & Hb).
  exists a, b, (items d), m, dr, o. rewrite Hc in Ha. auto.
Qed.

Lemma into_iter_any dp n c k l : reachable E c -> shows E c k l ->
  exists c' dr o l', into_iter_take E dp n c = (c', dr, o) /\ skipn n l = l' ++ rev dr /\
    (o = Ret (firstn n l) /\ l' = [] /\ existsb dp dr = false \/
     o = Panic /\ exists r x, dr = r ++ [x] /\ dp x = true /\ existsb dp r = false).
Proof.
  intros Hr Hs. destruct (drain_take_ok dp HE n (shows_matches HE Hr Hs)) as (c1 & Hd & Hm1).
  cbn [items cap] in *.
  pose proof (clear_ok dp Hm1) as H. unfold s_clear in H; cbn [items cap] in H.
  pose proof (drop_each_perm dp (rev (skipn n l))) as Hp.
  pose proof (drop_each_exact dp (rev (skipn n l))) as Hx.
  destruct (drop_each dp (rev (skipn n l))) as [[r dr] o].
  destruct H as (c2 & Hc & _).
  assert (Hq : skipn n l = rev r ++ rev dr) by (rewrite <- rev_app_distr, <- Hp, rev_involutive; auto).
  unfold into_iter_take, bind, drop_cb. rewrite Hd, Hc. cbn [app].
  destruct o as [[]| | | |]; try contradiction.
  - destruct Hx as [-> Hx]. exists c2, (dr ++ []), (Ret (firstn n l)), [].
    unfold ret. rewrite app_nil_r. split; [reflexivity|]. split; auto.
  - exists c2, dr, Panic, (rev r). repeat split; auto.
Qed.

End Api.
