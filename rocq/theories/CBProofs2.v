(** Simulation of the remaining circular-buffer methods, of every history,
    and of pairs of buffers ([append]). *)
From Verif Require Import Base CBSpec CBSpec2 CBModel CBRun CBProofs.
Set Implicit Arguments.

Lemma bind_Ret {T S A B} (m : M T S A) (f : A -> M T S B) s s1 d1 a :
  m s = (s1, d1, Ret a) ->
  bind m f s = match f a s1 with (s2, d2, o) => (s2, d1 ++ d2, o) end.
Proof. unfold bind; intros ->; reflexivity. Qed.

Lemma bind_Ret_nil {T S A B} (m : M T S A) (f : A -> M T S B) s s1 a :
  m s = (s1, [], Ret a) -> bind m f s = f a s1.
Proof. unfold bind; intros ->. destruct (f a s1) as [[? ?] ?]; reflexivity. Qed.

Lemma bind_stop {T S A B} (m : M T S A) (f : A -> M T S B) s s1 d1 (o : outcome A) :
  m s = (s1, d1, o) -> (forall a, o <> Ret a) ->
  bind m f s = (s1, d1, match o with Ret _ => NoFuel | Panic => Panic | Abort => Abort | UB => UB | NoFuel => NoFuel end).
Proof. unfold bind; intros -> H. destruct o; auto. now destruct (H a). Qed.

Lemma skipn_skipn {A} (l : list A) a b : skipn a (skipn b l) = skipn (b + a) l.
Proof.
  revert l; induction b as [|b IH]; intros l; simpl; auto.
  destruct l; auto. now rewrite skipn_nil.
Qed.

Section Sim.
Variable T : Type.
Variable E : machine.
Variable dp : T -> bool.
Hypothesis HE : indexable T E.

Notation rep := (@rep T E).
Notation matches := (@matches T E).
Notation sim := (@sim T E _).
Implicit Types c : cb T.
Implicit Types l : list T.
Implicit Types d : deque T.

Lemma sim_ret {A} c d (o : outcome A) : matches c d -> sim (c, [], o) (d, [], o).
Proof. intros H; exists c; auto. Qed.

(** *** pops in terms of the specification *)
Lemma pop_front_cons c d x l : matches c d -> items d = x :: l ->
  exists c', pop_front E dp c = (c', [], Ret (Some x)) /\ matches c' (Deque (cap d) l).
Proof.
  intros [R Hn] Hi; rewrite Hi in R.
  destruct (pop_front_ok dp HE R) as (c' & H & R' & Hn'); simpl in *.
  exists c'; split; auto; split; simpl; auto; lia.
Qed.

Lemma pop_front_nil c d : matches c d -> items d = [] ->
  exists c', pop_front E dp c = (c', [], Ret None) /\ matches c' d.
Proof.
  intros [R Hn] Hi; destruct d as [k l]; simpl in *; subst l.
  destruct (pop_front_ok dp HE R) as (c' & H & R' & Hn'); simpl in *.
  exists c'; split; auto; split; simpl; auto; lia.
Qed.

Lemma pop_back_snoc c d x r : matches c d -> rev (items d) = x :: r ->
  exists c', pop_back E c = (c', [], Ret (Some x)) /\ matches c' (Deque (cap d) (rev r)).
Proof.
  intros [R Hn] Hi.
  destruct (pop_back_ok R) as (c' & H & R' & Hn'); simpl in *.
  rewrite Hi in H; rewrite (removelast_rev _ Hi) in R'.
  exists c'; split; auto; split; simpl; auto; lia.
Qed.

Lemma pop_back_nil c d : matches c d -> items d = [] ->
  exists c', pop_back E c = (c', [], Ret None) /\ matches c' d.
Proof.
  intros [R Hn] Hi; destruct d as [k l]; simpl in *; subst l.
  destruct (pop_back_ok R) as (c' & H & R' & Hn'); simpl in *.
  exists c'; split; auto; split; simpl; auto; lia.
Qed.

Lemma drop_each_Ret l : match drop_each dp l with
  | (r, dr, Ret _) => r = [] /\ dr = l
  | (r, dr, Panic) => l = dr ++ r
  | _ => False end.
Proof.
  induction l as [|x l IH]; simpl; auto.
  destruct (dp x); simpl; auto.
  destruct (drop_each dp l) as [[r dr] [[]| | | |]]; simpl in *; auto.
  - destruct IH; subst; auto.
  - subst; auto.
Qed.

(** *** clear *)
Lemma clear_loop_ok fuel c d : matches c d -> length (items d) < fuel ->
  sim (clear_loop E dp fuel c) (s_clear dp d).
Proof.
  revert c d; induction fuel as [|fuel IH]; intros c d Hm Hf; [lia|].
  cbn [clear_loop]. unfold s_clear.
  destruct (rev (items d)) as [|x r] eqn:Hr.
  - assert (Hi : items d = []) by (rewrite <- (rev_involutive (items d)), Hr; reflexivity).
    destruct (pop_back_nil Hm Hi) as (c' & Hp & Hm').
    rewrite (bind_Ret_nil _ _ _ Hp); simpl.
    exists c'; split; auto. destruct d; simpl in *; subst; auto.
  - destruct (pop_back_snoc Hm Hr) as (c' & Hp & Hm').
    rewrite (bind_Ret_nil _ _ _ Hp); simpl.
    destruct (dp x) eqn:Hx.
    + erewrite bind_stop by (unfold drop_val; rewrite ?Hx; reflexivity || discriminate).
      exists c'; auto.
    + erewrite bind_Ret by (unfold drop_val; rewrite Hx; reflexivity).
      assert (Hlen : length (rev r) < fuel).
      { rewrite rev_length. rewrite <- rev_length, Hr in Hf; simpl in Hf; lia. }
      pose proof (IH c' (Deque (cap d) (rev r)) Hm' Hlen) as H.
      unfold s_clear in H; cbn [items cap] in H; rewrite rev_involutive in H.
      destruct (drop_each dp r) as [[r1 dr1] o1].
      destruct H as (c2 & H1 & H2). rewrite H1.
      exists c2; split; auto.
Qed.

Lemma clear_ok c d : matches c d -> sim (clear E dp c) (s_clear dp d).
Proof.
  intros Hm; unfold clear; apply clear_loop_ok; auto.
  destruct Hm as [R Hn]; pose proof (rep_len R); lia.
Qed.

(** *** drain *)
Lemma drain_skip_ok n c d : matches c d ->
  sim (drain_skip E dp n c)
   (match drop_each dp (firstn n (items d)) with
    | (r, dr, o) => (Deque (cap d) (r ++ skipn n (items d)), dr, o) end).
Proof.
  revert c d; induction n as [|n IH]; intros c d Hm; cbn [drain_skip].
  - simpl. destruct d; simpl. apply sim_ret; auto.
  - destruct (items d) as [|x l] eqn:Hi.
    + destruct (pop_front_nil Hm Hi) as (c' & Hp & Hm').
      rewrite (bind_Ret_nil _ _ _ Hp); simpl.
      exists c'; split; auto. destruct d; simpl in *; subst; auto.
    + destruct (pop_front_cons Hm Hi) as (c' & Hp & Hm').
      rewrite (bind_Ret_nil _ _ _ Hp); simpl.
      destruct (dp x) eqn:Hx.
      * erewrite bind_stop by (unfold drop_val; rewrite ?Hx; reflexivity || discriminate).
        rewrite firstn_skipn. exists c'; auto.
      * erewrite bind_Ret by (unfold drop_val; rewrite Hx; reflexivity).
        specialize (IH c' (Deque (cap d) l) Hm'); simpl in IH.
        destruct (drop_each dp (firstn n l)) as [[r1 dr1] o1].
        destruct IH as (c2 & H1 & H2). rewrite H1. exists c2; auto.
Qed.

Lemma drain_take_ok n c d : matches c d ->
  sim (drain_take E dp n c) (Deque (cap d) (skipn n (items d)), [], Ret (firstn n (items d))).
Proof.
  revert c d; induction n as [|n IH]; intros c d Hm; cbn [drain_take].
  - simpl. destruct d; simpl. apply sim_ret; auto.
  - destruct (items d) as [|x l] eqn:Hi.
    + destruct (pop_front_nil Hm Hi) as (c' & Hp & Hm').
      rewrite (bind_Ret_nil _ _ _ Hp); simpl.
      exists c'; split; auto. destruct d; simpl in *; subst; auto.
    + destruct (pop_front_cons Hm Hi) as (c' & Hp & Hm').
      rewrite (bind_Ret_nil _ _ _ Hp); simpl.
      destruct (IH c' (Deque (cap d) l) Hm') as (c2 & H1 & H2); simpl in *.
      rewrite (bind_Ret_nil _ _ _ H1). exists c2; auto.
Qed.

Lemma drain_all_ok fuel c d : matches c d -> length (items d) < fuel ->
  sim (drain_all E dp fuel c) (Deque (cap d) [], [], Ret (items d)).
Proof.
  revert c d; induction fuel as [|n IH]; intros c d Hm Hf; cbn [drain_all]; [lia|].
  destruct (items d) as [|x l] eqn:Hi.
  + destruct (pop_front_nil Hm Hi) as (c' & Hp & Hm').
    rewrite (bind_Ret_nil _ _ _ Hp); simpl.
    exists c'; split; auto. destruct d; simpl in *; subst; auto.
  + destruct (pop_front_cons Hm Hi) as (c' & Hp & Hm').
    rewrite (bind_Ret_nil _ _ _ Hp); simpl in *.
    destruct (IH c' (Deque (cap d) l) Hm' ltac:(simpl; lia)) as (c2 & H1 & H2); simpl in *.
    rewrite (bind_Ret_nil _ _ _ H1). exists c2; auto.
Qed.

(** *** resize *)
Lemma rep_fresh l k : length l + k + 1 <= alloc_max E ->
  rep (CB (map Init l ++ repeat Uninit (k + 1)) 0 (length l)) l.
Proof.
  intros H; constructor; cbn [start end_ buffer];
    rewrite ?app_length, ?map_length, ?repeat_length; try lia.
  - unfold phys; simpl. destruct (Nat.ltb_spec (length l) (length l + (k + 1))); lia.
  - rewrite rot_0. do 2 f_equal; lia.
Qed.

Lemma resize_ok k c d : matches c d -> k + 1 <= alloc_max E ->
  sim (resize E dp k c) (s_resize dp k d).
Proof.
  intros Hm Hk; pose proof HE as [Hau Hidx].
  pose proof Hm as [R Hn].
  unfold resize, s_resize.
  erewrite bind_Ret_nil by (unfold liftO; rewrite uadd_fits by lia; reflexivity).
  erewrite bind_Ret_nil by (unfold liftO, vec_with_capacity;
    rewrite (proj2 (Nat.leb_le _ _)) by lia; reflexivity).
  assert (Hskip : (obind (len E c) (fun q => if k <? q then obind (len E c) (fun q' => usub E q' k) else Ret 0))
     = Ret (length (items d) - k)).
  { rewrite (rep_len_ok HE R); cbn [obind].
    destruct (Nat.ltb_spec k (length (items d))).
    - rewrite usub_fits by lia; reflexivity.
    - f_equal; lia. }
  erewrite bind_Ret_nil by (unfold gets; rewrite Hskip; reflexivity).
  set (n := length (items d) - k).
  pose proof (drain_skip_ok n Hm) as Hs.
  pose proof (drop_each_Ret (firstn n (items d))) as Hd.
  destruct (drop_each dp (firstn n (items d))) as [[r dr] o].
  destruct Hs as (c1 & H1 & Hm1).
  destruct o as [[]| | | |]; try contradiction.
  - destruct Hd as [-> ->]; simpl in Hm1.
    erewrite bind_Ret by exact H1.
    assert (Hf : length (skipn n (items d)) < S (length (buffer c1))).
    { destruct Hm1 as [R1 Hn1]; pose proof (rep_len R1); simpl in *; lia. }
    destruct (drain_all_ok Hm1 (fuel:=S (length (buffer c1))) Hf) as (c2 & H2 & Hm2); simpl in H2.
    erewrite bind_Ret_nil by exact H2.
    assert (Hlen : length (skipn n (items d)) <= k) by (rewrite skipn_length; unfold n; lia).
    set (l2 := skipn n (items d)) in *.
    cbv zeta. rewrite map_length.
    erewrite bind_Ret_nil by (unfold liftO; rewrite usub_fits by lia; cbn [obind];
      rewrite uadd_fits by lia; reflexivity).
    erewrite bind_Ret_nil by (unfold liftO, vec_push_uninit; rewrite map_length;
      rewrite (proj2 (Nat.leb_le _ _)) by lia; reflexivity).
    unfold modify.
    rewrite app_nil_r. eexists; split; [reflexivity|].
    split; cbn [items cap buffer].
    + apply rep_fresh; lia.
    + rewrite app_length, map_length, repeat_length; lia.
  - erewrite bind_stop by (exact H1 || discriminate).
    exists c1; auto.
Qed.

(** *** extend *)
Lemma s_push_back_outcome v d : match s_push_back dp v d with
  (_, _, o) => o = Ret tt \/ o = Panic \/ o = Abort end.
Proof.
  unfold s_push_back, unwind. destruct (cap d).
  - destruct (dp v); auto.
  - destruct (_ <? _); auto. destruct (items d) as [|x t]; auto.
    destruct (dp x); auto. destruct (existsb dp [v]); auto.
Qed.

Lemma extend_ok xs c d : matches c d -> sim (extend E dp xs c) (s_extend dp xs d).
Proof.
  revert c d; induction xs as [|x xs IH]; intros c d Hm; cbn [extend s_extend].
  - apply sim_ret; auto.
  - pose proof (push_back_ok dp HE x Hm) as Hp.
    pose proof (s_push_back_outcome x d) as Ho.
    destruct (s_push_back dp x d) as [[d1 dr1] o1].
    destruct Hp as (c1 & H1 & Hm1).
    destruct Ho as [->|[->| ->]].
    + erewrite bind_Ret by (unfold unwinding_list; rewrite H1; reflexivity).
      specialize (IH c1 d1 Hm1). destruct (s_extend dp xs d1) as [[d2 dr2] o2].
      destruct IH as (c2 & -> & Hm2). exists c2; auto.
    + unfold bind, unwinding_list; rewrite H1. unfold unwind.
      destruct (existsb dp xs); exists c1; auto.
    + unfold bind, unwinding_list; rewrite H1. exists c1; auto.
Qed.

(** *** element access *)
Lemma modify_slot_phys c d i f x : matches c d -> nth_error (items d) i = Some x ->
  sim (modify_slot (phys (length (buffer c)) (start c) i) f c)
      (Deque (cap d) (replace i (f x) (items d)), [], Ret tt).
Proof.
  intros [R Hn] Hx.
  assert (Hi : i < length (items d)) by (apply nth_error_Some; congruence).
  unfold modify_slot. rewrite (rep_nth R Hi), Hx; cbn [option_map].
  eexists; split; [reflexivity|]. split; cbn [items cap]; [|unfold set_buffer; cbn; now rewrite length_upd].
  pose proof R as [Hs Hl He Hr Ha].
  constructor; unfold set_buffer; cbn [start end_ buffer]; rewrite ?length_upd; auto;
    try rewrite <- upd_replace by auto; rewrite ?length_upd; auto.
  rewrite (rot_write _ R) by lia.
  rewrite upd_app_l by (rewrite map_length; auto). now rewrite upd_map.
Qed.

Lemma modify_slot_ok c d i f x : matches c d -> nth_error (items d) i = Some x ->
  sim (modify_slot (spos E c i) f c)
      (Deque (cap d) (replace i (f x) (items d)), [], Ret tt).
Proof.
  intros Hm Hx. pose proof Hm as [R Hn].
  assert (Hi : i < length (items d)) by (apply nth_error_Some; congruence).
  destruct (modify_slot_phys i f Hm Hx) as (c' & Hc & Hm'). exists c'; split; auto. rewrite <- Hc.
  unfold modify_slot. rewrite (rep_nth_spos HE R Hi), (rep_nth R Hi), Hx; cbn [option_map].
  now rewrite (rep_upd_spos HE (f x) R Hi).
Qed.

Lemma index_mut_ok c d i f : matches c d ->
  sim (index_mut E i f c)
    (match nth_error (items d) i with
     | Some x => (Deque (cap d) (replace i (f x) (items d)), [], Ret tt)
     | None => (d, [], Panic) end).
Proof.
  intros Hm; pose proof Hm as [R Hn]; unfold index_mut, bind, gets.
  rewrite (rep_internal_index HE i R).
  destruct (nth_error (items d) i) as [x|] eqn:Hx.
  - assert (Hi : i < length (items d)) by (apply nth_error_Some; congruence).
    rewrite (proj2 (Nat.ltb_lt _ _) Hi).
    destruct (modify_slot_ok _ f Hm Hx) as (c' & -> & Hm'). exists c'; auto.
  - apply nth_error_None in Hx. rewrite (proj2 (Nat.ltb_ge _ _) Hx). exists c; auto.
Qed.

Lemma hd_error_rev l : hd_error (rev l) = nth_error l (length l - 1).
Proof.
  destruct (snoc_cases l) as [->|(l' & x & ->)]; auto.
  rewrite rev_unit, app_length; cbn [hd_error length].
  rewrite nth_error_app2 by lia. replace (length l' + 1 - 1 - length l') with 0 by lia. reflexivity.
Qed.

Lemma first_ok c d : matches c d -> first E c = Ret (hd_error (items d)).
Proof.
  intros [R Hn]; unfold first. rewrite (rep_is_empty_ok R).
  destruct (items d) as [|x l] eqn:Hi; auto. cbn [length Nat.eqb].
  rewrite (rep_internal_index HE 0 R); cbn [length Nat.ltb Nat.leb obind].
  rewrite (rep_read HE R) by (simpl; lia). reflexivity.
Qed.

Lemma last_ok c d : matches c d -> last E c = Ret (hd_error (rev (items d))).
Proof.
  intros [R Hn]; unfold last. rewrite (rep_is_empty_ok R), hd_error_rev.
  destruct (Nat.eqb_spec (length (items d)) 0) as [H|H].
  - destruct (items d); [reflexivity | discriminate].
  - rewrite (rep_len_ok HE R); cbn [obind]. rewrite usub_fits by lia; cbn [obind].
    rewrite (rep_internal_index HE _ R).
    rewrite (proj2 (Nat.ltb_lt _ _)) by lia; cbn [obind].
    rewrite (rep_read HE R) by lia.
    destruct (nth_error (items d) (length (items d) - 1)) eqn:Hx; auto.
    apply nth_error_None in Hx; lia.
Qed.

Lemma first_mut_ok c d f : matches c d ->
  sim (first_mut E f c)
    (match items d with
     | [] => (d, [], Ret false)
     | x :: t => (Deque (cap d) (f x :: t), [], Ret true) end).
Proof.
  intros Hm; pose proof Hm as [R Hn]; unfold first_mut.
  erewrite bind_Ret_nil by reflexivity. rewrite (rep_is_empty_ok R).
  destruct (items d) as [|x l] eqn:Hi; cbn [length Nat.eqb].
  - apply sim_ret; auto.
  - erewrite bind_Ret_nil by (unfold gets; rewrite (rep_internal_index HE 0 R);
      cbn [length Nat.ltb Nat.leb]; reflexivity).
    assert (Hx : nth_error (items d) 0 = Some x) by now rewrite Hi.
    destruct (modify_slot_ok _ f Hm Hx) as (c' & H & Hm').
    erewrite bind_Ret_nil by exact H. exists c'; split; auto.
    rewrite Hi in Hm'; exact Hm'.
Qed.

Lemma replace_last l x r y : rev l = x :: r -> replace (length l - 1) y l = rev r ++ [y].
Proof.
  intros H. assert (Hl : l = rev r ++ [x]) by (rewrite <- (rev_involutive l), H; reflexivity).
  rewrite Hl, app_length; cbn [length]. unfold replace.
  replace (length (rev r) + 1 - 1) with (length (rev r)) by lia.
  rewrite firstn_app, Nat.sub_diag, firstn_all, firstn_O, app_nil_r.
  rewrite skipn_all2 by (rewrite app_length; simpl; lia). reflexivity.
Qed.

Lemma last_mut_ok c d f : matches c d ->
  sim (last_mut E f c)
    (match rev (items d) with
     | [] => (d, [], Ret false)
     | x :: t => (Deque (cap d) (rev t ++ [f x]), [], Ret true) end).
Proof.
  intros Hm; pose proof Hm as [R Hn]; unfold last_mut.
  erewrite bind_Ret_nil by reflexivity. rewrite (rep_is_empty_ok R).
  destruct (rev (items d)) as [|x r] eqn:Hr.
  - assert (Hi : items d = []) by (rewrite <- (rev_involutive (items d)), Hr; reflexivity).
    rewrite Hi; cbn. apply sim_ret; auto.
  - assert (Hl : length (items d) = S (length r)) by (rewrite <- rev_length, Hr; reflexivity).
    rewrite Hl; cbn [Nat.eqb].
    erewrite bind_Ret_nil by (unfold gets; rewrite (rep_len_ok HE R); cbn [obind];
      rewrite usub_fits by lia; cbn [obind]; rewrite (rep_internal_index HE _ R);
      rewrite (proj2 (Nat.ltb_lt _ _)) by lia; reflexivity).
    assert (Hx : nth_error (items d) (length (items d) - 1) = Some x) by (rewrite <- hd_error_rev, Hr; reflexivity).
    destruct (modify_slot_ok _ f Hm Hx) as (c' & H & Hm').
    erewrite bind_Ret_nil by exact H. exists c'; split; auto.
    rewrite (replace_last _ (f x) Hr) in Hm'; exact Hm'.
Qed.

(** *** slices *)
Lemma read_slots_Init l : read_slots (map Init l) = Ret l.
Proof. induction l as [|x l IH]; simpl; auto. now rewrite IH. Qed.

Lemma rep_firstn_rot c l : rep c l -> firstn (length l) (rot (start c) (buffer c)) = map Init l.
Proof.
  intros R; rewrite (rep_rot R). rewrite <- (map_length Init l) at 1.
  rewrite firstn_app, Nat.sub_diag, firstn_all, firstn_O, app_nil_r; reflexivity.
Qed.

Lemma rep_skipn_rot c l : rep c l ->
  skipn (length l) (rot (start c) (buffer c)) = repeat Uninit (length (buffer c) - length l).
Proof.
  intros R; rewrite (rep_rot R). rewrite <- (map_length Init l) at 1.
  rewrite skipn_app, Nat.sub_diag, skipn_all; reflexivity.
Qed.

(** how the contents lie in the storage *)
Lemma rep_straight c l : rep c l -> start c <= end_ c ->
  length l = end_ c - start c /\
  firstn (end_ c - start c) (skipn (start c) (buffer c)) = map Init l.
Proof.
  intros R Hse. pose proof R as [Hs Hl He Hr Ha].
  assert (Hlen : length l = end_ c - start c).
  { rewrite He in *; unfold phys in *.
    destruct (Nat.ltb_spec (start c + length l) (length (buffer c))); lia. }
  pose proof (rep_end_lt R).
  split; auto. rewrite <- Hlen, <- (rep_firstn_rot R). unfold rot.
  rewrite firstn_app, skipn_length.
  replace (length l - (length (buffer c) - start c)) with 0 by lia.
  now rewrite firstn_O, app_nil_r.
Qed.

Lemma rep_wrapped c l : rep c l -> end_ c < start c ->
  length l = length (buffer c) - start c + end_ c /\
  skipn (start c) (buffer c) = map Init (firstn (length (buffer c) - start c) l) /\
  firstn (end_ c) (buffer c) = map Init (skipn (length (buffer c) - start c) l).
Proof.
  intros R Hse. pose proof R as [Hs Hl He Hr Ha].
  assert (Hlen : length l = length (buffer c) - start c + end_ c).
  { rewrite He in *; unfold phys in *.
    destruct (Nat.ltb_spec (start c + length l) (length (buffer c))); lia. }
  split; auto.
  pose proof (rep_firstn_rot R) as Hf. unfold rot in Hf.
  rewrite firstn_app, skipn_length in Hf.
  rewrite (@firstn_all2 _ (length l)) in Hf by (rewrite skipn_length; lia).
  replace (length l - (length (buffer c) - start c)) with (end_ c) in Hf by lia.
  rewrite firstn_firstn, Nat.min_l in Hf by lia.
  rewrite <- firstn_map, <- skipn_map, <- Hf.
  rewrite <- (skipn_length (start c) (buffer c)).
  split.
  - now rewrite firstn_app, Nat.sub_diag, firstn_all, firstn_O, app_nil_r.
  - now rewrite skipn_app, Nat.sub_diag, skipn_all.
Qed.

Lemma slices_ok c d : matches c d ->
  exists a b, slices c = Ret (a, b) /\ a ++ b = items d.
Proof.
  intros [R Hn]; unfold slices, slice_range. pose proof (rep_end_lt R) as Hel.
  pose proof (rep_start R) as Hs.
  destruct (Nat.leb_spec (start c) (end_ c)) as [H|H].
  - destruct (rep_straight R H) as [_ Hf].
    cbn [andb]. rewrite (proj2 (Nat.leb_le (end_ c) _)) by lia. cbn [obind].
    rewrite Hf, read_slots_Init; simpl.
    exists (items d), []; split; auto using app_nil_r.
  - destruct (rep_wrapped R H) as (_ & Ha & Hb).
    rewrite (proj2 (Nat.leb_le (start c) _)) by lia.
    rewrite (proj2 (Nat.leb_le (end_ c) _)) by lia.
    rewrite Nat.leb_refl. cbn [andb obind Nat.leb].
    rewrite (@firstn_all2 _ (length (buffer c) - start c)) by (rewrite skipn_length; lia).
    rewrite Nat.sub_0_r; cbn [skipn].
    rewrite Ha, Hb, !read_slots_Init; simpl.
    do 2 eexists; split; [reflexivity|]. apply firstn_skipn.
Qed.

Lemma iter_ok c d : matches c d -> iter c = Ret (items d).
Proof.
  intros Hm; unfold iter. destruct (slices_ok Hm) as (a & b & -> & <-). reflexivity.
Qed.

Lemma write_at_nil off (b : list (slot T)) : write_at off [] b = b.
Proof. unfold write_at; simpl. rewrite Nat.add_0_r; apply firstn_skipn. Qed.

Lemma slices_mut_with_ok g c d : matches c d ->
  (forall a b, length (fst (g a b)) = length a /\ length (snd (g a b)) = length b) ->
  exists a b, a ++ b = items d /\ slices c = Ret (a, b) /\
    sim (slices_mut_with g c) (Deque (cap d) (fst (g a b) ++ snd (g a b)), [], Ret tt).
Proof.
  intros Hm Hg; pose proof Hm as [R Hn]. pose proof (rep_end_lt R) as Hel.
  pose proof (rep_start R) as Hs. pose proof (rep_len R) as Hl. pose proof (rep_alloc R) as Hal.
  pose proof (rep_skipn_rot R) as Hsk.
  set (n := length (buffer c)) in *.
  destruct (Nat.le_gt_cases (start c) (end_ c)) as [H|H].
  - destruct (rep_straight R H) as [Hlen Hf].
    exists (items d), []. split; [apply app_nil_r|]. split.
    { unfold slices, slice_range. rewrite (proj2 (Nat.leb_le (start c) _)) by lia.
      cbn [andb]. rewrite (proj2 (Nat.leb_le (end_ c) _)) by (fold n; lia). cbn [obind].
      rewrite Hf, read_slots_Init; reflexivity. }
    unfold slices_mut_with, slices_mut.
    erewrite bind_Ret_nil.
    2:{ unfold gets, split_at, slice_range. rewrite (proj2 (Nat.leb_le (start c) _)) by lia.
        rewrite (proj2 (Nat.leb_le (end_ c) _)) by (fold n; lia). cbn [obind fst snd].
        rewrite firstn_length. fold n. rewrite Nat.min_l by lia. rewrite Nat.leb_refl. cbn [andb obind Nat.leb Nat.sub firstn].
        rewrite firstn_skipn_comm. replace (start c + (end_ c - start c)) with (end_ c) by lia.
        rewrite <- (firstn_firstn (buffer c) (end_ c) (end_ c)) at 1 || idtac.
        replace (skipn (start c) (firstn (end_ c) (firstn (end_ c) (buffer c))))
          with (firstn (end_ c - start c) (skipn (start c) (buffer c))).
        2:{ rewrite firstn_skipn_comm. replace (start c + (end_ c - start c)) with (end_ c) by lia.
            rewrite firstn_firstn, Nat.min_id; reflexivity. }
        rewrite Hf, read_slots_Init. cbn [obind]. reflexivity. }
    unfold modify. specialize (Hg (items d) []).
    destruct (g (items d) []) as [a' b']; cbn [fst snd length] in *. destruct Hg as [Hga Hgb].
    destruct b'; [|discriminate]. rewrite write_at_nil, app_nil_r.
    assert (Hwl : length (write_at (start c) a' (buffer c)) = n).
    { unfold write_at; rewrite !app_length, map_length, firstn_length, skipn_length; fold n; lia. }
    eexists; split; [reflexivity|]. split; [|unfold set_buffer; cbn [buffer cap]; rewrite Hwl; auto].
    constructor; unfold set_buffer; cbn [start end_ buffer items]; rewrite ?Hwl, ?Hga; auto; [apply R|].
    unfold write_at, rot.
    rewrite (skipn_app (start c)), (firstn_app (start c)), firstn_length. fold n. rewrite Nat.min_l by lia.
    rewrite Nat.sub_diag, firstn_O, app_nil_r; cbn [skipn].
    rewrite (@skipn_all2 _ (start c)) by (rewrite firstn_length; lia).
    rewrite firstn_firstn, Nat.min_id; cbn [app].
    rewrite <- app_assoc; f_equal. rewrite <- Hsk. unfold rot.
    rewrite skipn_app, skipn_length. fold n.
    replace (length (items d) - (n - start c)) with 0 by lia. cbn [skipn].
    rewrite skipn_skipn. do 2 f_equal; lia.
  - destruct (rep_wrapped R H) as (Hlen & Ha & Hb). fold n in Hlen, Ha, Hb.
    set (a := firstn (n - start c) (items d)) in *.
    set (b := skipn (n - start c) (items d)) in *.
    exists a, b. split; [apply firstn_skipn|]. split.
    { unfold slices, slice_range. rewrite (proj2 (Nat.leb_gt (start c) (end_ c))) by lia.
      fold n. rewrite (proj2 (Nat.leb_le (start c) n)) by lia.
      rewrite Nat.leb_refl. rewrite (proj2 (Nat.leb_le (end_ c) n)) by lia. cbn [andb obind Nat.leb].
      rewrite (@firstn_all2 _ (n - start c)) by (rewrite skipn_length; fold n; lia).
      rewrite Nat.sub_0_r; cbn [skipn]. rewrite Ha, Hb, !read_slots_Init. reflexivity. }
    assert (Hla : length a = n - start c) by (unfold a; rewrite firstn_length; lia).
    assert (Hlb : length b = end_ c) by (unfold b; rewrite skipn_length; lia).
    unfold slices_mut_with, slices_mut.
    erewrite bind_Ret_nil.
    2:{ unfold gets, split_at, slice_range. rewrite (proj2 (Nat.leb_gt (start c) (end_ c))) by lia.
        fold n. rewrite (proj2 (Nat.leb_le (start c) n)) by lia. cbn [obind fst snd].
        rewrite firstn_length. fold n. rewrite Nat.min_l by lia.
        rewrite (proj2 (Nat.leb_le (end_ c) (start c))) by lia. cbn [andb obind Nat.leb skipn].
        rewrite Nat.sub_0_r, firstn_firstn, Nat.min_l by lia.
        rewrite Ha, Hb, !read_slots_Init. cbn [obind]. reflexivity. }
    unfold modify. specialize (Hg a b).
    destruct (g a b) as [a' b']; cbn [fst snd] in *. destruct Hg as [Hga Hgb].
    assert (Hw1 : write_at (start c) a' (buffer c) = firstn (start c) (buffer c) ++ map Init a').
    { unfold write_at. rewrite (@skipn_all2 _ (start c + length a')) by (fold n; lia). now rewrite app_nil_r. }
    rewrite Hw1.
    assert (Hw2 : write_at 0 b' (firstn (start c) (buffer c) ++ map Init a')
      = (map Init b' ++ skipn (end_ c) (firstn (start c) (buffer c))) ++ map Init a').
    { unfold write_at; cbn [firstn app Nat.add]. rewrite <- app_assoc; f_equal.
      rewrite skipn_app, firstn_length. fold n. rewrite Hgb, Hlb, Nat.min_l by lia.
      replace (end_ c - start c) with 0 by lia. reflexivity. }
    rewrite Hw2.
    assert (Hl1 : length (map Init b' ++ skipn (end_ c) (firstn (start c) (buffer c))) = start c).
    { rewrite app_length, map_length, skipn_length, firstn_length. fold n. lia. }
    assert (Hl2 : length ((map Init b' ++ skipn (end_ c) (firstn (start c) (buffer c))) ++ map Init a') = n).
    { rewrite app_length, Hl1, map_length. lia. }
    eexists; split; [reflexivity|]. split; [|unfold set_buffer; cbn [buffer cap]; rewrite Hl2; auto].
    constructor; unfold set_buffer; cbn [start end_ buffer items]; rewrite ?Hl2, ?app_length, ?Hga, ?Hgb; auto.
    + rewrite Hla, Hlb; lia.
    + rewrite (rep_end R). fold n. f_equal. lia.
    + unfold rot. rewrite <- Hl1 at 1 3.
      rewrite skipn_app, Nat.sub_diag, skipn_all, firstn_app, Nat.sub_diag, firstn_all, firstn_O, app_nil_r; cbn [skipn app].
      rewrite map_app, <- app_assoc. do 2 f_equal.
      rewrite Hla, Hlb. rewrite <- Hlen, <- Hsk. unfold rot.
      rewrite skipn_app, skipn_length. fold n.
      rewrite (@skipn_all2 _ (length (items d))) by (rewrite skipn_length; fold n; lia).
      cbn [app]. f_equal; lia.
Qed.

Lemma iter_mut_with_ok g c d : matches c d -> (forall l, length (g l) = length l) ->
  sim (iter_mut_with g c) (Deque (cap d) (g (items d)), [], Ret tt).
Proof.
  intros Hm Hg; unfold iter_mut_with.
  destruct (@slices_mut_with_ok (fun a b => let r := g (a ++ b) in
     (firstn (length a) r, skipn (length a) r)) c d Hm) as (a & b & Hab & _ & Hs).
  - intros a b; cbn [fst snd]; cbv zeta.
    rewrite firstn_length, skipn_length, Hg, app_length; lia.
  - cbn [fst snd] in Hs; cbv zeta in Hs. rewrite firstn_skipn, Hab in Hs. exact Hs.
Qed.

(** *** linearize *)
Lemma linearize_ok c d : matches c d ->
  exists c', linearize E c = (c', [], Ret (items d)) /\ matches c' d /\ start c' = 0
     /\ buffer c' = map Init (items d) ++ repeat Uninit (length (buffer c) - length (items d)).
Proof.
  intros Hm; pose proof Hm as [R Hn]; pose proof R as [Hs Hl He Hr Ha].
  unfold linearize.
  erewrite bind_Ret_nil by (unfold gets, rotate_left; rewrite (proj2 (Nat.leb_le _ _)) by lia; reflexivity).
  erewrite bind_Ret_nil by reflexivity.
  set (c1 := set_buffer _ c).
  assert (Hlen1 : len E c1 = Ret (length (items d))).
  { rewrite <- (rep_len_ok HE R). unfold len, c1, set_buffer; cbn [start end_ buffer].
    fold (rot (start c) (buffer c)). now rewrite rot_length. }
  erewrite bind_Ret_nil by (unfold gets; rewrite Hlen1; reflexivity).
  erewrite bind_Ret_nil by reflexivity.
  erewrite bind_Ret_nil by reflexivity.
  unfold gets, set_start, set_end, c1, set_buffer; cbn [start end_ buffer].
  fold (rot (start c) (buffer c)).
  unfold slice_range. cbn [Nat.leb andb]. rewrite rot_length, (proj2 (Nat.leb_le _ _)) by lia.
  cbn [obind skipn]. rewrite Nat.sub_0_r, (rep_firstn_rot R), read_slots_Init.
  eexists; split; [reflexivity|].
  split; [|split; [reflexivity | exact Hr]].
  split; [|cbn; rewrite rot_length; auto].
  constructor; cbn [start end_ buffer]; rewrite ?rot_length; auto; try lia.
  - unfold phys; simpl. rewrite (proj2 (Nat.ltb_lt _ _)) by lia. reflexivity.
  - rewrite rot_0. exact Hr.
Qed.

Lemma linearize_with_ok g c d : matches c d -> (forall l, length (g l) = length l) ->
  sim (linearize_with E g c) (Deque (cap d) (g (items d)), [], Ret tt).
Proof.
  intros Hm Hg; unfold linearize_with.
  destruct (linearize_ok Hm) as (c' & H & Hm' & Hst & Hbuf).
  erewrite bind_Ret_nil by exact H. unfold modify.
  eexists; split; [reflexivity|].
  pose proof Hm' as [R Hn]; pose proof R as [Hs Hl He Hr Ha].
  assert (Hw : write_at 0 (g (items d)) (buffer c') = map Init (g (items d)) ++ repeat Uninit (length (buffer c) - length (items d))).
  { unfold write_at; cbn [firstn app Nat.add]. f_equal. rewrite Hbuf, Hg.
    rewrite <- (map_length Init (items d)) at 1.
    rewrite skipn_app, Nat.sub_diag, skipn_all; reflexivity. }
  assert (Hbl : length (buffer c') = length (items d) + (length (buffer c) - length (items d))).
  { rewrite Hbuf, app_length, map_length, repeat_length; lia. }
  assert (Hwl : length (write_at 0 (g (items d)) (buffer c')) = length (buffer c')).
  { rewrite Hw, app_length, map_length, repeat_length, Hg; lia. }
  split; [|unfold set_buffer; cbn [buffer cap]; rewrite Hwl; auto].
  constructor; unfold set_buffer; cbn [start end_ buffer items]; rewrite ?Hwl, ?Hg; auto.
  rewrite Hst, rot_0, Hw. do 2 f_equal. lia.
Qed.

(** *** swap and reverse *)
Lemma slice_swap_ok c d a b x y : matches c d ->
  nth_error (items d) a = Some x -> nth_error (items d) b = Some y ->
  exists buf,
    slice_swap (buffer c) (spos E c a) (spos E c b) = Ret buf /\
    matches (set_buffer buf c) (Deque (cap d) (upd (upd (items d) a y) b x)).
Proof.
  intros [R Hn] Hx Hy.
  assert (Ha : a < length (items d)) by (apply nth_error_Some; congruence).
  assert (Hb : b < length (items d)) by (apply nth_error_Some; congruence).
  unfold slice_swap. rewrite (rep_nth_spos HE R Ha), (rep_nth_spos HE R Hb), Hx, Hy; cbn [option_map].
  eexists; split; [reflexivity|].
  pose proof R as [Hs Hl He Hr Hal].
  assert (Hw : upd (upd (buffer c) (spos E c a) (Init y)) (spos E c b) (Init x)
     = upd (upd (buffer c) (phys (length (buffer c)) (start c) a) (Init y))
         (phys (length (buffer c)) (start c) b) (Init x)).
  { rewrite (rep_upd_spos HE y R Ha).
    destruct (rep_spos HE R Hb) as [->|(Hone & j & Hj & Hjs)]; auto.
    assert (Hz : forall i z, i < length (items d) ->
      nth_error (buffer c) (phys (length (buffer c)) (start c) i) = Some (Init z)).
    { intros i z Hla. rewrite (rep_nth R Hla). destruct (nth_error (items d) i) eqn:H1; [|apply nth_error_None in H1; lia].
      cbn; do 2 f_equal; auto. }
    rewrite (upd_same _ _ (Hz a y Ha)), Hjs, !upd_same; auto. }
  rewrite Hw.
  split; [|cbn; now rewrite !length_upd].
  constructor; unfold set_buffer; cbn [start end_ buffer items]; rewrite ?length_upd; auto.
  pose proof (length_upd (buffer c) (phys (length (buffer c)) (start c) a) (Init y)) as Hul.
  pose proof (rot_write (Init y) R (i:=a) ltac:(lia)) as Hra.
  set (b1 := upd (buffer c) (phys (length (buffer c)) (start c) a) (Init y)) in *.
  replace (phys (length (buffer c)) (start c) b) with (phys (length b1) (start c) b) by now rewrite Hul.
  rewrite rot_upd by (rewrite Hul; lia). rewrite Hra.
  rewrite upd_app_l by (rewrite map_length; auto).
  rewrite upd_app_l by (rewrite length_upd, map_length; auto).
  now rewrite !upd_map.
Qed.

Lemma swap_indices c d a b x y : matches c d ->
  nth_error (items d) a = Some x -> nth_error (items d) b = Some y ->
  exists buf,
    obind (internal_index E c a) (fun i => obind (internal_index E c b) (fun j => slice_swap (buffer c) i j)) = Ret buf /\
    matches (set_buffer buf c) (Deque (cap d) (upd (upd (items d) a y) b x)).
Proof.
  intros Hm Hx Hy.
  assert (Ha : a < length (items d)) by (apply nth_error_Some; congruence).
  assert (Hb : b < length (items d)) by (apply nth_error_Some; congruence).
  pose proof Hm as [R Hn].
  rewrite (rep_internal_index HE a R), (rep_internal_index HE b R).
  rewrite (proj2 (Nat.ltb_lt _ _) Ha), (proj2 (Nat.ltb_lt _ _) Hb); cbn [obind].
  apply slice_swap_ok; auto.
Qed.

Lemma swap_ok c d a b : matches c d ->
  sim (swap E a b c)
    (match nth_error (items d) a, nth_error (items d) b with
     | Some x, Some y => (Deque (cap d) (replace b x (replace a y (items d))), [], Ret tt)
     | _, _ => (d, [], Panic) end).
Proof.
  intros Hm; pose proof Hm as [R Hn]; unfold swap.
  destruct (nth_error (items d) a) as [x|] eqn:Hx.
  - assert (Ha : a < length (items d)) by (apply nth_error_Some; congruence).
    destruct (nth_error (items d) b) as [y|] eqn:Hy.
    + assert (Hb : b < length (items d)) by (apply nth_error_Some; congruence).
      destruct (swap_indices a b Hm Hx Hy) as (buf & H & Hm').
      erewrite bind_Ret_nil by (unfold gets; rewrite H; reflexivity).
      unfold modify. eexists; split; [reflexivity|].
      rewrite <- !upd_replace; auto. rewrite <- upd_replace by auto. now rewrite length_upd.
    + apply nth_error_None in Hy.
      unfold bind, gets. rewrite (rep_internal_index HE a R), (proj2 (Nat.ltb_lt _ _) Ha); cbn [obind].
      rewrite (rep_internal_index HE b R), (proj2 (Nat.ltb_ge _ _) Hy); cbn [obind].
      exists c; auto.
  - apply nth_error_None in Hx. unfold bind, gets.
    rewrite (rep_internal_index HE a R), (proj2 (Nat.ltb_ge _ _) Hx); cbn [obind].
    exists c; auto.
Qed.

Lemma reverse_body_ok c d a : matches c d -> a < length (items d) ->
  exists l', sim (reverse_body E a c) (Deque (cap d) l', [], Ret tt) /\
    length l' = length (items d) /\
    forall i, i < length (items d) ->
      nth_error l' i = nth_error (items d)
        (if i =? a then length (items d) - a - 1 else if i =? length (items d) - a - 1 then a else i).
Proof.
  intros Hm Ha. pose proof Hm as [R Hn].
  set (n := length (items d)) in *. set (b := n - a - 1).
  destruct (nth_error (items d) a) as [x|] eqn:Hx; [|apply nth_error_None in Hx; fold n in Hx; lia].
  destruct (nth_error (items d) b) as [y|] eqn:Hy; [|apply nth_error_None in Hy; fold n in Hy; unfold b in Hy; lia].
  destruct (swap_indices a b Hm Hx Hy) as (buf & H & Hm').
  exists (upd (upd (items d) a y) b x).
  unfold reverse_body.
  erewrite bind_Ret_nil.
  2:{ unfold gets; rewrite (rep_len_ok HE R); cbn [obind]. fold n. rewrite usub_fits by lia; cbn [obind].
      rewrite usub_fits by lia. fold b. reflexivity. }
  erewrite bind_Ret_nil by (unfold gets; rewrite H; reflexivity).
  unfold modify. split; [eexists; split; [reflexivity | exact Hm']|].
  split; [now rewrite !length_upd|].
  intros i Hi.
  destruct (Nat.eqb_spec i a) as [->|Hia].
  - destruct (Nat.eq_dec b a) as [Hba|Hba].
    + rewrite Hba in *. rewrite nth_error_upd_same by (rewrite length_upd; fold n; lia). congruence.
    + rewrite nth_error_upd_other by auto. rewrite nth_error_upd_same by (fold n; lia). auto.
  - destruct (Nat.eqb_spec i b) as [->|Hib].
    + rewrite nth_error_upd_same by (rewrite length_upd; fold n; lia). auto.
    + rewrite !nth_error_upd_other by auto. auto.
Qed.

Lemma reverse_loop_ok m a c d : matches c d -> 2 * (a + m) <= length (items d) ->
  exists l', sim (reverse_loop E (seq a m) c) (Deque (cap d) l', [], Ret tt) /\
    length l' = length (items d) /\
    forall i, i < length (items d) ->
      nth_error l' i = nth_error (items d)
        (if ((a <=? i) && (i <? a + m)) || ((length (items d) - (a + m) <=? i) && (i <? length (items d) - a))
         then length (items d) - 1 - i else i).
Proof.
  revert a c d; induction m as [|m IH]; intros a c d Hm Hle; cbn [seq reverse_loop].
  - exists (items d). split; [destruct d; apply sim_ret; auto|]. split; auto.
    intros i Hi. f_equal.
    destruct (((a <=? i) && (i <? a + 0)) || ((length (items d) - (a + 0) <=? i) && (i <? length (items d) - a))) eqn:Hb; auto.
    exfalso. apply orb_true_iff in Hb; destruct Hb as [Hb|Hb]; apply andb_true_iff in Hb; destruct Hb as [H1 H2];
      apply Nat.leb_le in H1; apply Nat.ltb_lt in H2; lia.
  - destruct (@reverse_body_ok c d a Hm) as (l1 & (c1 & H1 & Hm1) & Hl1 & Hn1); [lia|].
    destruct (IH (S a) c1 (Deque (cap d) l1) Hm1) as (l2 & (c2 & H2 & Hm2) & Hl2 & Hn2); [simpl; lia|].
    exists l2. split.
    + erewrite bind_Ret_nil by exact H1. exists c2; auto.
    + cbn [items cap] in *. split; [lia|]. intros i Hi.
      rewrite Hn2 by lia. rewrite Hl1.
      set (n := length (items d)) in *.
      match goal with |- nth_error l1 (if ?b then _ else _) = _ => destruct b eqn:Hb1 end.
      * rewrite Hn1 by lia.
        match goal with |- _ = nth_error _ (if ?b then _ else _) => destruct b eqn:Hb2 end.
        -- f_equal. destruct (Nat.eqb_spec (n - 1 - i) a); [exfalso|].
           ++ apply orb_true_iff in Hb1; destruct Hb1 as [Hb|Hb]; apply andb_true_iff in Hb; destruct Hb as [G1 G2];
              apply Nat.leb_le in G1; apply Nat.ltb_lt in G2; lia.
           ++ destruct (Nat.eqb_spec (n - 1 - i) (n - a - 1)); auto. exfalso.
              apply orb_true_iff in Hb1; destruct Hb1 as [Hb|Hb]; apply andb_true_iff in Hb; destruct Hb as [G1 G2];
              apply Nat.leb_le in G1; apply Nat.ltb_lt in G2; lia.
        -- exfalso. apply orb_true_iff in Hb1; apply orb_false_iff in Hb2.
           destruct Hb2 as [F1 F2]. apply andb_false_iff in F1, F2.
           destruct Hb1 as [Hb|Hb]; apply andb_true_iff in Hb; destruct Hb as [G1 G2];
              apply Nat.leb_le in G1; apply Nat.ltb_lt in G2;
              destruct F1 as [F1|F1], F2 as [F2|F2];
              rewrite ?Nat.leb_gt, ?Nat.ltb_ge in F1; rewrite ?Nat.leb_gt, ?Nat.ltb_ge in F2; lia.
      * rewrite Hn1 by lia. f_equal.
        apply orb_false_iff in Hb1. destruct Hb1 as [F1 F2]. apply andb_false_iff in F1, F2.
        destruct (Nat.eqb_spec i a) as [->|Hia].
        -- rewrite Nat.leb_refl, (proj2 (Nat.ltb_lt a (a + S m))) by lia. cbn. lia.
        -- destruct (Nat.eqb_spec i (n - a - 1)) as [->|Hib].
           ++ rewrite (proj2 (Nat.leb_le (n - (a + S m)) _)) by lia.
              rewrite (proj2 (Nat.ltb_lt (n - a - 1) (n - a))) by lia.
              cbn [andb]. rewrite orb_true_r. lia.
           ++ match goal with |- _ = (if ?b then _ else _) => destruct b eqn:Hb2 end; auto.
              exfalso. apply orb_true_iff in Hb2.
              destruct Hb2 as [Hb|Hb]; apply andb_true_iff in Hb; destruct Hb as [G1 G2];
              apply Nat.leb_le in G1; apply Nat.ltb_lt in G2;
              destruct F1 as [F1|F1], F2 as [F2|F2];
              rewrite ?Nat.leb_gt, ?Nat.ltb_ge in F1; rewrite ?Nat.leb_gt, ?Nat.ltb_ge in F2; lia.
Qed.

Lemma nth_error_rev l i : i < length l -> nth_error (rev l) i = nth_error l (length l - 1 - i).
Proof.
  revert i; induction l as [|x l IH] using rev_ind; intros i Hi; [simpl in Hi; lia|].
  rewrite rev_unit, app_length in *; cbn [length] in *.
  destruct i as [|i]; cbn [nth_error].
  - rewrite nth_error_app2 by lia. replace (length l + 1 - 1 - 0 - length l) with 0 by lia. reflexivity.
  - rewrite IH by lia. rewrite nth_error_app1 by lia. f_equal; lia.
Qed.

Lemma reverse_ok c d : matches c d ->
  sim (reverse E c) (Deque (cap d) (rev (items d)), [], Ret tt).
Proof.
  intros Hm; pose proof Hm as [R Hn]; unfold reverse.
  erewrite bind_Ret_nil by (unfold gets; rewrite (rep_len_ok HE R); reflexivity).
  pose proof (Nat.div2_odd (length (items d))) as Hodd.
  set (h := Nat.div2 (length (items d))) in *.
  destruct (@reverse_loop_ok h 0 c d Hm) as (l' & Hs & Hl & Hnth); [lia|].
  replace (rev (items d)) with l'; auto.
  apply nth_error_ext_lt; [now rewrite rev_length|].
  intros i Hi. rewrite Hl in Hi. rewrite Hnth, nth_error_rev by auto. f_equal.
  set (n := length (items d)) in *. cbn [Nat.add].
  destruct (Nat.odd n); cbn [Nat.b2n] in Hodd;
  match goal with |- (if ?b then _ else _) = _ => destruct b eqn:Hb end; auto;
  apply orb_false_iff in Hb; destruct Hb as [F1 F2]; apply andb_false_iff in F1, F2;
  destruct F1 as [F1|F1], F2 as [F2|F2];
  rewrite ?Nat.leb_gt, ?Nat.ltb_ge in F1; rewrite ?Nat.leb_gt, ?Nat.ltb_ge in F2; lia.
Qed.

(** *** one call *)
Lemma mmap_ok {A B} (f : A -> B) (m : M T (cb T) A) c d' dr o :
  sim (m c) (d', dr, o) -> @CBProofs.sim T E B (mmap f m c) (d', dr, omap f o).
Proof.
  intros (c' & H & Hm'); exists c'; split; auto.
  unfold mmap, bind; rewrite H; destruct o; simpl; auto. unfold ret. now rewrite app_nil_r.
Qed.

Theorem step_ok o c d : matches c d -> op_ok E o ->
  sim (cb_step E dp o c) (spec_step dp o d).
Proof.
  intros Hm Hok; pose proof Hm as [R Hn].
  destruct o; cbn [cb_step spec_step op_ok] in *.
  - unfold with_unit. pose proof (push_back_ok dp HE v Hm) as H.
    destruct (s_push_back dp v d) as [[d' dr] o]. now apply mmap_ok.
  - unfold with_unit. pose proof (push_front_ok dp HE v Hm) as H.
    destruct (s_push_front dp v d) as [[d' dr] o]. now apply mmap_ok.
  - destruct (rev (items d)) as [|x r] eqn:Hr; unfold answer.
    + assert (Hi : items d = []) by (rewrite <- (rev_involutive (items d)), Hr; reflexivity).
      destruct (pop_back_nil Hm Hi) as (c' & H & Hm').
      apply (@mmap_ok _ _ (@ROpt T) (pop_back E) c d [] (Ret None)). exists c'; auto.
    + destruct (pop_back_snoc Hm Hr) as (c' & H & Hm').
      apply (@mmap_ok _ _ (@ROpt T) (pop_back E) c _ [] (Ret (Some x))). exists c'; auto.
  - destruct (items d) as [|x r] eqn:Hr; unfold answer.
    + destruct (pop_front_nil Hm Hr) as (c' & H & Hm').
      apply (@mmap_ok _ _ (@ROpt T) (pop_front E dp) c d [] (Ret None)). exists c'; auto.
    + destruct (pop_front_cons Hm Hr) as (c' & H & Hm').
      apply (@mmap_ok _ _ (@ROpt T) (pop_front E dp) c _ [] (Ret (Some x))). exists c'; auto.
  - unfold with_unit. pose proof (clear_ok Hm) as H.
    destruct (s_clear dp d) as [[d' dr] o]. now apply mmap_ok.
  - unfold with_unit. pose proof (resize_ok _ Hm Hok) as H.
    destruct (s_resize dp c0 d) as [[d' dr] o]. now apply mmap_ok.
  - unfold gets; rewrite (rep_len_ok HE R). apply sim_ret; auto.
  - unfold gets; rewrite (rep_capacity_ok R), Hn. cbn [omap obind]. rewrite Nat.sub_succ, Nat.sub_0_r. apply sim_ret; auto.
  - unfold gets; rewrite (rep_is_empty_ok R). apply sim_ret; auto.
  - unfold gets; rewrite (rep_is_full_ok HE R), Hn. cbn [omap obind]. rewrite Nat.sub_succ, Nat.sub_0_r. apply sim_ret; auto.
  - unfold gets; rewrite (rep_index HE i R).
    destruct (nth_error (items d) i); apply sim_ret; auto.
  - pose proof (index_mut_ok i f Hm) as H. destruct (nth_error (items d) i); exact (@mmap_ok _ _ _ _ _ _ _ _ H).
  - unfold gets; rewrite (first_ok Hm). apply sim_ret; auto.
  - pose proof (first_mut_ok f Hm) as H. destruct (items d); exact (@mmap_ok _ _ _ _ _ _ _ _ H).
  - unfold gets; rewrite (last_ok Hm). apply sim_ret; auto.
  - pose proof (last_mut_ok f Hm) as H. destruct (rev (items d)); exact (@mmap_ok _ _ _ _ _ _ _ _ H).
  - unfold gets; rewrite (iter_ok Hm). apply sim_ret; auto.
  - exact (@mmap_ok _ _ _ _ _ _ _ _ (@iter_mut_with_ok g c d Hm Hok)).
  - destruct (linearize_ok Hm) as (c' & H & Hm' & _).
    apply (@mmap_ok _ _ (@RList T) (linearize E) c d [] (Ret (items d))). exists c'; auto.
  - exact (@mmap_ok _ _ _ _ _ _ _ _ (@linearize_with_ok g c d Hm Hok)).
  - pose proof (swap_ok a b Hm) as H. destruct (nth_error (items d) a), (nth_error (items d) b); exact (@mmap_ok _ _ _ _ _ _ _ _ H).
  - exact (@mmap_ok _ _ _ _ _ _ _ _ (reverse_ok Hm)).
  - unfold with_unit. pose proof (extend_ok xs Hm) as H.
    destruct (s_extend dp xs d) as [[d' dr] o]. now apply mmap_ok.
  - exact (@mmap_ok _ _ _ _ _ _ _ _ (drain_take_ok n Hm)).
Qed.

(** *** histories *)
Theorem run_ok ops c d : matches c d -> Forall (op_ok E) ops ->
  matches (fst (cb_run E dp ops c)) (fst (spec_run dp ops d)) /\
  snd (cb_run E dp ops c) = snd (spec_run dp ops d).
Proof.
  unfold cb_run, spec_run.
  revert c d; induction ops as [|o ops IH]; intros c d Hm Hok; cbn [run]; auto.
  inversion Hok as [|? ? Ho Hos]; subst.
  pose proof (step_ok o Hm Ho) as Hs.
  destruct (spec_step dp o d) as [[d1 dr] r].
  destruct Hs as (c1 & -> & Hm1).
  specialize (IH c1 d1 Hm1 Hos).
  destruct r; cbn; auto;
    destruct (run (cb_step E dp) ops c1), (run (spec_step dp) ops d1); cbn in *;
    destruct IH as [? ->]; auto.
Qed.

(** *** construction *)
Lemma new_ok k : k + 1 <= alloc_max E ->
  exists c, new T E k = Ret c /\ matches c (Deque k []).
Proof.
  intros Hk; pose proof HE as [Hau Hidx]. unfold new, with_capacity.
  rewrite uadd_fits by lia; cbn [obind]. unfold vec_with_capacity, vec_push_uninit.
  rewrite (proj2 (Nat.leb_le _ _)) by lia; cbn [obind length Nat.add].
  rewrite (proj2 (Nat.leb_le _ _)) by lia; cbn [obind app].
  eexists; split; [reflexivity|]. split; cbn [items cap].
  - apply (@rep_fresh [] k); simpl; lia.
  - cbn [buffer]. rewrite repeat_length; lia.
Qed.

Lemma from_vec_ok b xs : length xs + 1 <= alloc_max E ->
  exists c, from_vec E b xs = Ret c /\ matches c (Deque (length xs) xs).
Proof.
  intros Hk; unfold from_vec, vec_push_uninit. rewrite map_length.
  rewrite (proj2 (Nat.leb_le _ _)) by lia; cbn [obind].
  eexists; split; [reflexivity|]. split; cbn [items cap].
  - apply (@rep_fresh xs 0); simpl; lia.
  - cbn [buffer]. rewrite app_length, map_length, repeat_length; lia.
Qed.

Lemma from_iter_ok xs : length xs + 1 <= alloc_max E ->
  exists c, from_iter E xs = Ret c /\ matches c (Deque (length xs) xs).
Proof.
  intros Hk. destruct (from_vec_ok false xs Hk) as (c & H & Hm). exists c; split; auto.
  rewrite <- H. unfold from_iter, from_vec, vec_push_uninit. rewrite map_length.
  rewrite (proj2 (Nat.leb_le _ _)) by lia; cbn [obind].
  rewrite app_length, map_length, repeat_length, usub_fits by lia; cbn [obind].
  do 2 f_equal; lia.
Qed.

(** *** append *)
Lemma append_loop_ok fuel c1 c2 d1 d2 : matches c1 d1 -> matches c2 d2 -> length (items d2) < fuel ->
  match s_append dp (items d2) d1 with
  | (d1', rest, dr, o) =>
      exists c1' c2', append_loop E dp fuel (c1, c2) = ((c1', c2'), dr, o) /\
        matches c1' d1' /\ matches c2' (Deque (cap d2) rest)
  end.
Proof.
  revert c1 c2 d1 d2; induction fuel as [|fuel IH]; intros c1 c2 d1 d2 Hm1 Hm2 Hf; [lia|].
  cbn [append_loop].
  destruct (items d2) as [|y ys] eqn:Hi; cbn [s_append].
  - destruct (pop_front_nil Hm2 Hi) as (c2' & Hp & Hm2').
    erewrite bind_Ret_nil by (unfold on_snd; cbn [fst snd]; rewrite Hp; reflexivity).
    exists c1, c2'; split; auto. split; auto. destruct d2; simpl in *; subst; auto.
  - destruct (pop_front_cons Hm2 Hi) as (c2' & Hp & Hm2').
    erewrite bind_Ret_nil by (unfold on_snd; cbn [fst snd]; rewrite Hp; reflexivity).
    pose proof (push_back_ok dp HE y Hm1) as Hpb.
    pose proof (s_push_back_outcome y d1) as Ho.
    destruct (s_push_back dp y d1) as [[d1' dr] o].
    destruct Hpb as (c1' & H1 & Hm1').
    destruct Ho as [->|[->| ->]].
    + erewrite bind_Ret by (unfold on_fst; cbn [fst snd]; rewrite H1; reflexivity).
      specialize (IH c1' c2' d1' (Deque (cap d2) ys) Hm1' Hm2' ltac:(simpl in *; lia)). cbn [items cap] in IH.
      destruct (s_append dp ys d1') as [[[d3 rest] dr3] o3].
      destruct IH as (a & b & -> & ? & ?). exists a, b; auto.
    + unfold bind, on_fst; cbn [fst snd]; rewrite H1. exists c1', c2'; auto.
    + unfold bind, on_fst; cbn [fst snd]; rewrite H1. exists c1', c2'; auto.
Qed.

Lemma append_ok c1 c2 d1 d2 : matches c1 d1 -> matches c2 d2 ->
  match s_append dp (items d2) d1 with
  | (d1', rest, dr, o) =>
      exists c1' c2', append E dp (c1, c2) = ((c1', c2'), dr, o) /\
        matches c1' d1' /\ matches c2' (Deque (cap d2) rest)
  end.
Proof.
  intros Hm1 Hm2; unfold append; cbn [snd]. apply append_loop_ok; auto.
  destruct Hm2 as [R Hn]; pose proof (rep_len R); lia.
Qed.

End Sim.
