(** Lemmas on zero-sized elements and on [Debug]. *)
From Coq Require Import String Ascii Decimal DecimalNat DecimalString DecimalFacts.
From Verif Require Import Base CBSpec CBSpec2 CBModel CBModel2 CBRun CBProofs CBProofs2 CBProofs3 CBProofs4.
Local Open Scope list_scope.
Set Implicit Arguments.

Section Zst.
Variable T : Type.
Variable E : machine.
Implicit Types c : cb T.

Hypothesis Hvec : alloc_max E <= usize_max E.

(** the same machine, allocating at most one slot more than half of the index
    range *)
Definition half : machine :=
  Machine (usize_max E) (Nat.min (alloc_max E) (S (Nat.div2 (usize_max E)))) (debug_build E).

Lemma half_sized : indexable T half.
Proof.
  unfold indexable, half; cbn [alloc_max usize_max]. split; [lia|left].
  pose proof (Nat.div2_odd (usize_max E)). destruct (Nat.odd (usize_max E)); simpl in *; lia.
Qed.

Lemma half_le k : k + 1 <= alloc_max E -> 2 * k <= usize_max E -> k + 1 <= alloc_max half.
Proof.
  intros H1 H2. unfold half; cbn [alloc_max]. apply Nat.min_glb; auto.
  pose proof (Nat.div2_odd (usize_max E)). destruct (Nat.odd (usize_max E)); simpl in *; lia.
Qed.

Lemma vec_push_half (v : list (slot T)) n r : vec_push_uninit half v n = Ret r -> vec_push_uninit E v n = Ret r.
Proof.
  unfold vec_push_uninit, half; cbn [alloc_max].
  destruct (Nat.leb_spec (length v + n) (Nat.min (alloc_max E) (S (Nat.div2 (usize_max E))))); [|discriminate].
  rewrite (proj2 (Nat.leb_le _ _)) by lia. auto.
Qed.

Lemma vec_cap_half n : n <= alloc_max half -> vec_with_capacity T E n = vec_with_capacity T half n.
Proof.
  intros H. unfold vec_with_capacity, half in *; cbn [alloc_max] in *.
  rewrite !(proj2 (Nat.leb_le _ _)) by lia. auto.
Qed.

Lemma new_half k : k + 1 <= alloc_max half -> new T E k = new T half k.
Proof.
  intros H. destruct (@new_ok T half half_sized k H) as (c & Hc & _). rewrite Hc.
  unfold new, with_capacity in *. change (uadd E k 1) with (uadd half k 1).
  destruct (uadd half k 1) as [n| | | |]; try discriminate; cbn [obind] in *.
  destruct (Nat.leb_spec n (alloc_max half)) as [Hn|Hn].
  - rewrite vec_cap_half by auto. destruct (vec_with_capacity T half n) as [v| | | |]; try discriminate; cbn [obind] in *.
    destruct (vec_push_uninit half v n) as [b| | | |] eqn:Hv; try discriminate; cbn [obind] in *.
    now rewrite (vec_push_half _ _ Hv).
  - unfold vec_with_capacity in Hc. rewrite (proj2 (Nat.leb_gt _ _)) in Hc by lia. discriminate.
Qed.

Lemma bind_ext {S A B} (m m' : M T S A) (f f' : A -> M T S B) s : m s = m' s ->
  (forall a s1 d1, m' s = (s1, d1, Ret a) -> f a s1 = f' a s1) -> bind m f s = bind m' f' s.
Proof.
  intros Hm Hf. unfold bind. rewrite Hm. destruct (m' s) as [[s1 d1] o] eqn:H.
  destruct o as [a| | | |]; auto. rewrite (Hf a s1 d1); auto.
Qed.

Lemma resize_half dp q c (d : deque T) : matches half c d -> q + 1 <= alloc_max half ->
  resize E dp q c = resize half dp q c.
Proof.
  intros Hm Hq. pose proof half_sized as HS. pose proof Hm as [R Hn].
  unfold resize.
  apply bind_ext; [reflexivity|]. intros n s1 d1 H; unfold liftO in H.
  rewrite uadd_fits in H by (destruct HS; lia). inversion H; subst s1 d1 n; clear H.
  apply bind_ext; [unfold liftO; now rewrite vec_cap_half|]. intros v s1 d1 H.
  unfold liftO in H; inversion H; subst s1 d1; clear H.
  apply bind_ext; [reflexivity|]. intros n s1 d1 H. unfold gets in H.
  assert (Hskip : (obind (len half c) (fun x => if q <? x then obind (len half c) (fun x' => usub half x' q) else Ret 0))
     = Ret (length (items d) - q)).
  { rewrite (rep_len_ok HS R); cbn [obind].
    destruct (Nat.ltb_spec q (length (items d))).
    - rewrite usub_fits by lia; reflexivity.
    - f_equal; lia. }
  rewrite Hskip in H; inversion H; subst s1 d1 n; clear H.
  apply bind_ext; [reflexivity|]. intros u s1 d1 H.
  pose proof (drain_skip_ok dp HS (length (items d) - q) Hm) as Hs.
  pose proof (drop_each_Ret dp (firstn (length (items d) - q) (items d))) as Hd.
  destruct (drop_each dp (firstn (length (items d) - q) (items d))) as [[r dr] o].
  destruct Hs as (c1 & H1 & Hm1). rewrite H1 in H; inversion H; subst s1 d1 o; clear H.
  destruct Hd as [-> ->]; simpl in Hm1.
  set (l2 := skipn (length (items d) - q) (items d)) in *.
  apply bind_ext; [reflexivity|]. intros vs s1 d1 H.
  assert (Hf : length l2 < S (length (buffer c1))).
  { destruct Hm1 as [R1 Hn1]; pose proof (rep_len R1); simpl in *; lia. }
  destruct (drain_all_ok dp HS Hm1 (fuel:=S (length (buffer c1))) Hf) as (c2 & H2 & Hm2). cbn [items] in H2.
  rewrite H2 in H; inversion H; subst s1 d1 vs; clear H.
  assert (Hlen : length l2 <= q) by (unfold l2; rewrite skipn_length; lia).
  cbv zeta. rewrite map_length.
  apply bind_ext; [reflexivity|]. intros j s1 d1 H. unfold liftO in H.
  rewrite usub_fits in H by lia; cbn [obind] in H.
  rewrite uadd_fits in H by (destruct HS; lia). inversion H; subst s1 d1 j; clear H.
  apply bind_ext; [|reflexivity]. unfold liftO. f_equal.
  assert (Hv : vec_push_uninit half (map Init l2) (q - length l2 + 1)
     = Ret (map Init l2 ++ repeat Uninit (q - length l2 + 1))).
  { unfold vec_push_uninit. rewrite map_length, (proj2 (Nat.leb_le _ _)) by lia. auto. }
  rewrite Hv. apply vec_push_half; auto.
Qed.

Lemma step_half dp o c (d : deque T) : matches half c d -> op_ok half o ->
  cb_step E dp o c = cb_step half dp o c.
Proof.
  intros Hm Ho. destruct o; try reflexivity.
  cbn [cb_step]. unfold mmap. apply bind_ext; [|reflexivity]. eapply resize_half; eauto.
Qed.

Lemma run_half dp ops c (d : deque T) : matches half c d -> Forall (op_ok half) ops ->
  cb_run E dp ops c = cb_run half dp ops c.
Proof.
  revert c d; induction ops as [|o ops IH]; intros c d Hm Ho; auto.
  inversion Ho as [|? ? Ho1 Ho2]; subst. unfold cb_run; cbn [run]. rewrite (@step_half dp o c d) by auto.
  pose proof (step_ok dp half_sized o Hm Ho1) as Hs.
  destruct (spec_step dp o d) as [[d' dr] r]. destruct Hs as (c' & -> & Hm').
  destruct r as [x| | | |]; auto; fold (cb_run E dp) (cb_run half dp); now rewrite (IH c' d' Hm' Ho2).
Qed.

Lemma op_small_half (o : op T) : op_small E o -> op_ok half o.
Proof. intros [H1 H2]. destruct o; auto. cbn [op_ok] in *. apply half_le; auto. Qed.

Lemma zst_history dp k ops c : k + 1 <= alloc_max E -> 2 * k <= usize_max E ->
  Forall (op_small E) ops -> new T E k = Ret c ->
  snd (cb_run E dp ops c) = snd (spec_run dp ops (Deque k [])) /\
  shows E (fst (cb_run E dp ops c)) (cap (fst (spec_run dp ops (Deque k []))))
     (items (fst (spec_run dp ops (Deque k [])))).
Proof.
  intros Hk H2 Ho Hc. assert (Hk' : k + 1 <= alloc_max half) by (apply half_le; auto). rewrite (@new_half k Hk') in Hc.
  assert (Ho' : Forall (op_ok half) ops) by (eapply Forall_impl; [|exact Ho]; apply op_small_half).
  destruct (@new_ok T half half_sized k Hk') as (c' & Hc' & Hm). rewrite Hc in Hc'; inversion Hc'; subst c'.
  rewrite (run_half dp Hm Ho').
  pose proof (@new_history T half half_sized dp k ops c Hk' Ho' Hc) as [H3 H4]. split; auto.
Qed.

End Zst.

(** ** Beyond half of the index range *)
Lemma run_repeat T St (step : op T -> St -> St * list T * outcome (out T)) o r n (st : nat -> St) s s' rest :
  st 0 = s -> st n = s' -> (forall i, i < n -> step o (st i) = (st (S i), [], Ret r)) ->
  run step (repeat o n ++ rest) s
  = (fst (run step rest s'), repeat ([], Ret r) n ++ snd (run step rest s')).
Proof.
  intros <- <-. revert st; induction n as [|n IH]; intros st H; simpl.
  - now destruct (run step rest (st 0)).
  - rewrite H by lia. rewrite (IH (fun i => st (S i))); [reflexivity|]. intros i Hi; apply H; lia.
Qed.

Section Beyond.
Variable T : Type.
Variable E : machine.
Variable dp : T -> bool.
Variable v : T.
Hypothesis Hdb : debug_build E = true.

Lemma push_step b s e q : e < length b -> length b <= usize_max E -> q <> length b - 1 ->
  len E (CB b s e) = Ret q ->
  cb_step E dp (OPushBack v) (CB b s e)
  = (CB (upd b e (Init v)) s (if e + 1 =? length b then 0 else e + 1), [], Ret RUnit).
Proof.
  intros He Hb Hq Hl.
  assert (Hfull : forall b' : list (slot T), length b' = length b -> is_full E (CB b' s e) = Ret false).
  { intros b' Hb'. unfold is_full. unfold len in *; cbn [buffer start end_] in *. rewrite Hb', Hl; cbn [obind].
    unfold capacity; cbn [buffer]. rewrite Hb', usub_fits by lia; cbn [obind]. f_equal. now apply Nat.eqb_neq. }
  cbn [cb_step]. unfold mmap, push_back, unwinding, bind, gets, ret.
  rewrite (Hfull b eq_refl); cbn [end_]. unfold push_at; cbn [buffer].
  rewrite (proj2 (Nat.ltb_lt _ _) He). unfold set_buffer; cbn [start end_ buffer].
  unfold incr_end, bind, gets, modify, debug_assert. rewrite Hdb, (Hfull _ (length_upd _ _ _)).
  unfold omap; cbn [obind negb end_ buffer]. rewrite uadd_fits by lia. cbn -[Nat.eqb upd]. rewrite length_upd.
  destruct (Nat.eqb_spec (e + 1) (length b)); unfold set_end; cbn [start end_ buffer app]; auto.
Qed.

Lemma pop_step b s e x : s < length b -> length b <= usize_max E -> s <> e -> nth_error b s = Some (Init x) ->
  cb_step E dp OPopFront (CB b s e)
  = (CB (upd b s Uninit) (if s + 1 =? length b then 0 else s + 1) e, [], Ret (ROpt (Some x))).
Proof.
  intros Hs Hb Hse Hx. cbn [cb_step]. unfold mmap, pop_front, bind, gets, ret, is_empty; cbn [start end_].
  rewrite (proj2 (Nat.eqb_neq e s)) by auto. cbn [start]. unfold pop_at; cbn [buffer]. rewrite Hx.
  unfold unwinding, incr_start, bind, gets, modify, debug_assert, is_empty, set_buffer; cbn [start end_ buffer].
  rewrite Hdb, (proj2 (Nat.eqb_neq e s)) by auto. cbn [obind negb]. rewrite uadd_fits by lia. cbn -[Nat.eqb upd]. rewrite ?length_upd.
  destruct (Nat.eqb_spec (s + 1) (length b)); unfold set_start; cbn [start end_ buffer app]; auto.
Qed.

Lemma upd_repeat (x y : slot T) a n : upd (repeat x a ++ y :: n) a x = repeat x (S a) ++ n.
Proof.
  rewrite upd_app_r by (rewrite repeat_length; lia). rewrite repeat_length, Nat.sub_diag. simpl.
  rewrite app_comm_cons, repeat_cons, <- app_assoc. reflexivity.
Qed.

(** the storage after writing [n] further slots round the corner *)
Fixpoint wrap_store (b : list (slot T)) (n : nat) : list (slot T) :=
  match n with 0 => b | S m => upd (wrap_store b m) m (Init v) end.

Lemma wrap_store_len b n : length (wrap_store b n) = length b.
Proof. induction n; simpl; rewrite ?length_upd; auto. Qed.

Lemma beyond_history k c : k + 1 <= usize_max E -> usize_max E < 2 * k -> new T E k = Ret c ->
  let ops := repeat (OPushBack v) k ++ repeat OPopFront k ++ repeat (OPushBack v) (usize_max E - k + 1) in
  snd (cb_run E dp ops c) = snd (spec_run dp ops (Deque k [])) /\
  items (fst (spec_run dp ops (Deque k []))) = repeat v (usize_max E - k + 1) /\
  len E (fst (cb_run E dp ops c)) = Panic.
Proof.
  intros Hk H2 Hc. cbv zeta.
  assert (Hc' : c = CB (repeat Uninit (k + 1)) 0 0).
  { unfold new, with_capacity in Hc. rewrite uadd_fits in Hc by lia; cbn [obind] in Hc.
    unfold vec_with_capacity, vec_push_uninit in Hc. destruct (k + 1 <=? alloc_max E); [|discriminate]. cbn [obind] in Hc.
    cbn [length Nat.add app] in Hc.
    destruct (k + 1 <=? alloc_max E); inversion Hc; reflexivity. }
  subst c; clear Hc. set (m := usize_max E - k + 1).
  unfold cb_run, spec_run.
  set (B := repeat (@Uninit T) k ++ [Uninit]).
  assert (HB : length B = k + 1) by (unfold B; rewrite app_length, repeat_length; reflexivity).
  set (B1 := upd B k (Init v)).
  set (c1 := CB (repeat (Init v) k ++ [Uninit]) 0 k).
  assert (P1 : forall rest, run (cb_step E dp) (repeat (OPushBack v) k ++ rest) (CB (repeat Uninit (k + 1)) 0 0)
    = (fst (run (cb_step E dp) rest c1), repeat ([], Ret RUnit) k ++ snd (run (cb_step E dp) rest c1))).
  { intros rest. apply (@run_repeat T _ (cb_step E dp) (OPushBack v) RUnit k
      (fun i => CB (repeat (Init v) i ++ repeat Uninit (k + 1 - i)) 0 i)).
    - cbn. f_equal. f_equal; lia.
    - unfold c1. replace (k + 1 - k) with 1 by lia. reflexivity.
    - intros i Hi.
      assert (Hlen : length (repeat (Init v) i ++ repeat (@Uninit T) (k + 1 - i)) = k + 1)
        by (rewrite app_length, !repeat_length; lia).
      rewrite (@push_step _ _ _ i); rewrite ?Hlen; try lia.
      + destruct (Nat.eqb_spec (i + 1) (k + 1)); [lia|].
        replace (k + 1 - i) with (S (k + 1 - S i)) by lia. cbn [repeat].
        rewrite upd_repeat. replace (i + 1) with (S i) by lia. reflexivity.
      + unfold len; cbn [start end_]. rewrite (proj2 (Nat.leb_le 0 i)) by lia. rewrite usub_fits by lia. f_equal; lia. }
  assert (P2 : forall rest, run (cb_step E dp) (repeat OPopFront k ++ rest) c1
    = (fst (run (cb_step E dp) rest (CB B k k)), repeat ([], Ret (ROpt (Some v))) k ++ snd (run (cb_step E dp) rest (CB B k k)))).
  { intros rest. apply (@run_repeat T _ (cb_step E dp) OPopFront (ROpt (Some v)) k
      (fun i => CB (repeat Uninit i ++ repeat (Init v) (k - i) ++ [Uninit]) i k)).
    - cbn. unfold c1. now rewrite Nat.sub_0_r.
    - rewrite Nat.sub_diag. reflexivity.
    - intros i Hi.
      assert (Hlen : length (repeat (@Uninit T) i ++ repeat (Init v) (k - i) ++ [Uninit]) = k + 1)
        by (rewrite !app_length, !repeat_length; simpl; lia).
      rewrite (@pop_step _ _ _ v); rewrite ?Hlen; try lia.
      + destruct (Nat.eqb_spec (i + 1) (k + 1)); [lia|].
        replace (k - i) with (S (k - S i)) by lia. cbn [repeat app].
        rewrite upd_repeat. replace (i + 1) with (S i) by lia. reflexivity.
      + rewrite nth_error_app2 by (rewrite repeat_length; lia). rewrite repeat_length, Nat.sub_diag.
        replace (k - i) with (S (k - S i)) by lia. reflexivity. }
  assert (P3 : run (cb_step E dp) (repeat (OPushBack v) m) (CB B k k)
    = (CB (wrap_store B1 (m - 1)) k (m - 1), repeat ([], Ret RUnit) m)).
  { rewrite <- (app_nil_r (repeat (OPushBack v) m)), <- (app_nil_r (repeat ([], Ret RUnit) m)).
    apply (@run_repeat T _ (cb_step E dp) (OPushBack v) RUnit m
      (fun i => match i with 0 => CB B k k | S j => CB (wrap_store B1 j) k j end)
      (CB B k k) (CB (wrap_store B1 (m - 1)) k (m - 1)) []); auto.
    - destruct m eqn:Hm; [unfold m in Hm; lia|]. simpl. now rewrite Nat.sub_0_r.
    - intros [|j] Hi.
      + rewrite (@push_step _ _ _ 0); rewrite ?HB; try lia.
        * rewrite Nat.eqb_refl. reflexivity.
        * unfold len; cbn [start end_]. rewrite Nat.leb_refl, usub_fits by lia. f_equal; lia.
      + assert (Hj : k + 1 + j <= usize_max E) by (unfold m in Hi; lia).
        assert (HB1 : length (wrap_store B1 j) = k + 1) by (rewrite wrap_store_len; unfold B1; rewrite length_upd; auto).
        rewrite (@push_step _ _ _ (j + 1)); rewrite ?HB1; try lia.
        * destruct (Nat.eqb_spec (j + 1) (k + 1)); [lia|]. replace (j + 1) with (S j) by lia. reflexivity.
        * unfold len; cbn [start end_ buffer]. rewrite HB1, (proj2 (Nat.leb_gt _ _)) by lia.
          rewrite uadd_fits by lia; cbn [obind]. rewrite usub_fits by lia. f_equal; lia. }
  (* the bounded sequence *)
  assert (Q1 : forall n l rest, length l + n <= k ->
    run (spec_step dp) (repeat (OPushBack v) n ++ rest) (Deque k l)
    = (fst (run (spec_step dp) rest (Deque k (l ++ repeat v n))),
       repeat ([], Ret RUnit) n ++ snd (run (spec_step dp) rest (Deque k (l ++ repeat v n))))).
  { intros n l rest Hl. apply (@run_repeat T _ (spec_step dp) (OPushBack v) RUnit n (fun i => Deque k (l ++ repeat v i))); auto.
    - simpl. now rewrite app_nil_r.
    - intros i Hi. cbn [spec_step]. unfold s_push_back; cbn [cap items]. destruct k as [|k']; [lia|].
      rewrite app_length, repeat_length, (proj2 (Nat.ltb_lt _ _)) by lia. cbn. rewrite <- app_assoc, <- repeat_cons. reflexivity. }
  assert (Q2 : forall rest,
    run (spec_step dp) (repeat OPopFront k ++ rest) (Deque k (repeat v k))
    = (fst (run (spec_step dp) rest (Deque k [])),
       repeat ([], Ret (ROpt (Some v))) k ++ snd (run (spec_step dp) rest (Deque k [])))).
  { intros rest. apply (@run_repeat T _ (spec_step dp) OPopFront (ROpt (Some v)) k (fun i => Deque k (repeat v (k - i)))); auto.
    - now rewrite Nat.sub_0_r.
    - now rewrite Nat.sub_diag.
    - intros i Hi. replace (k - i) with (S (k - S i)) by lia. reflexivity. }
  rewrite P1, P2, P3, Q1, Q2 by (simpl; lia). cbn [app fst snd].
  rewrite <- (app_nil_r (repeat (OPushBack v) m)), Q1 by (unfold m; simpl; lia).
  cbn [run fst snd app]. rewrite app_nil_r. split; auto. split; auto.
  unfold len; cbn [start end_ buffer]. rewrite wrap_store_len. unfold B1; rewrite length_upd, HB.
  rewrite (proj2 (Nat.leb_gt _ _)) by (unfold m; lia).
  unfold uadd. rewrite (proj2 (Nat.leb_gt _ _)), Hdb by (unfold m; lia). reflexivity.
Qed.
End Beyond.

(** ** Debug *)
Section Dbg.

Local Open Scope string_scope.

Fixpoint digits (s : string) : Prop :=
  match s with EmptyString => True | String a r => a <> ","%char /\ a <> " "%char /\ digits r end.

Lemma digits_nilempty u : digits (NilEmpty.string_of_uint u).
Proof. induction u; simpl; repeat split; auto; discriminate. Qed.

Lemma digits_show n : digits (show_usize n).
Proof.
  unfold show_usize, NilZero.string_of_uint. destruct (Nat.to_uint n); try apply digits_nilempty.
  simpl; repeat split; discriminate.
Qed.

Lemma split_comma a b r s : digits a -> digits b -> a ++ String ","%char r = b ++ String ","%char s -> a = b /\ r = s.
Proof.
  revert b; induction a as [|x a IH]; intros [|y b] Ha Hb H; simpl in *; inversion H; subst; auto; try tauto.
  destruct (IH b) as [-> ->]; tauto.
Qed.

Lemma split_space a b r s : digits a -> digits b -> a ++ String " "%char r = b ++ String " "%char s -> a = b /\ r = s.
Proof.
  revert b; induction a as [|x a IH]; intros [|y b] Ha Hb H; simpl in *; inversion H; subst; auto; try tauto.
  destruct (IH b) as [-> ->]; tauto.
Qed.

Lemma to_uint_nonnil n : Nat.to_uint n <> Nil.
Proof.
  intros H. assert (Hn : n = 0) by (rewrite <- (Unsigned.of_to n), H; reflexivity).
  subst; discriminate.
Qed.

Lemma show_inj n m : show_usize n = show_usize m -> n = m.
Proof.
  unfold show_usize. intros H. apply (f_equal NilZero.uint_of_string) in H.
  rewrite !NilZero.usu in H by apply to_uint_nonnil.
  inversion H as [H1]. now apply Unsigned.to_uint_inj.
Qed.

Lemma app_cancel a b c : a ++ b = a ++ c -> b = c.
Proof. induction a; simpl; intros H; auto. inversion H; auto. Qed.

Lemma debug_inj T (c d : cb T) : debug_fmt c = debug_fmt d ->
  start c = start d /\ end_ c = end_ d /\ length (buffer c) = length (buffer d).
Proof.
  unfold debug_fmt. intros H. apply app_cancel in H.
  apply split_comma in H as [H1 H]; try apply digits_show.
  apply (@app_cancel " end: ") in H.
  apply split_comma in H as [H2 H]; try apply digits_show.
  apply (@app_cancel " buf_len: ") in H.
  apply split_space in H as [H3 _]; try apply digits_show.
  apply show_inj in H1, H2, H3. auto.
Qed.

Lemma debug_shape T E (c d : cb T) k l k' l' : shows E c k l -> shows E d k' l' ->
  indexable T E -> reachable E c -> reachable E d -> debug_fmt c = debug_fmt d -> k = k' /\ length l = length l'.
Proof.
  intros Hs Hs' HE Hr Hr' H. apply debug_inj in H as (H1 & H2 & H3).
  destruct (observers_ok HE Hr Hs) as (_ & Hl & _). destruct (observers_ok HE Hr' Hs') as (_ & Hl' & _).
  destruct Hs as [Hc _], Hs' as [Hc' _]. unfold capacity in Hc, Hc'. rewrite H3 in Hc. split; [congruence|].
  unfold len in Hl, Hl'. rewrite H1, H2, H3 in Hl. congruence.
Qed.
End Dbg.
