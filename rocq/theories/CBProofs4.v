(** Clone, construction limits, machine independence. *)
From Coq Require Import Permutation.
From Verif Require Import Base CBSpec CBSpec2 CBModel CBRun CBProofs CBProofs2 CBProofs3.
Set Implicit Arguments.

Section More.
Variable T : Type.

Lemma clone_slots_uninit cl (b : list (slot T)) : In Uninit b -> clone_slots false cl b = UB.
Proof.
  induction b as [|[|v] b IH]; cbn; intros H; try tauto; auto.
  destruct H as [H|H]; [discriminate|]. now rewrite (IH H).
Qed.

Lemma clone_slots_bitwise cl (b : list (slot T)) : exists b', clone_slots true cl b = Ret b'.
Proof. induction b as [|[|v] b [b' IH]]; cbn; eauto; rewrite IH; cbn; eauto. Qed.

Lemma clone_ub E cl (c : cb T) : indexable T E -> reachable E c -> clone_cb false cl c = UB.
Proof.
  intros HE Hr. destruct (reachable_matches HE Hr) as [d [R Hn]].
  unfold clone_cb. rewrite clone_slots_uninit; auto.
  pose proof (rep_len R) as Hl.
  assert (Hin : In Uninit (rot (start c) (buffer c))).
  { rewrite (rep_rot R). apply in_or_app; right.
    destruct (length (buffer c) - length (items d)) eqn:Hk; [lia|]. cbn; auto. }
  unfold rot in Hin. apply in_app_or in Hin.
  rewrite <- (firstn_skipn (start c) (buffer c)). apply in_or_app; tauto.
Qed.

Lemma clone_bitwise E cl (c : cb T) k l : indexable T E -> reachable E c -> shows E c k l ->
  exists c', clone_cb true cl c = Ret c' /\ reachable E c' /\ shows E c' k (map cl l).
Proof.
  intros HE Hr Hs. destruct (clone_slots_bitwise cl (buffer c)) as [b Hb].
  assert (H : clone_cb true cl c = Ret (CB b (start c) (end_ c))) by (unfold clone_cb; rewrite Hb; auto).
  eexists; split; [exact H|]. split; [eapply r_clone; eauto|].
  exact (matches_shows (clone_matches true cl (shows_matches HE Hr Hs) H)).
Qed.

Lemma new_capacity E k : indexable T E -> k < usize_max E \/ debug_build E = true ->
  new T E k = Panic /\ alloc_max E < k + 1 \/
  k + 1 <= alloc_max E /\ exists c, new T E k = Ret c /\ reachable E c /\ shows E c k [].
Proof.
  intros HE Hk. destruct (Nat.le_gt_cases (k + 1) (alloc_max E)) as [H|H].
  - right. destruct (@new_ok T E HE k H) as (c & Hc & Hm). split; auto.
    exists c; repeat split; try exact (proj1 (matches_shows Hm)); try exact (proj2 (matches_shows Hm)); auto.
    eapply r_new; eauto.
  - left. split; auto. unfold new, with_capacity, uadd.
    destruct (Nat.leb_spec (k + 1) (usize_max E)) as [Hu|Hu]; cbn [obind].
    + unfold vec_with_capacity. rewrite (proj2 (Nat.leb_gt _ _)) by lia. reflexivity.
    + destruct Hk as [Hk|Hk]; [lia|]. rewrite Hk. reflexivity.
Qed.

Lemma new_wraps E v dp : debug_build E = false -> 0 < usize_max E ->
  exists c, new T E (usize_max E) = Ret c /\ capacity E c = Ret (usize_max E) /\
    snd (push_back E dp v c) = Panic.
Proof.
  intros Hd Hu. exists (CB [] 0 0).
  assert (Hadd : uadd E (usize_max E) 1 = Ret 0).
  { unfold uadd. rewrite (proj2 (Nat.leb_gt _ _)), Hd by lia. f_equal; lia. }
  split; [|split].
  - unfold new, with_capacity. rewrite Hadd. reflexivity.
  - unfold capacity, usub; cbn. rewrite Hd. f_equal; lia.
  - unfold push_back, unwinding, bind, gets, is_full, len, capacity, usub; cbn -[Nat.eqb Nat.sub].
    rewrite Hd. cbn -[Nat.eqb Nat.sub].
    replace (S (usize_max E) - 1) with (usize_max E) by lia. change (0 - 0) with 0.
    destruct (Nat.eqb_spec 0 (usize_max E)); [lia|]. reflexivity.
Qed.

Lemma new_fill E k xs (c : cb T) : indexable T E -> k + 1 <= alloc_max E -> new T E k = Ret c -> length xs <= k ->
  exists c' tr, cb_run E (@nopanic T) (map (@OPushBack T) xs) c = (c', tr) /\ shows E c' k xs /\ dropped tr = [].
Proof.
  intros HE Hk H Hl. destruct (push_back_history HE k xs Hk H) as (c' & tr & Hr & Hs & Hd & _).
  exists c', tr; split; auto. rewrite (@lastn_all2 T _ _ Hl) in Hs. split; auto.
  rewrite Hd. now replace (length xs - k) with 0 by lia.
Qed.

Lemma from_iter_full E xs : indexable T E -> length xs + 1 <= alloc_max E ->
  exists c, from_iter E xs = Ret c /\ shows (T:=T) E c (length xs) xs.
Proof. intros HE H; destruct (@from_iter_ok T E xs H) as (c & Hc & Hm). exists c; split; auto. exact (matches_shows Hm). Qed.

Lemma from_vec_full E d xs : indexable T E -> length xs + 1 <= alloc_max E ->
  exists c, from_vec E d xs = Ret c /\ shows (T:=T) E c (length xs) xs.
Proof. intros HE H; destruct (@from_vec_ok T E d xs H) as (c & Hc & Hm). exists c; split; auto. exact (matches_shows Hm). Qed.

Lemma op_ok_machine E1 E2 (o : op T) : alloc_max E1 = alloc_max E2 -> op_ok E1 o -> op_ok E2 o.
Proof. intros H; destruct o; cbn; auto. now rewrite H. Qed.

Lemma machines_agree E1 E2 dp k ops (c1 c2 : cb T) :
  indexable T E1 -> indexable T E2 -> alloc_max E1 = alloc_max E2 -> k + 1 <= alloc_max E1 ->
  Forall (op_ok E1) ops -> new T E1 k = Ret c1 -> new T E2 k = Ret c2 ->
  snd (cb_run E1 dp ops c1) = snd (cb_run E2 dp ops c2) /\
  exists k' l', shows E1 (fst (cb_run E1 dp ops c1)) k' l' /\ shows E2 (fst (cb_run E2 dp ops c2)) k' l'.
Proof.
  intros H1 H2 Ha Hk Ho Hn1 Hn2.
  assert (Ho2 : Forall (op_ok E2) ops) by (eapply Forall_impl; [|exact Ho]; intros; eapply op_ok_machine; eauto).
  assert (Hk2 : k + 1 <= alloc_max E2) by lia.
  destruct (@new_ok T E1 H1 k Hk) as (d1 & G1 & M1). rewrite Hn1 in G1; inversion G1; subst d1.
  destruct (@new_ok T E2 H2 k Hk2) as (d2 & G2 & M2). rewrite Hn2 in G2; inversion G2; subst d2.
  destruct (@history_ok T E1 H1 dp ops c1 k []) as [T1 S1]; auto; [eapply r_new; eauto|exact (matches_shows M1)|].
  destruct (@history_ok T E2 H2 dp ops c2 k []) as [T2 S2]; auto; [eapply r_new; eauto|exact (matches_shows M2)|].
  split; [congruence|]. eauto.
Qed.

(** resize beyond the limits *)
Lemma resize_too_big E dp q (c : cb T) : indexable T E -> alloc_max E < q + 1 ->
  q < usize_max E \/ debug_build E = true -> resize E dp q c = (c, [], Panic).
Proof.
  intros HE Hq Hk. unfold resize, bind, liftO, uadd.
  destruct (Nat.leb_spec (q + 1) (usize_max E)) as [Hu|Hu].
  - unfold vec_with_capacity. rewrite (proj2 (Nat.leb_gt _ _)) by lia. reflexivity.
  - destruct Hk as [Hk|Hk]; [lia|]. rewrite Hk. reflexivity.
Qed.

Lemma resize_wraps E dp (c : cb T) k l : indexable T E -> reachable E c -> shows E c k l -> l <> [] ->
  debug_build E = false -> 2 * alloc_max E < usize_max E ->
  exists c', resize E dp (usize_max E) c = (c', [], Panic) /\ shows E c' k [].
Proof.
  intros HE Hr Hs Hne Hd Hu. pose proof (shows_matches HE Hr Hs) as Hm.
  pose proof Hm as [R Hn]; cbn [items cap] in *. pose proof (rep_len R). pose proof (rep_alloc R).
  destruct (@drain_all_ok T E dp HE (S (length (buffer c))) c _ Hm) as (c' & H1 & Hm'); [cbn; lia|]. cbn [items cap] in *.
  exists c'. split; [|exact (matches_shows Hm')].
  unfold resize.
  assert (Hadd : uadd E (usize_max E) 1 = Ret 0).
  { unfold uadd. rewrite (proj2 (Nat.leb_gt _ _)), Hd by lia. f_equal; lia. }
  erewrite bind_Ret_nil by (unfold liftO; rewrite Hadd; reflexivity).
  erewrite bind_Ret_nil by reflexivity.
  erewrite bind_Ret_nil.
  2:{ unfold gets. rewrite (rep_len_ok HE R); cbn [obind]. rewrite (proj2 (Nat.ltb_ge _ _)) by lia. reflexivity. }
  erewrite bind_Ret_nil by reflexivity.
  erewrite bind_Ret_nil by exact H1. cbv zeta. rewrite map_length.
  assert (length l <> 0) by (destruct l; cbn; congruence).
  erewrite bind_Ret_nil.
  2:{ unfold liftO. rewrite usub_fits by lia; cbn [obind]. rewrite uadd_fits by lia. reflexivity. }
  unfold bind, liftO, vec_push_uninit. rewrite map_length, (proj2 (Nat.leb_gt _ _)) by lia. reflexivity.
Qed.

(** comparisons depend on the contents only *)
Lemma cb_eq_api E1 E2 peq (a b : cb T) ka la kb lb : shows E1 a ka la -> shows E2 b kb lb ->
  exists r, cb_eq peq a b = Ret r /\ (r = true <-> Forall2 (fun x y => peq x y = true) la lb).
Proof.
  intros [_ H1] [_ H2]. unfold cb_eq. rewrite H1, H2; cbn. eexists; split; eauto. apply iter_eq_spec.
Qed.

Lemma cb_eq_slice_api E peq (a : cb T) k l s : shows E a k l ->
  exists r, cb_eq_slice peq a s = Ret r /\ (r = true <-> Forall2 (fun x y => peq x y = true) l s).
Proof.
  intros [_ H1]. unfold cb_eq_slice. rewrite H1; cbn. eexists; split; eauto. apply iter_eq_spec.
Qed.

(** consistent element comparisons give consistent comparisons of buffers *)
Lemma cb_orders_agree E1 E2 peq pc (cmp : T -> T -> comparison) (a b : cb T) ka la kb lb :
  (forall x y, pc x y = Some (cmp x y)) -> (forall x y, peq x y = match cmp x y with Eq => true | _ => false end) ->
  shows E1 a ka la -> shows E2 b kb lb ->
  exists r, cb_cmp cmp a b = Ret r /\ cb_partial_cmp pc a b = Ret (Some r) /\
    cb_eq peq a b = Ret (match r with Eq => true | _ => false end).
Proof.
  intros Hp He [_ H1] [_ H2]. unfold cb_cmp, cb_partial_cmp, cb_eq. rewrite H1, H2; cbn.
  eexists. split; [reflexivity|]. clear H1 H2. revert lb.
  induction la as [|x la IH]; intros [|y lb]; cbn; auto.
  rewrite Hp, He. destruct (cmp x y); auto.
Qed.

Lemma cb_partial_cmp_api E1 E2 pc (a b : cb T) ka la kb lb : shows E1 a ka la -> shows E2 b kb lb ->
  exists r, cb_partial_cmp pc a b = Ret r /\ match r with
  | Some Eq => Forall2 (fun x y => pc x y = Some Eq) la lb
  | Some Lt => lex_before (fun x y => pc x y = Some Eq) (fun x y => pc x y = Some Lt) la lb
  | Some Gt => exists p q u v, la = p ++ u /\ lb = q ++ v /\ Forall2 (fun x y => pc x y = Some Eq) p q /\
      match u, v with _ :: _, [] => True | x :: _, y :: _ => pc x y = Some Gt | _, _ => False end
  | None => exists p q x y u v, la = p ++ x :: u /\ lb = q ++ y :: v /\
      Forall2 (fun x y => pc x y = Some Eq) p q /\ pc x y = None
  end.
Proof.
  intros [_ H1] [_ H2]. unfold cb_partial_cmp. rewrite H1, H2; cbn. eexists; split; eauto. apply iter_pcmp_spec.
Qed.

Section Cmp.
Variable cmp : T -> T -> comparison.
Hypothesis cmp_opp : forall x y, cmp y x = CompOpp (cmp x y).
Hypothesis cmp_eq : forall x y z, cmp x y = Eq -> cmp x z = cmp y z.
Hypothesis cmp_lt : forall x y z, cmp x y = Lt -> cmp y z = Lt -> cmp x z = Lt.

Lemma lex_eqv_sym p q : Forall2 (fun x y : T => cmp x y = Eq) p q -> Forall2 (fun x y => cmp x y = Eq) q p.
Proof. induction 1; constructor; auto. rewrite cmp_opp, H; auto. Qed.

Lemma cb_cmp_api E1 E2 (a b : cb T) ka la kb lb : shows E1 a ka la -> shows E2 b kb lb ->
  exists r, cb_cmp cmp a b = Ret r /\ match r with
  | Eq => Forall2 (fun x y => cmp x y = Eq) la lb
  | Lt => lex_before (fun x y => cmp x y = Eq) (fun x y => cmp x y = Lt) la lb
  | Gt => lex_before (fun x y => cmp x y = Eq) (fun x y => cmp x y = Lt) lb la
  end.
Proof.
  intros [_ H1] [_ H2]. unfold cb_cmp. rewrite H1, H2; cbn. eexists; split; eauto.
  pose proof (iter_pcmp_spec (fun x y => Some (cmp x y)) la lb) as Hp. rewrite iter_cmp_pcmp in Hp.
  assert (HF : forall (p q : list T) (o : comparison),
    Forall2 (fun x y => Some (cmp x y) = Some o) p q -> Forall2 (fun x y => cmp x y = o) p q).
  { induction 1; constructor; auto; congruence. }
  destruct (iter_cmp cmp la lb).
  - apply HF in Hp; auto.
  - destruct Hp as (p & q & u & v & -> & -> & Hf & Hm). exists p, q, u, v; repeat split; auto.
    destruct u, v; auto. congruence.
  - destruct Hp as (p & q & u & v & -> & -> & Hf & Hm). exists q, p, v, u; repeat split; auto using lex_eqv_sym.
    destruct u, v; auto. rewrite cmp_opp. inversion Hm as [Hx]. rewrite Hx. reflexivity.
Qed.

Lemma cb_cmp_total E (a b e : cb T) : indexable T E -> reachable E a -> reachable E b -> reachable E e ->
  exists ab ba be ae, cb_cmp cmp a b = Ret ab /\ cb_cmp cmp b a = Ret ba /\ cb_cmp cmp b e = Ret be /\
    cb_cmp cmp a e = Ret ae /\
    ba = CompOpp ab /\ (ab = Eq -> ae = be) /\ (ab = Lt -> be = Lt -> ae = Lt).
Proof.
  intros HE Ha Hb He.
  destruct (reachable_shows HE Ha) as (? & la & [_ Hla] & _).
  destruct (reachable_shows HE Hb) as (? & lb & [_ Hlb] & _).
  destruct (reachable_shows HE He) as (? & le & [_ Hle] & _).
  unfold cb_cmp. rewrite Hla, Hlb, Hle; cbn.
  do 4 eexists; repeat split; eauto.
  - apply iter_cmp_opp; auto.
  - apply iter_cmp_eq_trans; auto.
  - apply iter_cmp_lt_trans; auto.
Qed.
End Cmp.

Section Apis.
Variable E : machine.
Hypothesis HE : indexable T E.
Implicit Types c : cb T.

Lemma matches_rep c (d : deque T) : matches E c d -> rep E c (items d).
Proof. intros [R _]; exact R. Qed.

Lemma new_history (dp : T -> bool) k ops c : k + 1 <= alloc_max E -> Forall (op_ok E) ops -> new T E k = Ret c ->
  snd (cb_run E dp ops c) = snd (spec_run dp ops (Deque k [])) /\
  shows E (fst (cb_run E dp ops c)) (cap (fst (spec_run dp ops (Deque k []))))
     (items (fst (spec_run dp ops (Deque k [])))).
Proof.
  intros Hk Ho Hn. destruct (@new_ok T E HE k Hk) as (c0 & H0 & Hm).
  rewrite Hn in H0; injection H0 as <-.
  apply history_ok; auto; [eapply r_new; eauto | exact (matches_shows Hm)].
Qed.

Lemma index_mut_api i f c k l : reachable E c -> shows E c k l ->
  match nth_error l i with
  | Some x => exists c', index_mut E i f c = (c', [], Ret tt) /\ shows E c' k (replace i (f x) l)
  | None => index_mut E i f c = (c, [], Panic)
  end.
Proof.
  intros Hr Hs. pose proof (shows_matches HE Hr Hs) as Hm.
  pose proof (index_mut_ok HE i f Hm) as H; cbn [items cap] in H.
  destruct (nth_error l i) as [x|] eqn:Hx; [exact (sim_shows H)|].
  destruct Hm as [R _]. unfold index_mut, bind, gets. rewrite (rep_internal_index HE i R).
  apply nth_error_None in Hx. cbn [items]. rewrite (proj2 (Nat.ltb_ge _ _) Hx). reflexivity.
Qed.

Lemma swap_api a b c k l : reachable E c -> shows E c k l ->
  match nth_error l a, nth_error l b with
  | Some x, Some y => exists c', swap E a b c = (c', [], Ret tt) /\ shows E c' k (replace b x (replace a y l))
  | _, _ => swap E a b c = (c, [], Panic)
  end.
Proof.
  intros Hr Hs. pose proof (shows_matches HE Hr Hs) as Hm.
  pose proof (swap_ok HE a b Hm) as H; cbn [items cap] in H.
  destruct Hm as [R _]; cbn [items] in R.
  destruct (nth_error l a) as [x|] eqn:Hx.
  - assert (Ha : a < length l) by (apply nth_error_Some; congruence).
    destruct (nth_error l b) as [y|] eqn:Hy; [exact (sim_shows H)|].
    unfold swap, bind, gets. rewrite (rep_internal_index HE a R), (rep_internal_index HE b R).
    apply nth_error_None in Hy. rewrite (proj2 (Nat.ltb_lt _ _) Ha), (proj2 (Nat.ltb_ge _ _) Hy). reflexivity.
  - unfold swap, bind, gets. rewrite (rep_internal_index HE a R).
    apply nth_error_None in Hx. rewrite (proj2 (Nat.ltb_ge _ _) Hx). reflexivity.
Qed.

Lemma first_last_mut_api f c k l : reachable E c -> shows E c k l ->
  (exists c', first_mut E f c = (c', [], Ret (match l with [] => false | _ => true end)) /\
     shows E c' k (match l with [] => [] | x :: t => f x :: t end)) /\
  (exists c', last_mut E f c = (c', [], Ret (match l with [] => false | _ => true end)) /\
     shows E c' k (match rev l with [] => [] | x :: t => rev t ++ [f x] end)).
Proof.
  intros Hr Hs. pose proof (shows_matches HE Hr Hs) as Hm.
  pose proof (first_mut_ok HE f Hm) as H1; pose proof (last_mut_ok HE f Hm) as H2; cbn [items cap] in *.
  split.
  - destruct l; exact (sim_shows H1).
  - destruct (rev l) eqn:Hl.
    + assert (l = []) by (rewrite <- (rev_involutive l), Hl; auto). subst. exact (sim_shows H2).
    + destruct l; [discriminate|]. exact (sim_shows H2).
Qed.

Lemma after_panics dp dp' ops ops' c : reachable E c -> Forall (op_ok E) ops -> Forall (op_ok E) ops' ->
  exists k l, shows E (fst (cb_run E dp ops c)) k l /\ length l <= k /\
    snd (cb_run E dp' ops' (fst (cb_run E dp ops c))) = snd (spec_run dp' ops' (Deque k l)).
Proof.
  intros Hr Ho Ho'. pose proof (run_reachable dp Hr Ho) as Hr'.
  destruct (reachable_shows HE Hr') as (k & l & Hs & Hl). exists k, l. split; auto. split; auto.
  exact (proj1 (history_ok HE dp' Hr' Hs Ho')).
Qed.

Lemma push_back_crash dp v x t c k : reachable E c -> shows E c k (x :: t) -> length (x :: t) = k -> dp x = true ->
  exists c', push_back E dp v c = (c', [x; v], if dp v then Abort else Panic) /\ shows E c' k t.
Proof.
  intros Hr Hs Hk Hx. pose proof (push_back_ok dp HE v (shows_matches HE Hr Hs)) as H.
  unfold s_push_back in H; cbn [items cap] in H. subst k. cbn [length] in *.
  rewrite Nat.ltb_irrefl, Hx in H. unfold unwind in H. cbn [existsb] in H. rewrite orb_false_r in H.
  exact (sim_shows H).
Qed.

Lemma drop_each_at dp (a : list T) x b : dp x = true -> existsb dp a = false ->
  drop_each dp (a ++ x :: b) = (b, a ++ [x], Panic).
Proof.
  intros Hx; induction a as [|y a IH]; cbn; intros Ha; [now rewrite Hx|].
  apply orb_false_iff in Ha; destruct Ha as [-> Ha]. now rewrite (IH Ha).
Qed.

Lemma existsb_rev dp (b : list T) : existsb dp (rev b) = existsb dp b.
Proof.
  induction b as [|y b IH]; cbn; auto. rewrite existsb_app, IH; cbn.
  rewrite orb_false_r. apply orb_comm.
Qed.

Lemma clear_crash dp a x b c k : reachable E c -> shows E c k (a ++ x :: b) -> dp x = true -> existsb dp b = false ->
  exists c', clear E dp c = (c', rev b ++ [x], Panic) /\ shows E c' k a.
Proof.
  intros Hr Hs Hx Hb. pose proof (clear_ok dp (shows_matches HE Hr Hs)) as H.
  unfold s_clear in H; cbn [items cap] in H. rewrite rev_app_distr in H. cbn [rev] in H.
  rewrite <- app_assoc in H; cbn [app] in H.
  rewrite drop_each_at in H by (auto; rewrite existsb_rev; auto). rewrite rev_involutive in H. exact (sim_shows H).
Qed.

Lemma resize_crash dp a x b c k q : reachable E c -> shows E c k (a ++ x :: b) -> q + 1 <= alloc_max E ->
  length a < length (a ++ x :: b) - q -> dp x = true -> existsb dp a = false ->
  exists c', resize E dp q c = (c', a ++ [x], Panic) /\ shows E c' k b.
Proof.
  intros Hr Hs Hq Hla Hx Ha. pose proof (resize_ok dp HE q (shows_matches HE Hr Hs) Hq) as H.
  unfold s_resize in H; cbn [items cap] in H.
  set (m := length (a ++ x :: b) - q) in *.
  assert (Hf : firstn m (a ++ x :: b) = a ++ x :: firstn (m - S (length a)) b).
  { rewrite firstn_app, firstn_all2 by lia. f_equal.
    replace (m - length a) with (S (m - S (length a))) by lia. reflexivity. }
  assert (Hsk : skipn m (a ++ x :: b) = skipn (m - S (length a)) b).
  { rewrite skipn_app, skipn_all2 by lia. replace (m - length a) with (S (m - S (length a))) by lia. reflexivity. }
  rewrite Hf, Hsk, drop_each_at in H by auto. rewrite firstn_skipn in H. exact (sim_shows H).
Qed.
End Apis.

End More.
