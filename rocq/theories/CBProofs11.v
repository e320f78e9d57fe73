(** The slots touched by [resize], and the count for every call. *)
From Verif Require Import Base CBSpec CBSpec3 CBModel CBRun CBProofs CBProofs2 CBModel4 CBProofs9 CBProofs10.
Local Open Scope outcome_scope.
Set Implicit Arguments.

Section Resize.
Variable T : Type.
Variable E : machine.
Variable dp : T -> bool.

(** [resize] up to the replacement of the storage *)
Definition resize_front (cap : nat) : W T nat (cb T) (list (slot T) * nat) :=
  wbind (plain (liftO (uadd E cap 1))) (fun n =>
  wbind (plain (liftO (vec_with_capacity T E n))) (fun _v =>
  wbind (plain (gets (fun c => let* l := len E c in if cap <? l then (let* l' := len E c in usub E l' cap) else Ret 0))) (fun to_be_skipped =>
  wbind (drain_skip_w E dp to_be_skipped) (fun _ =>
  wbind (fun c => drain_all_w E dp (S (length (buffer c))) c) (fun vs =>
  wbind (plain (liftO (let* d := usub E cap (length (map Init vs)) in uadd E d 1))) (fun k =>
  wbind (plain (liftO (vec_push_uninit E (map Init vs) k))) (fun b =>
  plain (ret (b, length (map Init vs)))))))))).

Lemma resize_w_front k c : resize_w E dp k c =
  match resize_front k c with
  | ((c1, d, Ret (b, n)), t) => ((CB b 0 n, d, Ret tt), map inl t ++ map inr (seq 0 (length b)))
  | ((c1, d, Panic), t) => ((c1, d, Panic), map inl t)
  | ((c1, d, Abort), t) => ((c1, d, Abort), map inl t)
  | ((c1, d, UB), t) => ((c1, d, UB), map inl t)
  | ((c1, d, NoFuel), t) => ((c1, d, NoFuel), map inl t)
  end.
Proof.
  unfold resize_w, resize_front, wbind, plain, liftO, gets, ret, modify.
  destruct (uadd E k 1) as [n| | | |]; try reflexivity.
  destruct (vec_with_capacity T E n) as [v| | | |]; try reflexivity.
  match goal with |- context [match ?o with Ret _ => _ | _ => _ end] => destruct o as [s| | | |] end; try reflexivity.
  destruct (drain_skip_w E dp s c) as [[[c1 d1] [[]| | | |]] t1]; cbn [fst snd]; try reflexivity.
  destruct (drain_all_w E dp (S (length (buffer c1))) c1) as [[[c2 d2] [vs| | | |]] t2]; cbn [fst snd];
    try (cbn [app]; now rewrite ?map_app).
  destruct (let* d := usub E k (length (map Init vs)) in uadd E d 1) as [q| | | |];
    try (cbn [app]; now rewrite ?map_app, ?app_nil_r).
  destruct (vec_push_uninit E (map Init vs) q) as [b| | | |]; cbn [app]; rewrite ?map_app, ?app_nil_r, <- ?app_assoc; reflexivity.
Qed.

Lemma co_resize_front k : complete (resize_front k).
Proof.
  unfold resize_front.
  apply co_bind; [apply co_lift|]. intros n. apply co_bind; [apply co_lift|]. intros _.
  apply co_bind. { apply co_gets. intros c c' H. cbn beta. rewrite !(bf_len E H). reflexivity. }
  intros s. apply co_bind; [apply co_drain_skip|]. intros _.
  apply co_bind. { apply co_length. intros m. apply co_drain_all. }
  intros vs. apply co_bind; [apply co_lift|]. intros q. apply co_bind; [apply co_lift|]. intros b. apply co_ret.
Qed.

(** [resize] depends on the fields and on the slots of the old storage it lists. *)
Lemma co_resize k c c' c1 d o t : same_fields c c' -> resize_w E dp k c = ((c1, d, o), t) -> agree (lefts t) c c' ->
  exists c1', resize_w E dp k c' = ((c1', d, o), t) /\ same_fields c1 c1' /\
    (o = Ret tt -> c1' = c1) /\ (o <> Ret tt -> frame (lefts t) c c1 /\ agree (lefts t) c1 c1' /\ frame (lefts t) c' c1').
Proof.
  intros SF X A. rewrite resize_w_front in X. destruct (resize_front k c) as [[[c2 d2] o2] t2] eqn:Q.
  assert (L : lefts t = t2).
  { destruct o2 as [[b n]| | | |]; injection X as <- <- <- <-; rewrite ?lefts_app, lefts_inl, ?lefts_inr, ?app_nil_r; reflexivity. }
  rewrite L in *. destruct (@co_resize_front k c c' _ _ _ _ SF Q A) as (Fr & c2' & Q' & SF' & A' & Fr').
  rewrite resize_w_front, Q'.
  destruct o2 as [[b n]| | | |]; injection X as <- <- <- <-; eexists; (split; [reflexivity|]).
  1: { split; [repeat split|]. split; [auto|]. intros N. congruence. }
  all: split; [exact SF'|]; split; [discriminate|]; auto.
Qed.
End Resize.

Section Count.
Variable T : Type.
Variable E : machine.
Variable dp : T -> bool.
Hypothesis HE : indexable T E.
Notation matches := (@matches T E).
Implicit Types c : cb T.
Implicit Types d : deque T.

Lemma drops_quiet l : existsb dp l = match snd (drop_each dp l) with Ret _ => false | _ => true end.
Proof.
  induction l as [|x l IH]; [reflexivity|]. cbn. destruct (dp x); [reflexivity|]. cbn. rewrite IH.
  destruct (drop_each dp l) as [[? ?] ?]. reflexivity.
Qed.

Lemma cnt_resize k c d : matches c d -> k + 1 <= alloc_max E ->
  cnt_l (resize_w E dp k) c = s_touches dp (OResize k) d /\
  cnt_r (resize_w E dp k) c = if existsb dp (firstn (length (items d) - k) (items d)) then 0 else k + 1.
Proof.
  intros M Hk. pose proof HE as [Hau _]. pose proof M as [R Hn].
  assert (F : cnt (resize_front E dp k) c = s_touches dp (OResize k) d /\
    if existsb dp (firstn (length (items d) - k) (items d))
    then forall c1 (d1 : list T) p, fst (resize_front E dp k c) <> (c1, d1, Ret p)
    else exists c1 (d1 : list T) b n, fst (resize_front E dp k c) = (c1, d1, Ret (b, n)) /\ length b = k + 1).
  { unfold resize_front. rewrite cnt_bind, cnt_plain. cbn [plain fst]. unfold liftO at 1.
    erewrite (@fst_after _ _ _ _ _ _ _ _ _ [] (k + 1)) by (cbn [plain fst]; unfold liftO; rewrite uadd_fits by lia; reflexivity).
    rewrite uadd_fits by lia. rewrite cnt_bind, cnt_plain. cbn [plain fst]. unfold liftO at 1, vec_with_capacity at 1.
    erewrite (@fst_after _ _ _ _ _ _ _ _ c [] []) by (cbn [plain fst]; unfold liftO, vec_with_capacity; rewrite (proj2 (Nat.leb_le _ _)) by lia; reflexivity).
    rewrite (proj2 (Nat.leb_le _ _)) by lia.
    assert (Hskip : (let* q := len E c in if k <? q then (let* q' := len E c in usub E q' k) else Ret 0) = Ret (length (items d) - k)).
    { rewrite (rep_len_ok HE R); cbn [obind]. destruct (Nat.ltb_spec k (length (items d))).
      - rewrite usub_fits by lia; reflexivity.
      - f_equal; lia. }
    rewrite (@cnt_gets _ _ _ _ (fun c => let* q := len E c in if k <? q then (let* q' := len E c in usub E q' k) else Ret 0) _ c _ Hskip), (@fst_gets _ _ _ _ (fun c => let* q := len E c in if k <? q then (let* q' := len E c in usub E q' k) else Ret 0) _ c _ Hskip).
    set (n := length (items d) - k). rewrite cnt_bind, (cnt_drain_skip dp HE n M).
    pose proof (drain_skip_ok dp HE n M) as Hs. pose proof (drop_each_Ret dp (firstn n (items d))) as Hd.
    cbn [s_touches]. fold n. rewrite drops_quiet. unfold s_drop_touches.
    rewrite <- (er_drain_skip E dp n c) in Hs.
    destruct (drop_each dp (firstn n (items d))) as [[r dr] o]. destruct Hs as (c1 & H1 & M1).
    destruct o as [[]| | | |]; try contradiction; cbn [snd].
    - destruct Hd as [-> ->]. cbn [app] in M1. rewrite (@fst_after _ _ _ _ _ _ _ _ _ _ _ H1). rewrite H1.
      assert (Hf : length (skipn n (items d)) < S (length (buffer c1))).
      { destruct M1 as [R1 Hn1]; pose proof (rep_len R1); cbn in *; lia. }
      pose proof (cnt_drain_all dp HE (f := S (length (buffer c1))) M1 Hf) as C2. cbn [items] in C2.
      destruct (drain_all_ok dp HE M1 (fuel:=S (length (buffer c1))) Hf) as (c2 & H2 & M2). cbn [items] in H2.
      rewrite <- (er_drain_all E dp _ c1) in H2.
      assert (Hlen : length (skipn n (items d)) <= k) by (rewrite skipn_length; unfold n; lia).
      split.
      + rewrite ?Nat.add_0_l. match goal with |- _ + ?x = _ => assert (x = length (skipn n (items d))) as -> end.
        * rewrite cnt_bind. change (cnt (fun c : cb T => drain_all_w E dp (S (length (buffer c))) c) c1) with
            (cnt (drain_all_w E dp (S (length (buffer c1)))) c1). rewrite C2, H2. match goal with |- ?a + ?x = ?a => assert (x = 0) as ->; [|lia] end.
          rewrite cnt_bind, cnt_plain. cbn [plain fst]. unfold liftO at 1. match goal with |- 0 + match ?x with _ => _ end = 0 => destruct x as [q| | | |]; try reflexivity end.
          rewrite cnt_bind, cnt_plain. cbn [plain fst]. unfold liftO. destruct (vec_push_uninit _ _ _); reflexivity.
        * rewrite firstn_length, skipn_length. lia.
      + rewrite (@fst_after _ _ _ _ _ (fun c : cb T => drain_all_w E dp (S (length (buffer c))) c) _ c1 _ _ _ H2).
        rewrite map_length. rewrite usub_fits by lia. cbn [obind]. rewrite uadd_fits by lia.
        unfold wbind, plain, liftO, ret, vec_push_uninit. rewrite map_length. rewrite (proj2 (Nat.leb_le _ _)) by lia.
        cbn. do 4 eexists. split; [reflexivity|]. rewrite app_length, map_length, repeat_length. lia.
    - rewrite H1. split; [lia|]. intros c3 d3 p. unfold wbind at 1. destruct (drain_skip_w E dp n c) as [r0 t0]. cbn [fst] in H1. subst r0. discriminate. }
  destruct F as [F1 F2]. unfold cnt in F1. unfold cnt_l, cnt_r. rewrite resize_w_front.
  destruct (resize_front E dp k c) as [[[c1 d1] o1] t1]. cbn [fst snd] in *. rewrite <- F1.
  destruct (existsb dp _).
  - destruct o1 as [p| | | |]; [exfalso; exact (F2 _ _ _ eq_refl)|..]; cbn [snd]; rewrite lefts_inl, rights_inl; auto.
  - destruct F2 as (c2 & d2 & b & n & X & Hb). injection X as -> -> ->. cbn [snd].
    rewrite lefts_app, rights_app, lefts_inl, lefts_inr, rights_inl, rights_inr, app_nil_r. cbn [app]. rewrite seq_length. auto.
Qed.

Theorem cnt_step o c d : matches c d -> op_ok E o -> cnt (cb_step_w E dp o) c = s_touches dp o d.
Proof.
  intros M Ok. destruct o; cbn [cb_step_w s_touches]; rewrite ?cnt_wmap; try reflexivity.
  - exact (cnt_push_back dp HE v M).
  - exact (cnt_push_front dp HE v M).
  - exact (cnt_pop_back M).
  - exact (cnt_pop_front dp M).
  - exact (cnt_clear dp M).
  - exact (proj1 (cnt_resize _ M Ok)).
  - exact (cnt_index HE i M).
  - exact (cnt_index_mut HE i f M).
  - exact (cnt_first HE M).
  - exact (cnt_first_mut HE f M).
  - exact (cnt_last HE M).
  - exact (cnt_last_mut HE f M).
  - exact (sliced_length M).
  - exact (sliced_length M).
  - exact (cnt_linearize HE M).
  - exact (cnt_linearize_with HE g M).
  - exact (cnt_swap HE a b M).
  - exact (cnt_reverse HE M).
  - exact (cnt_extend dp HE xs M).
  - exact (cnt_drain_take dp HE n M).
Qed.
End Count.
