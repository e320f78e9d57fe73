(** Blocks of heap memory, continued: calls on an existing buffer. *)
From Coq Require Import Permutation.
From Verif Require Import Base CBSpec CBModel CBModel2 CBRun CBProofs CBProofs2 CBProofs3 CBSpec6 CBModel7 CBRun4 CBProofs14.
Local Open Scope outcome_scope.
Set Implicit Arguments.

(** ** Calls that keep the size of the storage *)
Definition len_kept {T A} (m : M T (cb T) A) : Prop := forall c, length (buffer (fst (fst (m c)))) = length (buffer c).

Lemma kept_bind {T A B} (m : M T (cb T) A) (f : A -> M T (cb T) B) : len_kept m -> (forall a, len_kept (f a)) -> len_kept (bind m f).
Proof.
  intros X Y c. specialize (X c). unfold bind. destruct (m c) as [[c1 d] [a| | | |]]; cbn in *; auto.
  specialize (Y a c1). destruct (f a c1) as [[c2 d2] o]. cbn in *. congruence.
Qed.

Lemma kept_unwinding {T A} (dp : T -> bool) v (m : M T (cb T) A) : len_kept m -> len_kept (unwinding dp v m).
Proof. intros X c. specialize (X c). unfold unwinding. destruct (m c) as [[c1 d] [a| | | |]]; cbn in *; auto. Qed.

Lemma upd_len {A} (l : list A) : forall i x, length (upd l i x) = length l.
Proof. induction l as [|h t IH]; intros [|i] x; cbn; auto. Qed.

Lemma kept_pop_front {T} E (dp : T -> bool) : len_kept (pop_front E dp).
Proof.
  unfold pop_front. apply kept_bind; [intros c; reflexivity|]. intros [|]; [intros c; reflexivity|].
  apply kept_bind; [intros c; reflexivity|]. intros i. apply kept_bind.
  { intros c. unfold pop_at. destruct (nth_error (buffer c) i) as [[|v]|]; cbn; auto. apply upd_len. }
  intros v. apply kept_bind; [|intros a c; reflexivity]. apply kept_unwinding. unfold incr_start.
  apply kept_bind; [intros c; reflexivity|]. intros _. apply kept_bind; [intros c; reflexivity|]. intros n.
  apply kept_bind; [intros c; reflexivity|]. intros _ c. cbn. destruct (_ =? _); reflexivity.
Qed.

Lemma kept_pop_back {T} E : len_kept (@pop_back T E).
Proof.
  unfold pop_back. apply kept_bind; [intros c; reflexivity|]. intros [|]; [intros c; reflexivity|].
  apply kept_bind.
  { unfold decr_end. apply kept_bind; [intros c; reflexivity|]. intros _. apply kept_bind; [intros c; reflexivity|intros a c; reflexivity]. }
  intros _. apply kept_bind; [intros c; reflexivity|]. intros i. apply kept_bind; [|intros a c; reflexivity].
  intros c. unfold pop_at. destruct (nth_error (buffer c) i) as [[|v]|]; cbn; auto. apply upd_len.
Qed.

Lemma kept_drain_skip {T} E (dp : T -> bool) n : len_kept (drain_skip E dp n).
Proof.
  induction n as [|n IH]; cbn [drain_skip]; [intros c; reflexivity|]. apply kept_bind; [apply kept_pop_front|].
  intros [v|]; [|intros c; reflexivity]. apply kept_bind; [intros c; reflexivity|]. intros _. exact IH.
Qed.

Lemma kept_drain_take {T} E (dp : T -> bool) n : len_kept (drain_take E dp n).
Proof.
  induction n as [|n IH]; cbn [drain_take]; [intros c; reflexivity|]. apply kept_bind; [apply kept_pop_front|].
  intros [v|]; [|intros c; reflexivity]. apply kept_bind; [exact IH|]. intros vs c; reflexivity.
Qed.

Lemma kept_clear {T} E (dp : T -> bool) : len_kept (clear E dp).
Proof.
  intros c. unfold clear. generalize (S (length (buffer c))) as f. intros f. revert c. change (len_kept (clear_loop E dp f)).
  induction f as [|f IH]; cbn [clear_loop]; [intros c; reflexivity|]. apply kept_bind; [apply kept_pop_back|].
  intros [v|]; [|intros c; reflexivity]. apply kept_bind; [intros c; reflexivity|]. intros _. exact IH.
Qed.

Section Proofs.
Variable T : Type.
Variable E : machine.
Variable dp : T -> bool.
Variable sized : bool.
Variable grow : nat -> nat.
Variable place : list event -> nat.
Hypothesis HA : allocator place.
Hypothesis HG : growing (alloc_max E) grow.

Notation vb v := (blk (v_at v) (v_cap v)).
Notation vec_ok := (@vec_ok T E sized).
Notation has_block := (@has_block T sized).

(** the buffer, its block, and what is in use *)
Definition kept (I : Prop) bs (s1 : list event * (cb T * option nat)) (c' : cb T) : Prop :=
  fst (snd s1) = c' /\ has_block (snd s1) /\ length (buffer c') <= alloc_max E /\ (I -> in_use (fst s1) (owns (snd s1) ++ bs)).

Lemma owns_len (c c' : cb T) a : length (buffer c') = length (buffer c) -> owns (c', a) = owns (c, a).
Proof. unfold owns. cbn. now intros ->. Qed.

Lemma has_len (c c' : cb T) a : length (buffer c') = length (buffer c) -> has_block (c, a) -> has_block (c', a).
Proof. unfold has_block. cbn. now intros ->. Qed.

Lemma held_rel A (v : vec T) (m : M T (cb T) A) h c (a : option nat) (I : Prop) B : len_kept m -> (I -> in_use h (vb v ++ B)) ->
  rel (fun s1 x c1 y => x = y /\ s1 = (h, (c1, a)) /\ length (buffer c1) = length (buffer c) /\ exists d, m c = (c1, d, Ret y))
      (fun s1 c1 => exists h1, s1 = (h1, (c1, a)) /\ length (buffer c1) = length (buffer c) /\ (I -> in_use h1 B))
      (releasing v (quiet (on_fst m)) (h, (c, a))) (m c).
Proof.
  intros L U. specialize (L c). unfold releasing, quiet, on_snd, on_fst. cbn [fst snd]. destruct (m c) as [[c1 d] [x| | | |]]; cbn in *; eauto 8.
  destruct (@give_eq T _ (v_at v) (v_cap v) (h, (c1, a)) I B U) as (h1 & -> & U1). cbn. eauto.
Qed.

Lemma extend_vec_rel fuel : forall (v : vec T) h c (a : option nat) (I : Prop) B, vec_ok v -> length (v_items v) + fuel <= alloc_max E + 1 ->
  snd (drain_all E dp fuel c) <> NoFuel ->
  (I -> in_use h (vb v ++ B)) ->
  rel (fun s1 v1 c1 vs => exists h1, s1 = (h1, (c1, a)) /\ length (buffer c1) = length (buffer c) /\ vec_ok v1 /\
         v_items v1 = v_items v ++ map Init vs /\ (I -> in_use h1 (vb v1 ++ B)))
      (fun s1 c1 => exists h1, s1 = (h1, (c1, a)) /\ length (buffer c1) = length (buffer c) /\ (I -> in_use h1 B))
      (extend_vec_h E dp sized grow place fuel v (h, (c, a))) (drain_all E dp fuel c).
Proof.
  induction fuel as [|f IH]; intros v h c a I B K L NF U; cbn [extend_vec_h drain_all]; [cbn; auto|].
  eapply rel_bind.
  { eapply rel_weaken; [exact (@held_rel _ v (pop_front E dp) h c a I B (kept_pop_front E dp) U)| |].
    - intros s x c1 y P. exact P.
    - intros s c1 P. exact P. }
  intros s1 x c1 y (<- & -> & L1 & d1 & Q1). destruct x as [x|].
  2:{ cbn. split; [reflexivity|]. exists h. rewrite app_nil_r. auto. }
  pose proof (@push_rel T E sized grow place HA HG _ (cb T) v (Init x) (h, (c1, a)) c1 I B K U) as P.
  cbn [drain_all] in NF. unfold bind in NF at 1. rewrite Q1 in NF.
  assert (f <> 0) by (intros ->; apply NF; reflexivity).
  assert (NF1 : snd (drain_all E dp f c1) <> NoFuel).
  { intros X. apply NF. unfold bind. destruct (drain_all E dp f c1) as [[c3 d3] o3]. cbn in X. subst o3. reflexivity. }
  rewrite (proj2 (Nat.leb_le (length (v_items v) + 1) (alloc_max E))) in P by lia.
  unfold bind. destruct (vec_push_h E sized grow place v (Init x) (h, (c1, a))) as [[s2 d2] o2]. cbn in P. destruct P as [-> P].
  destruct o2 as [v2| | | |]; try contradiction. destruct P as (P1 & _ & K2 & I2 & U2).
  destruct s2 as [h2 s2]. cbn in P1. subst s2.
  specialize (IH v2 h2 c1 a I B K2). rewrite I2, app_length in IH. cbn [length] in IH. specialize (IH ltac:(lia) NF1 U2).
  destruct (extend_vec_h E dp sized grow place f v2 (h2, (c1, a))) as [[s3 d3] o3]. destruct (drain_all E dp f c1) as [[c3 d3'] o3'].
  cbn in IH. destruct IH as [-> IH]. destruct o3, o3'; try contradiction; cbn; rewrite ?app_nil_r; auto.
  - split; [reflexivity|]. destruct IH as (h3 & -> & L3 & K3 & I3 & U3). exists h3. rewrite I3, <- app_assoc. repeat split; auto; try congruence; apply K3.
  - split; [reflexivity|]. destruct IH as (h3 & -> & L3 & U3). exists h3. repeat split; auto; congruence.
Qed.

Lemma lift_held_rel A (v : vec T) (o : outcome A) h (c : cb T) (a : option nat) (I : Prop) B : (I -> in_use h (vb v ++ B)) ->
  rel (fun s1 x c1 y => x = y /\ s1 = (h, (c, a)) /\ c1 = c)
      (fun s1 c1 => exists h1, s1 = (h1, (c, a)) /\ c1 = c /\ (I -> in_use h1 B))
      (releasing v (liftO o) (h, (c, a))) (liftO (T:=T) o c).
Proof.
  intros U. unfold releasing, liftO. destruct o; cbn; auto.
  destruct (@give_eq T _ (v_at v) (v_cap v) (h, (c, a)) I B U) as (h1 & -> & U1). cbn. eauto.
Qed.

Lemma resize_rel k h c (a : option nat) (I : Prop) bs : length (buffer c) <= alloc_max E -> has_block (c, a) ->
  (forall n c1 d1, drain_skip E dp n c = (c1, d1, Ret tt) -> snd (drain_all E dp (S (length (buffer c1))) c1) <> NoFuel) ->
  (I -> in_use h (owns (c, a) ++ bs)) ->
  rel (fun s1 _ c' _ => kept I bs s1 c') (fun s1 c' => kept I bs s1 c' /\ snd (snd s1) = a /\ length (buffer c') = length (buffer c))
      (resize_h E dp sized grow place k (h, (c, a))) (resize E dp k c).
Proof.
  intros LA HB NF U.
  assert (BACK : forall (s1 : list event * (cb T * option nat)) c1,
    (exists h1, s1 = (h1, (c1, a)) /\ length (buffer c1) = length (buffer c) /\ (I -> in_use h1 (owns (c, a) ++ bs))) ->
    kept I bs s1 c1 /\ snd (snd s1) = a /\ length (buffer c1) = length (buffer c)).
  { intros s1 c1 (h1 & -> & L1 & U1). unfold kept. cbn [fst snd]. rewrite (@owns_len c c1 a L1). repeat split; auto; try lia; apply (@has_len c c1 a L1 HB). }
  unfold resize_h, resize.
  destruct (uadd E k 1) as [n| | | |].
  2:{ cbn. split; [reflexivity|]. apply BACK. eauto. }
  2-4: cbn; auto.
  rewrite (@bind_nil _ _ _ _ (liftO (Ret n)) _ (h, (c, a)) (h, (c, a)) n eq_refl).
  rewrite (@bind_nil _ _ _ _ (liftO (Ret n)) _ c c n eq_refl).
  pose proof (@room_eq T E sized place HA _ n (h, (c, a)) I _ U) as R.
  unfold vec_with_capacity. destruct (Nat.leb_spec n (alloc_max E)) as [L|L].
  2:{ rewrite (bind_panic _ R). cbn. split; [reflexivity|]. apply BACK. eauto. }
  destruct R as (h1 & b & R & K & U1). rewrite (bind_nil _ R). cbn [fst snd].
  rewrite (@bind_nil _ _ _ _ (liftO (Ret [])) _ c c [] eq_refl).
  eapply rel_bind.
  { eapply rel_weaken; [apply (fun m L => @held_rel nat (Vec [] b n) m h1 c a I _ L U1); intros ?; reflexivity|intros s x c1 y P; exact P|intros s c1 P; now apply BACK]. }
  intros s1 x c1 y (<- & -> & L1 & d1 & Q1). injection Q1 as Qc _ _. subst c1. eapply rel_bind.
  { eapply rel_weaken; [exact (@held_rel unit (Vec [] b n) _ h1 c a I _ (kept_drain_skip E dp x) U1)|intros s z c2 y P; exact P|].
    intros s c2 (h2 & -> & L2 & U2). apply BACK. exists h2. repeat split; auto; congruence. }
  intros s2 z c2 [] (_ & -> & L2 & d2 & Q2). eapply rel_bind.
  { eapply rel_weaken; [refine (@extend_vec_rel (S (length (buffer c2))) (Vec [] b n) h1 c2 a I _ K _ (NF _ _ _ Q2) U1); cbn [v_items length Nat.add]; rewrite L2; lia|intros s v3 c3 vs P; exact P|].
    intros s c3 (h3 & -> & L3 & U3). apply BACK. exists h3. repeat split; auto; congruence. }
  intros s3 v3 c3 vs (h3 & -> & L3 & K3 & I3 & U3). cbn [v_items app] in I3. cbv zeta. rewrite I3.
  eapply rel_bind.
  { eapply rel_weaken; [exact (@lift_held_rel nat v3 _ h3 c3 a I _ U3)|intros s x2 c4 y2 P; exact P|].
    intros s c4 (h4 & -> & -> & U4). apply BACK. exists h4. repeat split; auto; congruence. }
  intros s4 m c4 y2 (<- & -> & ->). eapply rel_bind.
  { rewrite <- I3. eapply rel_weaken; [exact (@fill_rel T E sized grow place HA HG _ (cb T) m v3 (h3, (c3, a)) c3 I _ K3 U3)|intros s v5 c5 y3 P; exact P|].
    intros [h5 s5] c5 (P1 & -> & U5). cbn in P1. subst s5. apply BACK. exists h5. repeat split; auto; congruence. }
  intros [h5 s5] v5 c5 b5 (P1 & -> & K5 & <- & U5). cbn in P1, U5. subst s5.
  destruct (@shrink_eq T E sized place HA _ v5 (h5, (c3, a)) I _ K5 U5) as (h6 & v6 & Q6 & K6 & I6 & C6 & U6). rewrite (bind_nil _ Q6).
  destruct (@shrink_eq T E sized place HA _ v6 (h6, (c3, a)) I _ K6 U6) as (h7 & v7 & Q7 & K7 & I7 & C7 & U7). cbn [snd] in *. rewrite (bind_nil _ Q7).
  cbn [snd fst].
  assert (U8 : I -> in_use h7 (blk a (length (buffer c3)) ++ (vb v7 ++ bs))).
  { intros i. apply (in_use_perm (U7 i)). unfold owns. cbn [fst snd]. replace (length (buffer c3)) with (length (buffer c)) by congruence.
    rewrite !app_assoc. apply Permutation_app_tail, Permutation_app_comm. }
  destruct (@give_eq T _ a (length (buffer c3)) (h7, (c3, a)) I _ U8) as (h8 & Q8 & U9).
  rewrite (@bind_nil _ _ _ _ (fun s => give T (snd (snd s)) (length (buffer (fst (snd s)))) s) _ (h7, (c3, a)) (h8, (c3, a)) tt Q8).
  cbn. split; [reflexivity|]. unfold kept. cbn [fst snd]. rewrite I7, I6. rewrite I6 in C7. destruct K7 as (L7 & M7 & N7).
  unfold has_block, owns. cbn [fst snd buffer]. rewrite I7 in *. rewrite I6 in *. rewrite C7 in *.
  split; [reflexivity|]. split; [exact N7|]. split; [exact M7|exact U9].
Qed.

Lemma drop_rel h c (a : option nat) (I : Prop) bs : (I -> in_use h (owns (c, a) ++ bs)) ->
  rel (fun s1 _ c' _ => fst (snd s1) = c' /\ (I -> in_use (fst s1) bs)) (fun s1 c' => fst (snd s1) = c' /\ (I -> in_use (fst s1) bs))
      (drop_h E dp (h, (c, a))) (drop_cb E dp c).
Proof.
  intros U. pose proof (kept_clear E dp c) as L. unfold drop_h, quiet, on_snd, on_fst, drop_cb. cbn [fst snd].
  destruct (clear E dp c) as [[c1 d] [[]| | | |]]; cbn in L; cbn [rel]; auto; cbn [fst snd]; rewrite L.
  all: destruct (@give_eq T _ a (length (buffer c)) (h, (c1, a)) I bs U) as (h1 & -> & U1); cbn; auto.
Qed.

Lemma into_iter_rel n h c (a : option nat) (I : Prop) bs : (I -> in_use h (owns (c, a) ++ bs)) ->
  (exists c' dr vs, drain_take E dp n c = (c', dr, Ret vs)) ->
  rel (fun s1 vs c' vs' => vs = vs' /\ fst (snd s1) = c' /\ (I -> in_use (fst s1) bs)) (fun s1 c' => fst (snd s1) = c' /\ (I -> in_use (fst s1) bs))
      (into_iter_take_h E dp n (h, (c, a))) (into_iter_take E dp n c).
Proof.
  intros U (c1 & d & vs & Q). pose proof (kept_drain_take E dp n c) as L. unfold into_iter_take_h, into_iter_take, quiet, on_snd, on_fst. cbn [fst snd].
  unfold bind at 1. rewrite Q in *. cbn in L.
  pose proof (@drop_rel h c1 a I bs) as D. rewrite (@owns_len c c1 a L) in D. specialize (D U). unfold bind.
  destruct (drop_h E dp (h, (c1, a))) as [[s2 d2] o2]. destruct (drop_cb E dp c1) as [[c2 d2'] o2']. cbn in D. destruct D as [-> D].
  destruct o2, o2'; try contradiction; cbn; rewrite ?app_nil_r; auto.
Qed.

Lemma clone_slots_total bw (f : T -> T) l : clone_slots_h bw (fun x => Some (f x)) l = clone_slots bw f l.
Proof. induction l as [|[|v] t IH]; cbn; [reflexivity|rewrite IH; reflexivity|rewrite IH; reflexivity]. Qed.

Lemma clone_slots_len bw cl : forall (l : list (slot T)) l', clone_slots_h bw cl l = Ret l' -> length l' = length l.
Proof.
  induction l as [|[|v] t IH]; intros l'; cbn; [intros X; now inversion X| |].
  - destruct bw; [|discriminate]. destruct (clone_slots_h _ cl t) as [t'| | | |]; cbn; try discriminate. intros X; injection X as <-. cbn. f_equal. now apply IH.
  - destruct (cl v); [|discriminate]. destruct (clone_slots_h _ cl t) as [t'| | | |]; cbn; try discriminate. intros X; injection X as <-. cbn. f_equal. now apply IH.
Qed.

Lemma clone_rel S bw (cl : T -> option T) c (s : list event * S) (I : Prop) bs : length (buffer c) <= alloc_max E -> (I -> in_use (fst s) bs) ->
  rel (fun s1 p _ c' => snd s1 = snd s /\ fst p = c' /\ has_block p /\ length (buffer c') = length (buffer c) /\ (I -> in_use (fst s1) (owns p ++ bs)))
      (fun s1 _ => snd s1 = snd s /\ (I -> in_use (fst s1) bs))
      (clone_h E sized place bw cl c s)
      (tt, [], let* b := clone_slots_h bw cl (buffer c) in Ret (CB b (start c) (end_ c))).
Proof.
  intros L U. unfold clone_h. pose proof (@room_eq T E sized place HA S (length (buffer c)) s I bs U) as R.
  rewrite (proj2 (Nat.leb_le _ _) L) in R. destruct R as (h & a & R & (_ & _ & N) & U1). rewrite (bind_nil _ R).
  pose proof (@clone_slots_len bw cl (buffer c)) as CL.
  destruct (clone_slots_h bw cl (buffer c)) as [b| | | |]; cbn [obind].
  - specialize (CL b eq_refl). cbn. split; [reflexivity|]. unfold has_block, owns. cbn [fst snd buffer] in *. rewrite CL.
    repeat split; auto; apply N.
  - unfold bind, releasing, liftO. cbn [v_at v_cap]. destruct (@give_eq T S a (length (buffer c)) (h, snd s) I bs U1) as (h1 & -> & U2). cbn. auto.
  - cbn; auto.
  - cbn; auto.
  - cbn; auto.
Qed.

Lemma clone_from_rel bw (cl : T -> option T) src h c (a : option nat) (I : Prop) bs : length (buffer src) <= alloc_max E -> (I -> in_use h (owns (c, a) ++ bs)) ->
  match clone_slots_h bw cl (buffer src) with
  | Ret b => rel (fun s1 _ _ _ => fst (snd s1) = CB b (start src) (end_ src) /\ has_block (snd s1) /\ (I -> in_use (fst s1) (owns (snd s1) ++ bs)))
                 (fun s1 _ => fst (snd s1) = CB b (start src) (end_ src) /\ has_block (snd s1) /\ (I -> in_use (fst s1) (owns (snd s1) ++ bs)))
                 (clone_from_h E dp sized place bw cl src (h, (c, a))) (drop_cb E dp c)
  | Panic => exists h1, clone_from_h E dp sized place bw cl src (h, (c, a)) = ((h1, (c, a)), [], Panic) /\ (I -> in_use h1 (owns (c, a) ++ bs))
  | _ => True
  end.
Proof.
  intros L U. pose proof (@clone_rel _ bw cl src (h, (c, a)) I _ L U) as C. unfold clone_from_h, bind.
  destruct (clone_h E sized place bw cl src (h, (c, a))) as [[[h1 s1] d1] o1].
  destruct (clone_slots_h bw cl (buffer src)) as [b| | | |]; cbn [obind] in C; destruct C as [-> C]; auto.
  - destruct o1 as [[c' a']| | | |]; try contradiction. destruct C as (C1 & C2 & C3 & C4 & C5). cbn in C1. subst s1.
    assert (C6 : I -> in_use h1 (owns (c, a) ++ (owns (c', a') ++ bs))).
    { intros i. apply (in_use_perm (C5 i)). cbn [fst]. rewrite !app_assoc. apply Permutation_app_tail, Permutation_app_comm. }
    pose proof (@drop_rel h1 c a I _ C6) as D.
    destruct (drop_h E dp (h1, (c, a))) as [[s2 d2] o2]. destruct (drop_cb E dp c) as [[c2 d2'] o2']. cbn in D. destruct D as [-> D].
    destruct o2, o2'; try contradiction; cbn; auto; split; auto; cbn in C2; destruct D; auto.
  - destruct o1; try contradiction. destruct C as (C1 & C2). cbn in C1. subst s1. eauto.
Qed.

End Proofs.
