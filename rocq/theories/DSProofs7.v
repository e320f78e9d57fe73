(** Proofs about the disjoint set: what still holds after a [clear] interrupted
    by a panicking destructor.  Ranks need not increase towards the roots any
    more and elements and slots of the vector need not correspond one to one;
    what remains is that every slot has a root. *)
From Coq Require Import Permutation NArith.
From Verif Require Import Base HMModel HMProofs UserSpec2 DSModel DSModel3 DSSpec DSRun DSRun2 DSProofs DSProofs2 DSProofs3 DSProofs4 DSProofs5 DSProofs6.
Local Open Scope outcome_scope.
Set Implicit Arguments.

(** ** Vectors in which every slot has a root *)
Definition rooted (v : list data) : Prop := forall i, i < length v -> exists r, root v i r.

Lemma rootd_of v i r : root v i r -> exists d, rootd v d i r.
Proof.
  induction 1 as [i Li P|i r Li P R (d & D)]; [exists 0; now constructor|exists (S d); now constructor].
Qed.

Lemma rootd_fun v d i r d' r' : rootd v d i r -> rootd v d' i r' -> d = d'.
Proof.
  intros R. revert d'. induction R as [i Li P|d i r Li P R IH]; intros d' R'; inversion R'; subst; try congruence.
  f_equal. eapply IH; eauto.
Qed.

(** a path visits no slot twice *)
Lemma rootd_path v d i r : rootd v d i r -> exists l, length l = S d /\ NoDup l /\
  forall j, In j l -> j < length v /\ exists e q, e <= d /\ rootd v e j q.
Proof.
  induction 1 as [i Li P|d i r Li P R (l & Ll & N & I)].
  - exists [i]. split; auto. split; [repeat constructor; intros []|].
    intros j [<-|[]]. split; auto. exists 0, i. split; auto. now constructor.
  - exists (i :: l). split; [simpl; lia|]. split.
    + constructor; auto. intros X. destruct (I i X) as (_ & e & q & Le & D).
      pose proof (rootd_fun D (rootd_up Li P R)). lia.
    + intros j [<-|X].
      * split; auto. exists (S d), r. split; auto. now constructor.
      * destruct (I j X) as (Lj & e & q & Le & D). split; auto. exists e, q. split; auto.
Qed.

Lemma rootd_short v d i r : rootd v d i r -> d < length v.
Proof.
  intros R. destruct (rootd_path R) as (l & Ll & N & I).
  assert (X : length l <= length (seq 0 (length v))).
  { apply NoDup_incl_length; auto. intros j J. apply in_seq. destruct (I j J). lia. }
  rewrite seq_length in X. lia.
Qed.

(** the same slots, ranks and roots *)
Definition like (v v' : list data) : Prop :=
  length v' = length v /\ (forall i, rk v' i = rk v i) /\ (forall i r, root v' i r <-> root v i r).

Lemma like_refl v : like v v.
Proof. repeat split; auto. Qed.

Lemma like_trans v1 v2 v3 : like v1 v2 -> like v2 v3 -> like v1 v3.
Proof.
  intros (L1 & R1 & T1) (L2 & R2 & T2). split; [congruence|]. split; [intros; congruence|].
  intros i r. rewrite T2. apply T1.
Qed.

Lemma like_rooted v v' : like v v' -> rooted v -> rooted v'.
Proof.
  intros (Le & _ & T) H i Li. rewrite Le in Li. destruct (H i Li) as [r R]. exists r. now apply T.
Qed.

Lemma like_heavy v v' : like v v' -> heavy v -> heavy v'.
Proof.
  intros (_ & Rk & T) H r R. apply T in R. destruct (H r R) as (l & N & I & S).
  exists l. split; auto. split; [|now rewrite Rk]. intros i X. apply T. auto.
Qed.

(** ** Finding *)
Lemma find_ranks fuel v i v' o : ds_find fuel v i = (v', o) ->
  length v' = length v /\ forall j, rk v' j = rk v j.
Proof.
  revert v i v' o. induction fuel as [|fuel IH]; intros v i v' o; cbn [ds_find].
  { intros H; inversion H; subst. auto. }
  destruct (vec_at v i) as [d| | | |] eqn:Q; try (intros H; inversion H; subst; now auto).
  destruct (parent d =? i); [intros H; inversion H; subst; now auto|].
  destruct (ds_find fuel v (parent d)) as [v1 o1] eqn:Hf. destruct (IH _ _ _ _ Hf) as [L1 K1].
  destruct o1 as [p| | | |]; try (intros H; inversion H; subst; now auto).
  destruct (vec_at v1 i) as [d1| | | |] eqn:Q1; intros H; inversion H; subst; auto.
  split; [now rewrite vec_set_length|]. intros j.
  unfold vec_at in Q1. destruct (nth_error v1 i) as [d2|] eqn:N1; inversion Q1; subst d2.
  rewrite rk_set by (apply nth_error_Some; congruence). cbn [rank].
  destruct (j =? i) eqn:X; [|apply K1]. apply Nat.eqb_eq in X. subst j.
  rewrite <- K1. unfold rk. now rewrite N1.
Qed.

Lemma find_like v i r : rooted v -> root v i r ->
  exists v', ds_find (S (length v)) v i = (v', Ret r) /\ like v v'.
Proof.
  intros W R. destruct (rootd_of R) as [d D].
  destruct (@findd (S (length v)) v d i r D) as (v' & H & Le & T).
  { pose proof (rootd_short D). lia. }
  exists v'. split; auto. destruct (find_ranks _ _ _ H) as [_ Rk]. split; auto. split; auto.
  assert (G : forall j q, root v j q -> root v' j q).
  { intros j q Q. destruct (rootd_of Q) as [e De]. destruct (T _ _ _ De) as (e' & _ & De').
    exact (rootd_root De'). }
  intros j q. split; [|apply G]. intros Q. destruct (root_lt Q) as [Lj _]. rewrite Le in Lj.
  destruct (W j Lj) as [q' Q']. rewrite (root_fun Q (G _ _ Q')). exact Q'.
Qed.

(** ** Appending a slot *)
Lemma append_pa v p j : j < length v -> pa (v ++ [data_new p]) j = pa v j.
Proof. intros H. unfold pa. now rewrite nth_error_app1. Qed.

Lemma append_pa_new v p : pa (v ++ [data_new p]) (length v) = p.
Proof. unfold pa. rewrite nth_error_app2, Nat.sub_diag by lia. reflexivity. Qed.

Lemma append_rk v p j : rk (v ++ [data_new p]) j = rk v j.
Proof.
  unfold rk. destruct (lt_dec j (length v)) as [H|H].
  - now rewrite nth_error_app1.
  - rewrite nth_error_app2 by lia. replace (nth_error v j) with (@None data).
    + destruct (j - length v) as [|[|k]] eqn:Q; simpl; auto.
    + symmetry. apply nth_error_None. lia.
Qed.

Lemma append_old v p i r : root v i r -> root (v ++ [data_new p]) i r.
Proof.
  induction 1 as [i Li P|i r Li P R IH].
  - apply root_self; [rewrite app_length; lia|]. now rewrite append_pa.
  - apply root_up; [rewrite app_length; lia| |]; rewrite append_pa; auto.
Qed.

Lemma append_rooted v p : rooted v -> p <= length v -> rooted (v ++ [data_new p]).
Proof.
  intros W Lp i. rewrite app_length; simpl. intros Li. destruct (lt_dec i (length v)) as [H|H].
  - destruct (W i H) as [r R]. exists r. now apply append_old.
  - assert (i = length v) by lia. subst i. destruct (Nat.eq_dec p (length v)) as [Q|Q].
    + exists (length v). apply root_self; [rewrite app_length; simpl; lia|]. now rewrite append_pa_new.
    + destruct (W p) as [r R]; [lia|]. exists r.
      apply root_up; [rewrite app_length; simpl; lia|rewrite append_pa_new; auto|].
      rewrite append_pa_new. now apply append_old.
Qed.

Lemma append_roots v p i r : rooted v -> i < length v -> (root (v ++ [data_new p]) i r <-> root v i r).
Proof.
  intros W Li. split; [|apply append_old]. intros R. destruct (W i Li) as [q Q].
  rewrite (root_fun R (append_old p Q)). exact Q.
Qed.

Lemma append_heavy v p : rooted v -> heavy v -> heavy (v ++ [data_new p]).
Proof.
  intros W H r R. destruct (lt_dec r (length v)) as [Lr|Lr].
  - apply (@append_roots v p r r W Lr) in R. destruct (H r R) as (l & N & I & S).
    exists l. split; auto. split; [|now rewrite append_rk]. intros i X. apply append_old. auto.
  - exists [r]. split; [repeat constructor; intros []|]. split.
    + intros i [<-|[]]. exact R.
    + rewrite append_rk. unfold rk. replace (nth_error v r) with (@None data); [simpl; lia|].
      symmetry. apply nth_error_None. lia.
Qed.

(** ** Linking two roots *)
(** [lo] was put below [hi] *)
Definition relinks (v : list data) (lo hi : nat) (v' : list data) : Prop :=
  length v' = length v /\ heavy v' /\
  (forall i r, root v' i r <-> (root v i r /\ r <> lo) \/ (root v i lo /\ r = hi)).

Lemma relink_roots v hi lo w :
  rooted v -> root v hi hi -> root v lo lo -> hi <> lo -> length w = length v ->
  (forall j, pa w j = if j =? lo then hi else pa v j) ->
  forall i r, root w i r <-> (root v i r /\ r <> lo) \/ (root v i lo /\ r = hi).
Proof.
  intros F Rh Rl Ne Lw Pw.
  assert (Hh : root w hi hi).
  { apply root_self; [rewrite Lw; apply (root_lt Rh)|]. rewrite Pw.
    replace (hi =? lo) with false by (symmetry; now apply Nat.eqb_neq). exact (root_top Rh). }
  assert (D : forall i r, root v i r -> root w i (if r =? lo then hi else r)).
  { induction 1 as [i Li P|i r Li P H IH].
    - destruct (i =? lo) eqn:Q.
      + apply root_up; [lia| |].
        * rewrite Pw, Q. apply Nat.eqb_eq in Q. congruence.
        * rewrite Pw, Q. exact Hh.
      + apply root_self; [lia|]. now rewrite Pw, Q.
    - assert (Q : (i =? lo) = false).
      { apply Nat.eqb_neq. intros ->. apply P. exact (root_top Rl). }
      apply root_up; [lia| |]; rewrite Pw, Q; auto. }
  intros i r. split.
  - intros H. destruct (root_lt H) as [Li _]. rewrite Lw in Li.
    destruct (F i Li) as [q Q]. pose proof (D _ _ Q) as W.
    rewrite (root_fun H W). destruct (q =? lo) eqn:X.
    + apply Nat.eqb_eq in X; subst. right; auto.
    + left. split; auto. now apply Nat.eqb_neq.
  - intros [[H N]|[H ->]]; pose proof (D _ _ H) as W.
    + replace (r =? lo) with false in W by (symmetry; now apply Nat.eqb_neq). exact W.
    + now rewrite Nat.eqb_refl in W.
Qed.

Lemma root_light v r : heavy v -> root v r r -> (rk v r <= N.log2 (N.of_nat (length v)))%N.
Proof.
  intros H R. destruct (H r R) as (l & N & I & S).
  assert (X : length l <= length v).
  { rewrite <- (seq_length (length v) 0). apply NoDup_incl_length; auto.
    intros j J. apply in_seq. destruct (root_lt (I j J)). lia. }
  destruct (root_lt R) as [Lr _]. apply N.log2_le_pow2; lia.
Qed.

Lemma relink_ok E v a b : rooted v -> heavy v -> root v a a -> root v b b -> a <> b ->
  (N.log2 (N.of_nat (length v)) < u32_max)%N ->
  exists v' lo hi, ds_link E v a b = (v', Ret tt) /\ relinks v lo hi v' /\
    ((lo = a /\ hi = b) \/ (lo = b /\ hi = a)).
Proof.
  intros F H Ra Rb Ne B. destruct (root_lt Ra) as [La _]. destruct (root_lt Rb) as [Lb _].
  unfold ds_link.
  destruct (vec_at_lt v La) as (da & Qa & Da). destruct (vec_at_lt v Lb) as (db & Qb & Db).
  rewrite Qa, Qb.
  set (lower := (rank da <? rank db)%N).
  set (hi := if lower then b else a). set (lo := if lower then a else b).
  assert (Rh : root v hi hi) by (unfold hi; destruct lower; auto).
  assert (Rl : root v lo lo) by (unfold lo; destruct lower; auto).
  assert (Nhl : hi <> lo) by (unfold hi, lo; destruct lower; auto).
  assert (Which : (lo = a /\ hi = b) \/ (lo = b /\ hi = a)) by (unfold hi, lo; destruct lower; auto).
  clearbody lower hi lo. clear Qa Qb Da Db Ra Rb La Lb.
  destruct (root_lt Rh) as [Lh _]. destruct (root_lt Rl) as [Ll _].
  destruct (vec_at_lt v Ll) as (dl & -> & Dl).
  replace (rank dl) with (rk v lo) by (unfold rk; now rewrite Dl).
  set (v1 := vec_set v lo (Data hi (rk v lo))).
  assert (L1 : length v1 = length v) by apply vec_set_length.
  destruct (@vec_at_lt _ v1 hi) as (dh & -> & Dh); [lia|].
  destruct (@vec_at_lt _ v1 lo) as (dl1 & -> & Dl1); [lia|].
  assert (Rk1 : forall j, rk v1 j = rk v j).
  { intros j. unfold v1. rewrite rk_set by auto. simpl. destruct (j =? lo) eqn:Q; auto.
    apply Nat.eqb_eq in Q. now subst. }
  assert (P1 : forall j, pa v1 j = if j =? lo then hi else pa v j).
  { intros j. unfold v1. now rewrite pa_set by auto. }
  replace (rank dh) with (rk v hi) by (rewrite <- Rk1; unfold rk; now rewrite Dh).
  replace (rank dl1) with (rk v lo) by (rewrite <- Rk1; unfold rk; now rewrite Dl1).
  replace (parent dh) with hi.
  2: { pose proof (P1 hi) as X. unfold pa at 1 in X. rewrite Dh in X. rewrite X.
       replace (hi =? lo) with false by (symmetry; now apply Nat.eqb_neq). now rewrite (root_top Rh). }
  destruct (H hi Rh) as (lh & Nh & Ih & Sh). destruct (H lo Rl) as (ll & Nl & Il & Sl).
  assert (Dis : NoDup (lh ++ ll)).
  { apply nodup_app; auto. intros x X Y. apply Nhl. exact (root_fun (Ih x X) (Il x Y)). }
  assert (Main : forall w, length w = length v -> (forall j, pa w j = if j =? lo then hi else pa v j) ->
    (forall j, j <> hi -> rk w j = rk v j) ->
    rk w hi = (if (rk v hi =? rk v lo)%N then rk v hi + 1 else rk v hi)%N -> relinks v lo hi w).
  { intros w Lw Pw Rw Rwh. assert (Rts := relink_roots w F Rh Rl Nhl Lw Pw).
    split; [exact Lw|]. split; [|exact Rts].
    assert (Hi : exists l, NoDup l /\ (forall i, In i l -> root w i hi) /\ (2 ^ rk w hi <= N.of_nat (length l))%N).
    { exists (lh ++ ll). split; [exact Dis|]. split.
      - intros i X. apply Rts. apply in_app_or in X. destruct X as [X|X]; [left|right]; auto.
      - rewrite app_length, Rwh. destruct (rk v hi =? rk v lo)%N eqn:X; [|lia].
        apply N.eqb_eq in X. rewrite <- X in Sl. rewrite N.add_1_r, N.pow_succ_r'. lia. }
    intros r R. apply Rts in R. destruct R as [[R Nr]|[R ->]]; [|exact Hi].
    destruct (Nat.eq_dec r hi) as [->|Q]; [exact Hi|].
    destruct (H r R) as (l & N & I & S). exists l. split; auto. split; [|now rewrite Rw].
    intros i X. apply Rts. left; auto. }
  destruct (rk v hi =? rk v lo)%N eqn:X.
  - unfold rank_incr.
    assert (Y : (rk v hi + 1 <=? u32_max)%N = true).
    { apply N.leb_le. pose proof (root_light H Rh). lia. }
    rewrite Y. eexists _, lo, hi; split; [reflexivity|]. split; [|exact Which]. apply Main.
    + now rewrite vec_set_length.
    + intros j. rewrite pa_set by lia. cbn [parent]. destruct (j =? hi) eqn:Q; auto.
      apply Nat.eqb_eq in Q; subst j.
      replace (hi =? lo) with false by (symmetry; now apply Nat.eqb_neq). now rewrite (root_top Rh).
    + intros j Q. rewrite rk_set by lia. apply Nat.eqb_neq in Q. rewrite Q. apply Rk1.
    + rewrite rk_set by lia. now rewrite Nat.eqb_refl.
  - eexists _, lo, hi; split; [reflexivity|]. split; [|exact Which]. apply Main; auto.
Qed.

Lemma relinks_rooted v lo hi v' : rooted v -> relinks v lo hi v' -> rooted v'.
Proof.
  intros W (Le & _ & T) i Li. rewrite Le in Li. destruct (W i Li) as [r R].
  destruct (Nat.eq_dec r lo) as [->|N].
  - exists hi. apply T. auto.
  - exists r. apply T. auto.
Qed.

Section Proofs.
Variable K : Type.
Variable eqb : K -> K -> bool.
Hypothesis L : eq_laws eqb.
Variable E : machine.
Implicit Types (s : dset K) (x y z a b k : K) (xs : list K).

Notation joined := (joined eqb).

(** ** The state *)
Definition sound s : Prop :=
  hm_wf eqb (ds_ids s) /\ (forall k i, In (k, i) (ds_ids s) -> i < length (ds_data s)) /\
  length (ds_ids s) <= alloc_max E /\ length (ds_data s) <= alloc_max E /\
  length (ds_ids s) <= length (ds_data s) /\ rooted (ds_data s) /\ heavy (ds_data s).

Lemma valid_sound s : valid eqb E s -> sound s.
Proof.
  intros V. pose proof V as (W & Ld & Le & P & F & Hv). split; auto. split.
  - intros k i I. destruct (root_of _ _ V I) as [r R]. apply (root_lt R).
  - rewrite Ld. repeat split; auto. intros i Li. now apply root_exists.
Qed.

Lemma sound_root s k i : sound s -> In (k, i) (ds_ids s) -> exists r, root (ds_data s) i r.
Proof. intros (_ & B & _ & _ & _ & W & _) I. apply W. eauto. Qed.

Lemma like_sound s v : sound s -> like (ds_data s) v -> sound (DSet (ds_ids s) v).
Proof.
  intros (W & B & Le & Ld & Lt & Rt & Hv) S. pose proof S as (Lv & _). split; [exact W|]. split.
  - intros k i I. cbn in *. rewrite Lv. eauto.
  - cbn. rewrite Lv. repeat split; auto; [eapply like_rooted; eauto|eapply like_heavy; eauto].
Qed.

Lemma find_in_like s i r : sound s -> root (ds_data s) i r ->
  exists v, ds_find_in i s = (DSet (ds_ids s) v, Ret r) /\ like (ds_data s) v.
Proof.
  intros (_ & _ & _ & _ & _ & W & _) R. destruct (find_like W R) as (v & H & S).
  exists v. unfold ds_find_in. rewrite H. auto.
Qed.

(** ** in_union *)
Definition rel s a b : Prop := exists ka ia kb ib, hm_entry_of eqb a (ds_ids s) = Some (ka, ia) /\
  hm_entry_of eqb b (ds_ids s) = Some (kb, ib) /\ linked s ia ib.

Lemma in_union_sound s a b : sound s ->
  exists v bb, ds_in_union eqb a b s = (DSet (ds_ids s) v, Ret bb) /\ like (ds_data s) v /\
   (bb = true <-> rel s a b).
Proof.
  intros V. unfold ds_in_union, hm_get, rel.
  assert (Id : s = DSet (ds_ids s) (ds_data s)) by now destruct s.
  destruct (hm_entry_of eqb a (ds_ids s)) as [[ka ia]|] eqn:Qa; simpl.
  2: { exists (ds_data s), false. rewrite <- Id. split; [reflexivity|]. split; [apply like_refl|].
       split; [discriminate|]. intros (ka & ia & kb & ib & X & _). discriminate. }
  destruct (hm_entry_of eqb b (ds_ids s)) as [[kb ib]|] eqn:Qb; simpl.
  2: { exists (ds_data s), false. rewrite <- Id. split; [reflexivity|]. split; [apply like_refl|].
       split; [discriminate|]. intros (ka' & ia' & kb & ib & _ & X & _). discriminate. }
  pose proof (entry_of_some _ _ _ Qa) as [Ia _]. pose proof (entry_of_some _ _ _ Qb) as [Ib _].
  destruct (sound_root _ _ V Ia) as [ra Ra]. destruct (sound_root _ _ V Ib) as [rb Rb].
  destruct (find_in_like V Ra) as (v1 & H1 & S1). rewrite H1.
  pose proof (like_sound V S1) as V1. set (s1 := DSet (ds_ids s) v1) in *.
  assert (Rb1 : root (ds_data s1) ib rb) by (apply S1; exact Rb).
  destruct (find_in_like V1 Rb1) as (v2 & H2 & S2). rewrite H2.
  exists v2, (ra =? rb). split; [reflexivity|]. split; [eapply like_trans; eauto|].
  rewrite Nat.eqb_eq. split.
  - intros <-. exists ka, ia, kb, ib. split; auto. split; auto. exists ra. auto.
  - intros (ka' & ia' & kb' & ib' & X & Y & (r & R1 & R2)). inversion X; inversion Y; subst.
    rewrite (root_fun Ra R1). now apply (root_fun R2).
Qed.

Lemma joined_rel s a b : sound s -> (joined s a b <-> rel s a b).
Proof.
  intros V. destruct (in_union_sound a b V) as (v & bb & H & _ & I). unfold DSRun.joined. rewrite H. cbn [snd].
  rewrite <- I. split; [congruence|]. now intros ->.
Qed.

Lemma contains_some s x : ds_contains eqb x s = true <-> exists k i, hm_entry_of eqb x (ds_ids s) = Some (k, i).
Proof.
  unfold ds_contains. rewrite contains_entry. destruct (hm_entry_of eqb x (ds_ids s)) as [[k i]|].
  - split; eauto.
  - split; [discriminate|]. intros (k & i & X). discriminate.
Qed.

Lemma rel_refl s x : sound s -> (rel s x x <-> ds_contains eqb x s = true).
Proof.
  intros V. rewrite contains_some. split.
  - intros (k & i & _ & _ & H & _). eauto.
  - intros (k & i & H). exists k, i, k, i. split; auto. split; auto.
    destruct (entry_of_some _ _ _ H) as [I _]. destruct (sound_root _ _ V I) as [r R]. exists r. auto.
Qed.

Lemma rel_sym s x y : rel s x y -> rel s y x.
Proof. intros (k & i & h & j & H1 & H2 & r & R1 & R2). exists h, j, k, i. repeat split; auto. exists r. auto. Qed.

Lemma rel_trans s x y z : rel s x y -> rel s y z -> rel s x z.
Proof.
  intros (k & i & h & j & H1 & H2 & r & R1 & R2) (h' & j' & l & m & H3 & H4 & r' & R3 & R4).
  rewrite H2 in H3. inversion H3; subst. exists k, i, l, m. repeat split; auto. exists r. split; auto.
  rewrite (root_fun R2 R3). exact R4.
Qed.

Lemma rel_eq s x y : sound s -> eqb x y = true -> ds_contains eqb x s = true -> rel s x y.
Proof.
  intros V Q C. apply (rel_refl x V) in C. destruct C as (k & i & h & j & H1 & H2 & Lk).
  exists k, i, h, j. repeat split; auto. rewrite <- H2. symmetry. apply (entry_of_cong L); auto.
Qed.

(** the same elements and the same roots of their slots *)
Definition asks_same s s' : Prop := ds_ids s' = ds_ids s /\ like (ds_data s) (ds_data s').

Lemma asks_rel s s' x y : asks_same s s' -> (rel s' x y <-> rel s x y).
Proof.
  intros (Hi & _ & _ & T). unfold rel, linked. rewrite Hi. split.
  - intros (k & i & h & j & H1 & H2 & r & R1 & R2). exists k, i, h, j. repeat split; auto.
    exists r. split; now apply T.
  - intros (k & i & h & j & H1 & H2 & r & R1 & R2). exists k, i, h, j. repeat split; auto.
    exists r. split; now apply T.
Qed.

(** ** Adding an element *)
Lemma make_sound x s : sound s -> exists s' o, ds_make_or_get eqb E x s = (s', o) /\ sound s' /\
  ((exists k i, hm_entry_of eqb x (ds_ids s) = Some (k, i) /\ s' = s /\ o = Ret i) \/
   (hm_entry_of eqb x (ds_ids s) = None /\ s' = s /\ o = Panic /\ length (ds_ids s) = alloc_max E) \/
   (hm_entry_of eqb x (ds_ids s) = None /\ length (ds_ids s) < alloc_max E /\
    ds_ids s' = (x, length (ds_ids s)) :: ds_ids s /\
    ((ds_data s' = ds_data s ++ [data_new (length (ds_ids s))] /\ o = Ret (length (ds_ids s))) \/
     (ds_data s' = ds_data s /\ o = Panic /\ length (ds_data s) = alloc_max E)))).
Proof.
  intros V. pose proof V as (W & B & Le & Ld & Lt & Rt & Hv).
  unfold ds_make_or_get. unfold hm_entry, hm_get.
  destruct (hm_entry_of eqb x (ds_ids s)) as [[k i]|] eqn:Q; cbn.
  { exists s, (Ret i). split; auto. split; auto. left. eauto. }
  unfold hm_reserve. destruct (length (ds_ids s) + 1 <=? alloc_max E) eqn:X; cbn.
  2: { apply Nat.leb_gt in X. exists s, Panic. split; auto. split; auto. right; left. repeat split; auto. lia. }
  apply Nat.leb_le in X. unfold vec_push, hm_insert_vacant.
  assert (W' : hm_wf eqb ((x, length (ds_ids s)) :: ds_ids s)) by now apply wf_cons.
  destruct (length (ds_data s) + 1 <=? alloc_max E) eqn:Y.
  - apply Nat.leb_le in Y. eexists _, _. split; [reflexivity|]. split.
    + split; [exact W'|]. cbn [ds_ids ds_data length]. rewrite app_length. cbn [length]. split.
      * intros k i [I|I]; [inversion I; subst; lia|]. specialize (B _ _ I). lia.
      * repeat split; try lia; [now apply append_rooted|now apply append_heavy].
    + right; right. split; auto. split; [lia|]. split; [reflexivity|]. left. auto.
  - apply Nat.leb_gt in Y. eexists _, _. split; [reflexivity|]. split.
    + split; [exact W'|]. cbn [ds_ids ds_data length]. split.
      * intros k i [I|I]; [inversion I; subst; lia|]. eauto.
      * repeat split; auto; lia.
    + right; right. split; auto. split; [lia|]. split; [reflexivity|]. right. repeat split; auto. lia.
Qed.

(** [s'] holds what [s] holds and possibly [x]; nothing else is new *)
Definition plus x s s' : Prop :=
  (forall y, ds_contains eqb y s' = true <-> ds_contains eqb y s = true \/ eqb x y = true) /\
  (forall y z, ds_contains eqb y s = true -> ds_contains eqb z s = true -> (rel s' y z <-> rel s y z)).

Lemma make_plus x s s' o : sound s -> ds_make_or_get eqb E x s = (s', o) ->
  sound s' /\ ((exists i, o = Ret i /\ plus x s s' /\ exists k, hm_entry_of eqb x (ds_ids s') = Some (k, i)) \/
    (o = Panic /\ plus x s s' /\ length (ds_data s) = alloc_max E /\ ds_contains eqb x s = false) \/
    (o = Panic /\ s' = s /\ ds_len s = alloc_max E /\ ds_contains eqb x s = false)).
Proof.
  intros V H. pose proof V as (W & B & Le & Ld & Lt & Rt & Hv).
  destruct (make_sound x V) as (s1 & o1 & H1 & V1 & C). rewrite H in H1. inversion H1; subst s1 o1; clear H1.
  split; auto.
  assert (G : hm_entry_of eqb x (ds_ids s) = None -> ds_ids s' = (x, length (ds_ids s)) :: ds_ids s ->
     (forall i r, i < length (ds_data s) -> (root (ds_data s') i r <-> root (ds_data s) i r)) ->
     plus x s s' /\ hm_entry_of eqb x (ds_ids s') = Some (x, length (ds_ids s))).
  { intros Q Hi Rts.
    assert (En : forall y, hm_entry_of eqb y (ds_ids s') =
       if eqb y x then Some (x, length (ds_ids s)) else hm_entry_of eqb y (ds_ids s)).
    { intros y. rewrite Hi. reflexivity. }
    assert (Old : forall y, ds_contains eqb y s = true -> hm_entry_of eqb y (ds_ids s') = hm_entry_of eqb y (ds_ids s)).
    { intros y C1. rewrite En. destruct (eqb y x) eqn:X; auto. apply contains_some in C1. destruct C1 as (k & i & C1).
      rewrite (entry_of_cong L _ X) in C1. congruence. }
    split; [|rewrite En; now rewrite (eq_refl' L)]. split.
    - intros y. rewrite !contains_some, En. rewrite (eqb_sym L y x). destruct (eqb x y).
      + split; eauto.
      + split; [auto|intros [X|X]; [auto|discriminate]].
    - intros y z C1 C2. unfold rel. rewrite (Old y C1), (Old z C2). unfold linked. split.
      + intros (k & i & h & j & H1 & H2 & r & R1 & R2). exists k, i, h, j. repeat split; auto. exists r.
        apply entry_of_some in H1. apply entry_of_some in H2. destruct H1 as [H1 _], H2 as [H2 _].
        split; apply Rts; eauto.
      + intros (k & i & h & j & H1 & H2 & r & R1 & R2). exists k, i, h, j. repeat split; auto. exists r.
        apply entry_of_some in H1. apply entry_of_some in H2. destruct H1 as [H1 _], H2 as [H2 _].
        split; apply Rts; eauto. }
  destruct C as [(k & i & Q & -> & ->)|[(Q & -> & -> & F)|(Q & Lq & Hi & [(Hd & ->)|(Hd & -> & F)])]].
  - left. exists i. split; auto. split; [|eauto]. split; [|tauto]. intros y. split; auto. intros [X|X]; auto.
    rewrite contains_some. exists k, i. rewrite <- Q. symmetry. now apply (entry_of_cong L).
  - right; right. repeat split; auto. unfold ds_contains. rewrite contains_entry, Q. reflexivity.
  - left. destruct G as [P X]; auto.
    + intros i r Li. rewrite Hd. now apply append_roots.
    + exists (length (ds_ids s)). split; auto. split; eauto.
  - right; left. destruct G as [P X]; auto; [rewrite Hd; tauto|]. split; auto. split; auto. split; auto.
    unfold ds_contains. rewrite contains_entry, Q. reflexivity.
Qed.

Lemma make_set_plus x s s' r : sound s -> ds_make_set eqb E x s = (s', r) ->
  sound s' /\ ((r = Ret tt /\ plus x s s') \/
    (r = Panic /\ plus x s s' /\ length (ds_data s) = alloc_max E /\ ds_contains eqb x s = false) \/
    (r = Panic /\ s' = s /\ ds_len s = alloc_max E /\ ds_contains eqb x s = false)).
Proof.
  intros V H. unfold ds_make_set in H. destruct (ds_make_or_get eqb E x s) as [s1 o1] eqn:Q.
  inversion H; subst s1 r; clear H. destruct (make_plus x V Q) as [V1 [(i & -> & P & _)|[(-> & P)|(-> & P)]]]; cbn; auto.
Qed.

(** ** Union *)
Hypothesis U : (N.log2 (N.of_nat (alloc_max E)) < u32_max)%N.

(** the classes of [a] and [b] are merged, nothing else *)
Definition fused a b s s' : Prop :=
  (forall y, ds_contains eqb y s' = ds_contains eqb y s) /\
  (forall y z, rel s' y z <-> rel s y z \/ (rel s y a /\ rel s b z) \/ (rel s y b /\ rel s a z)).

Lemma merge_sound a b s ka ia kb ib : sound s ->
  hm_entry_of eqb a (ds_ids s) = Some (ka, ia) -> hm_entry_of eqb b (ds_ids s) = Some (kb, ib) ->
  exists s', match ds_find_in ia s with
    | (s3, Ret a_root) =>
        match ds_find_in ib s3 with
        | (s4, Ret b_root) =>
            if a_root =? b_root then (s4, Ret tt)
            else match ds_link E (ds_data s4) a_root b_root with
                 | (v, o) => (DSet (ds_ids s4) v, o)
                 end
        | (s4, o) => (s4, omap (fun _ => tt) o)
        end
    | (s3, o) => (s3, omap (fun _ => tt) o)
    end = (s', Ret tt) /\ sound s' /\ fused a b s s'.
Proof.
  intros V Qa Qb.
  pose proof (entry_of_some _ _ _ Qa) as [Ia _]. pose proof (entry_of_some _ _ _ Qb) as [Ib _].
  destruct (sound_root _ _ V Ia) as [ra Ra]. destruct (sound_root _ _ V Ib) as [rb Rb].
  destruct (find_in_like V Ra) as (v1 & H1 & S1). rewrite H1.
  pose proof (like_sound V S1) as V1. set (s1 := DSet (ds_ids s) v1) in *.
  assert (Rb1 : root (ds_data s1) ib rb) by (apply S1; exact Rb).
  destruct (find_in_like V1 Rb1) as (v2 & H2 & S2). rewrite H2.
  pose proof (like_sound V1 S2) as V2. cbn [ds_ids] in *.
  assert (S : like (ds_data s) v2) by (eapply like_trans; eauto).
  assert (As : asks_same s (DSet (ds_ids s) v2)) by (split; auto).
  destruct (ra =? rb) eqn:Q.
  { apply Nat.eqb_eq in Q. subst rb. exists (DSet (ds_ids s) v2). split; [reflexivity|]. split; [exact V2|]. split; auto.
    assert (Rab : rel s a b) by (exists ka, ia, kb, ib; repeat split; auto; exists ra; auto).
    intros y z. rewrite (asks_rel y z As). split; auto. intros [X|[[X Y]|[X Y]]]; auto.
    - apply (rel_trans X). apply (rel_trans Rab Y).
    - apply (rel_trans X). apply (rel_trans (rel_sym Rab) Y). }
  apply Nat.eqb_neq in Q. pose proof V2 as (W2 & B2 & Le2 & Ld2 & Lt2 & Rt2 & Hv2). cbn [ds_data ds_ids] in *.
  assert (Ra2 : root v2 ra ra) by (apply S; exact (root_root Ra)).
  assert (Rb2 : root v2 rb rb) by (apply S; exact (root_root Rb)).
  assert (Fit : (N.log2 (N.of_nat (length v2)) < u32_max)%N).
  { eapply N.le_lt_trans; [|exact U]. apply N.log2_le_mono. lia. }
  destruct (relink_ok E Rt2 Hv2 Ra2 Rb2 Q Fit) as (v3 & lo & hi & H3 & Rl & Which).
  change (ds_data {| ds_ids := ds_ids s; ds_data := v2 |}) with v2. rewrite H3.
  exists (DSet (ds_ids s) v3). split; [reflexivity|]. pose proof Rl as (L3 & Hv3 & T3). split.
  { split; [exact W2|]. cbn [ds_data ds_ids]. rewrite L3. repeat split; auto. eapply relinks_rooted; eauto. }
  split; auto. clear H3 H1 H2. intros y z.
  assert (Key : forall i j, linked (DSet (ds_ids s) v3) i j <->
    linked s i j \/ (root (ds_data s) i ra /\ root (ds_data s) j rb) \/ (root (ds_data s) i rb /\ root (ds_data s) j ra)).
  { destruct S as (_ & _ & T). intros i j. unfold linked. cbn [ds_data].
    setoid_rewrite T3. setoid_rewrite T. split.
    - intros (r & [[X Nx]|[X ->]] & [[Y Ny]|[Y Z]]); try subst.
      + left. exists r. auto.
      + destruct Which as [[-> ->]|[-> ->]]; tauto.
      + destruct Which as [[-> ->]|[-> ->]]; tauto.
      + left. exists lo. auto.
    - intros [(r & X & Y)|[[X Y]|[X Y]]].
      + destruct (Nat.eq_dec r lo) as [->|N]; [exists hi|exists r]; auto.
      + exists hi. destruct Which as [[-> ->]|[-> ->]]; auto.
      + exists hi. destruct Which as [[-> ->]|[-> ->]]; auto. }
  unfold rel. setoid_rewrite Key. cbn [ds_ids]. split.
  - intros (k & i & h & j & H1 & H2 & [H3|[[X Y]|[X Y]]]).
    + left. exists k, i, h, j. auto.
    + right; left. split; [exists k, i, ka, ia|exists kb, ib, h, j]; repeat split; auto; eexists; eauto.
    + right; right. split; [exists k, i, kb, ib|exists ka, ia, h, j]; repeat split; auto; eexists; eauto.
  - intros [(k & i & h & j & H1 & H2 & H3)|[[X Y]|[X Y]]].
    + exists k, i, h, j. auto.
    + destruct X as (k & i & ka' & ia' & H1 & H2 & r & R1 & R2). destruct Y as (kb' & ib' & h & j & H3 & H4 & q & R3 & R4).
      rewrite Qa in H2. rewrite Qb in H3. inversion H2; inversion H3; subst.
      exists k, i, h, j. repeat split; auto. right; left.
      rewrite (root_fun Ra R2), (root_fun Rb R3). auto.
    + destruct X as (k & i & kb' & ib' & H1 & H2 & r & R1 & R2). destruct Y as (ka' & ia' & h & j & H3 & H4 & q & R3 & R4).
      rewrite Qb in H2. rewrite Qa in H3. inversion H2; inversion H3; subst.
      exists k, i, h, j. repeat split; auto. right; right.
      rewrite (root_fun Rb R2), (root_fun Ra R3). auto.
Qed.

Lemma union_sound a b s s' r : sound s -> ds_union eqb E a b s = (s', r) ->
  sound s' /\ ((r = Panic /\ for_each (ds_make_set eqb E) [a; b] s = (s', Panic)) \/
    (r = Ret tt /\ exists s2, for_each (ds_make_set eqb E) [a; b] s = (s2, Ret tt) /\ sound s2 /\ fused a b s2 s')).
Proof.
  intros V H. unfold ds_union in H. cbn [for_each]. unfold ds_make_set.
  destruct (ds_make_or_get eqb E a s) as [s1 o1] eqn:H1.
  destruct (make_plus a V H1) as [V1 [(ia & -> & P1 & ka & Qa)|[(-> & P1 & _)|(-> & P1 & _)]]]; cbn [omap].
  2: { inversion H; subst. auto. }
  2: { inversion H; subst. auto. }
  destruct (ds_make_or_get eqb E b s1) as [s2 o2] eqn:H2.
  destruct (make_plus b V1 H2) as [V2 [(ib & -> & P2 & kb & Qb)|[(-> & P2 & _)|(-> & P2 & _)]]]; cbn [omap].
  2: { inversion H; subst. auto. }
  2: { inversion H; subst. auto. }
  assert (Qa2 : hm_entry_of eqb a (ds_ids s2) = Some (ka, ia)).
  { destruct (make_sound b V1) as (s2' & o2' & H2' & _ & C). rewrite H2 in H2'. inversion H2'; subst s2' o2'.
    destruct C as [(k & i & _ & -> & _)|[(_ & -> & _)|(Q & _ & Hi & _)]]; auto.
    rewrite Hi. cbn. destruct (eqb a b) eqn:X; auto. rewrite <- (entry_of_cong L _ X) in Q. congruence. }
  destruct (merge_sound a b V2 Qa2 Qb) as (s3 & H3 & V3 & Fu). rewrite H3 in H. inversion H; subst.
  split; auto. right. split; auto. exists s2. auto.
Qed.

(** ** Iteration *)
Lemma rf_sound s i r : sound s -> root (ds_data s) i r -> rf (ds_data s) i = r.
Proof.
  intros V R. destruct (find_in_like V R) as (v & H & _). unfold ds_find_in in H. unfold rf.
  destruct (ds_find (S (length (ds_data s))) (ds_data s) i) as [v' o]. inversion H; subst. reflexivity.
Qed.

Lemma group_sound l2 s v l1 m : sound s -> like (ds_data s) v -> gok (rf (ds_data s)) l1 m ->
  (forall k i, In (k, i) l2 -> In (k, i) (ds_ids s)) -> length l1 + length l2 <= alloc_max E ->
  exists v', ds_group E l2 (DSet (ds_ids s) v) m =
    (DSet (ds_ids s) v', Ret (groups (rf (ds_data s)) l2 m)) /\
    like (ds_data s) v' /\ gok (rf (ds_data s)) (l1 ++ l2) (groups (rf (ds_data s)) l2 m).
Proof.
  intros V. revert v l1 m. induction l2 as [|[k i] l2 IH]; intros v l1 m S G I Le; simpl.
  - exists v. rewrite app_nil_r. auto.
  - pose proof (like_sound V S) as Vv.
    destruct (sound_root k i V) as [r R]; [apply I; simpl; auto|].
    assert (Rv : root (ds_data (DSet (ds_ids s) v)) i r) by (apply S; exact R).
    destruct (find_in_like Vv Rv) as (v1 & H1 & S1). rewrite H1.
    rewrite <- (rf_sound V R). simpl in Le.
    rewrite (group_push_ok E k i G) by lia.
    cbn [ds_data ds_ids] in *.
    destruct (IH v1 (l1 ++ [(k, i)]) (gpush (rf (ds_data s) i) k m)) as (v' & H & Sv & Gv).
    + eapply like_trans; eauto.
    + now apply gpush_ok.
    + intros k' i' J. apply I. simpl; auto.
    + rewrite app_length. simpl. lia.
    + exists v'. rewrite H. split; [reflexivity|]. split; [exact Sv|].
      rewrite <- app_assoc in Gv. exact Gv.
Qed.

Lemma iter_sound s order pick : sound s -> (forall l, Permutation l (order l)) ->
  exists v, ds_into_iter E (order (ds_ids s)) pick s =
     (DSet (ds_ids s) v, Ret (pick (groups (rf (ds_data s)) (order (ds_ids s)) []))) /\
    like (ds_data s) v /\
    gok (rf (ds_data s)) (order (ds_ids s)) (groups (rf (ds_data s)) (order (ds_ids s)) []).
Proof.
  intros V Po. unfold ds_into_iter, ds_build_sets.
  destruct (@group_sound (order (ds_ids s)) s (ds_data s) [] []) as (v & H & S & G).
  - exact V.
  - apply like_refl.
  - split; [constructor|]. split; [constructor|]. apply Permutation_refl.
  - intros k i I. eapply Permutation_in; [apply Permutation_sym, Po|exact I].
  - simpl. rewrite <- (Permutation_length (Po (ds_ids s))). apply V.
  - exists v. replace (DSet (ds_ids s) (ds_data s)) with s in H by now destruct s. rewrite H.
    split; [reflexivity|]. auto.
Qed.

Lemma in_entry s k i : sound s -> In (k, i) (ds_ids s) -> hm_entry_of eqb k (ds_ids s) = Some (k, i).
Proof. intros (W & _) I. apply (wf_iff L k (k, i) W). split; auto. apply (eq_refl' L). Qed.

Lemma in_linked s x i y j : sound s -> In (x, i) (ds_ids s) -> In (y, j) (ds_ids s) ->
  (rel s x y <-> linked s i j).
Proof.
  intros V I J. pose proof (in_entry _ _ V I) as Hx. pose proof (in_entry _ _ V J) as Hy. split.
  - intros (k & i' & h & j' & H1 & H2 & Lk). rewrite Hx in H1. rewrite Hy in H2. inversion H1; inversion H2; subst. exact Lk.
  - intros Lk. exists x, i, y, j. auto.
Qed.

Lemma gok_sets s l m m' : sound s -> Permutation (ds_ids s) l ->
  gok (rf (ds_data s)) l m -> Permutation m m' -> sets_of eqb s (map snd m').
Proof.
  intros V P (W & Fm & Pm) Pm'.
  assert (Wm : hm_wf Nat.eqb m') by (eapply (wf_perm nat_laws); eauto).
  assert (Fm' : Forall (fun e => snd e <> [] /\ forall k, In k (snd e) ->
     exists i, In (k, i) (ds_ids s) /\ root (ds_data s) i (fst e)) m').
  { rewrite Forall_forall in *. intros e I. apply (Permutation_in _ (Permutation_sym Pm')) in I.
    destruct (Fm e I) as [G1 G2]. split; auto. intros k J. destruct (G2 k J) as (i & J1 & J2).
    apply (Permutation_in _ (Permutation_sym P)) in J1. exists i. split; auto.
    destruct (sound_root _ _ V J1) as [r R]. rewrite (rf_sound V R) in J2. now subst. }
  assert (Pk : Permutation (map fst (ds_ids s)) (concat (map snd m'))).
  { eapply Permutation_trans; [apply Permutation_map, P|].
    eapply Permutation_trans; [exact Pm|]. apply concat_perm. now apply Permutation_map. }
  split; [|split; [|split; [|split]]].
  - intros x. rewrite contains_some. split.
    + intros (k & i & H). destruct (entry_of_some _ _ _ H) as [I Q]. exists k. split; auto.
      apply (Permutation_in _ Pk). apply in_map_iff. exists (k, i). auto.
    + intros (k & I & Q). apply (Permutation_in _ (Permutation_sym Pk)) in I. apply in_map_iff in I.
      destruct I as ([k' i] & <- & I). exists k', i. apply (wf_iff L x (k', i)); [apply V|auto].
  - pose proof V as (Wi & _).
    assert (D : ForallOrdPairs (fun x y => eqb x y = false) (map fst (ds_ids s))).
    { clear -Wi. unfold hm_wf in Wi. induction Wi as [|e l F W IH]; cbn; constructor; auto.
      rewrite Forall_map. exact F. }
    clear -L D Pk. revert D. induction Pk as [|x l l' Pk IH|x y l|l l' l'' _ IH1 _ IH2]; intros D; auto.
    + inversion D as [|? ? F D']; subst. constructor; auto. eapply Permutation_Forall; eauto.
    + inversion D as [|? ? F D']; subst. inversion D' as [|? ? F' D'']; subst. inversion F; subst.
      constructor; [constructor; auto|constructor; auto]. now rewrite (eqb_sym L).
  - rewrite Forall_map. eapply Forall_impl; [|exact Fm']. simpl. tauto.
  - rewrite Forall_map. eapply Forall_impl; [|exact Fm']. simpl. intros e [_ G] x y X Y.
    destruct (G x X) as (i & I1 & I2). destruct (G y Y) as (j & J1 & J2).
    apply (joined_rel x y V). apply (@in_linked s x i y j V I1 J1). exists (fst e). auto.
  - clear Pm' Pm Fm Pk. induction Wm as [|e m'' D Wm IH]; simpl; constructor.
    + inversion Fm' as [|? ? [_ G] F2]; subst. rewrite Forall_map. rewrite Forall_forall in *.
      intros e' I x y X Y Q. destruct (F2 e' I) as [_ G'].
      destruct (G x X) as (i & I1 & I2). destruct (G' y Y) as (j & J1 & J2).
      apply (joined_rel x y V) in Q. apply (@in_linked s x i y j V I1 J1) in Q. destruct Q as (r & R1 & R2).
      specialize (D e' I). apply Nat.eqb_neq in D. apply D.
      rewrite (root_fun I2 R1). exact (root_fun R2 J2).
    + apply IH. now inversion Fm'.
Qed.

(** ** Calls keep the state sound *)
Lemma asks_sound s s' : sound s -> asks_same s s' -> sound s'.
Proof.
  intros V (Hi & Lk). destruct s' as [ids v]. cbn in *. subst ids. exact (like_sound V Lk).
Qed.

Lemma makes_sound xs s s' r : sound s -> for_each (ds_make_set eqb E) xs s = (s', r) ->
  sound s' /\ (r = Ret tt \/ r = Panic).
Proof.
  revert s. induction xs as [|x xs IH]; intros s V H; cbn in H; [inversion H; subst; auto|].
  destruct (ds_make_set eqb E x s) as [s1 r1] eqn:M.
  destruct (make_set_plus x V M) as [V1 [(-> & _)|[(-> & _)|(-> & _)]]].
  - eauto.
  - inversion H; subst. auto.
  - inversion H; subst. auto.
Qed.

Lemma reserve_keeps n s s' r : ds_reserve E n s = (s', r) -> s' = s /\ (r = Ret tt \/ r = Panic).
Proof.
  unfold ds_reserve, vec_reserve, hm_reserve. intros H. injection H as <- <-. split; auto.
  destruct (length (ds_data s) + n <=? alloc_max E); cbn; auto.
  destruct (length (ds_ids s) + n <=? alloc_max E); auto.
Qed.

Lemma extend_sound h xs s s' r : sound s -> ds_extend eqb E h xs s = (s', r) ->
  sound s' /\ (r = Ret tt \/ r = Panic).
Proof.
  intros V H. unfold ds_extend in H. destruct (ds_reserve E h s) as [s1 r1] eqn:Q.
  destruct (reserve_keeps Q) as [-> [->| ->]]; [exact (makes_sound _ V H)|]. inversion H; subst. auto.
Qed.

Lemma new_sound : sound (ds_new K).
Proof. apply valid_sound, new_valid. Qed.

Lemma step_sound o s s' r : sound s -> op_ok o -> ds_step eqb E o s = (s', r) ->
  sound s' /\ (r = Panic \/ exists v, r = Ret v) /\ (is_query o = true -> asks_same s s' /\ exists v, r = Ret v).
Proof.
  intros V Ok H. assert (A : asks_same s s) by (split; auto; apply like_refl).
  destruct o; cbn [ds_step is_query] in *; unfold unit_out in *.
  - destruct (ds_make_set eqb E x s) as [s1 r1] eqn:M. cbn in H. inversion H; subst.
    destruct (make_set_plus x V M) as [V1 [(-> & _)|[(-> & _)|(-> & _)]]]; cbn;
      (split; [auto|split; [eauto|discriminate]]).
  - destruct (ds_union eqb E a b s) as [s1 r1] eqn:M. cbn in H. inversion H; subst.
    destruct (union_sound a b V M) as [V1 [(-> & _)|(-> & _)]]; cbn; (split; [auto|split; [eauto|discriminate]]).
  - destruct (ds_extend eqb E hint xs s) as [s1 r1] eqn:M. cbn in H. inversion H; subst.
    destruct (extend_sound _ _ V M) as [V1 [->| ->]]; cbn; (split; [auto|split; [eauto|discriminate]]).
  - unfold ds_extend_ref in H. rewrite map_id in H. fold (ds_extend eqb E hint xs s) in H.
    destruct (ds_extend eqb E hint xs s) as [s1 r1] eqn:M. cbn in H. inversion H; subst.
    destruct (extend_sound _ _ V M) as [V1 [->| ->]]; cbn; (split; [auto|split; [eauto|discriminate]]).
  - inversion H; subst. split; [apply new_sound|]. split; [eauto|discriminate].
  - destruct (ds_reserve E n s) as [s1 r1] eqn:Q. cbn in H. inversion H; subst.
    destruct (reserve_keeps Q) as [-> [->| ->]]; cbn; (split; [auto|split; [eauto|discriminate]]).
  - inversion H; subst. split; [exact V|]. split; [right; eexists; reflexivity|]. intros _. split; [exact A|eexists; reflexivity].
  - destruct (in_union_sound a b V) as (v & bb & Hu & Lk & _). rewrite Hu in H. cbn in H. inversion H; subst.
    split; [exact (like_sound V Lk)|]. split; [eauto|]. intros _. split; [split; auto|eauto].
  - inversion H; subst. split; [exact V|]. split; [right; eexists; reflexivity|]. intros _. split; [exact A|eexists; reflexivity].
  - inversion H; subst. split; [exact V|]. split; [right; eexists; reflexivity|]. intros _. split; [exact A|eexists; reflexivity].
  - destruct Ok as [Po Pp]. destruct (iter_sound order pick V Po) as (v & Hi & Lk & _). rewrite Hi in H. cbn in H.
    inversion H; subst. split; [exact (like_sound V Lk)|]. split; [eauto|]. intros _. split; [split; auto|eauto].
Qed.

Lemma make_u_sound hp dp x s s' o : sound s -> ds_make_or_get_u eqb hp dp E x s = (s', o) ->
  (s' = s /\ ((exists i, o = Ret i /\ ds_make_or_get eqb E x s = (s', Ret i)) \/ o = Panic \/ o = Abort)) \/
  ds_make_or_get eqb E x s = (s', o).
Proof.
  intros V H. unfold ds_make_or_get_u, ds_make_or_get, ds_unwind in *.
  destruct (hp (ds_ids s) x); [inversion H; subst; left; split; auto; destruct (dp x); auto|].
  destruct (hm_entry eqb E x (ds_ids s)) as [[i|]| | | |]; try (inversion H; subst; left; split; auto; destruct (dp x); eauto; fail); auto.
Qed.

Lemma make_set_u_sound hp dp x s s' r : sound s -> ds_make_set_u eqb hp dp E x s = (s', r) -> sound s'.
Proof.
  intros V H. unfold ds_make_set_u in H. destruct (ds_make_or_get_u eqb hp dp E x s) as [s1 o1] eqn:M.
  inversion H; subst. destruct (make_u_sound hp dp x V M) as [[-> _]|M1]; auto. exact (proj1 (make_plus x V M1)).
Qed.

Lemma extend_u_sound hp rp dp h xs s s' r : sound s -> ds_extend_u eqb hp rp dp E h xs s = (s', r) -> sound s'.
Proof.
  intros V H. unfold ds_extend_u in H. destruct (rp (ds_ids s) h); [injection H as <- <-; auto|].
  destruct (ds_reserve E h s) as [s1 r1] eqn:Q.
  destruct (reserve_keeps Q) as [-> [->| ->]]; [|inversion H; subst; auto]. clear Q.
  revert s V H. induction xs as [|x xs IH]; intros s V H; cbn in H; [inversion H; subst; auto|].
  destruct (ds_make_set_u eqb hp dp E x s) as [s1 r1] eqn:M.
  pose proof (make_set_u_sound hp dp x V M) as V1.
  destruct r1; try (inversion H; subst; now auto). eauto.
Qed.

(** an element in place is found *)
Lemma make_u_entry hp dp x s s' i : sound s -> ds_make_or_get_u eqb hp dp E x s = (s', Ret i) ->
  ds_make_or_get eqb E x s = (s', Ret i).
Proof.
  intros V H. destruct (make_u_sound hp dp x V H) as [[-> [(j & X & Y)|[X|X]]]|M1]; auto; congruence.
Qed.

Lemma union_u_sound hp dp a b s s' r : sound s -> ds_union_u eqb hp dp E a b s = (s', r) -> sound s'.
Proof.
  intros V H. unfold ds_union_u in H.
  destruct (ds_make_or_get_u eqb hp dp E a s) as [s1 o1] eqn:H1.
  assert (V1 : sound s1).
  { destruct (make_u_sound hp dp a V H1) as [[-> _]|M1]; auto. exact (proj1 (make_plus a V M1)). }
  destruct o1 as [ia| | | |]; try (inversion H; subst; exact V1).
  destruct (ds_make_or_get_u eqb hp dp E b s1) as [s2 o2] eqn:H2.
  assert (V2 : sound s2).
  { destruct (make_u_sound hp dp b V1 H2) as [[-> _]|M1]; auto. exact (proj1 (make_plus b V1 M1)). }
  destruct o2 as [ib| | | |]; try (inversion H; subst; exact V2).
  assert (Hu : ds_union eqb E a b s = (s', r)).
  { unfold ds_union. rewrite (make_u_entry hp dp a V H1), (make_u_entry hp dp b V1 H2). exact H. }
  exact (proj1 (union_sound a b V Hu)).
Qed.

Lemma clear_sound dp gone left s s' r : sound s -> Permutation (gone ++ left) (ds_ids s) ->
  ds_clear_u dp left s = (s', r) -> sound s'.
Proof.
  intros V P H. unfold ds_clear_u in H.
  destruct (existsb (fun e => dp (fst e)) (ds_ids s)); inversion H; subst; [|apply new_sound].
  destruct V as (W & B & Le & Ld & Lt & Rt & Hv).
  pose proof (Permutation_length P) as Pl. rewrite app_length in Pl.
  split; [|split; [|cbn [ds_ids ds_data]; repeat split; auto; lia]].
  - pose proof (wf_perm L (Permutation_sym P) W) as W'. clear -W'. unfold hm_wf in *. cbn [ds_ids].
    induction gone as [|e g IH]; auto. inversion W'; subst. auto.
  - intros k i I. apply (B k). apply (Permutation_in _ P). apply in_or_app; auto.
Qed.

Lemma clone_sound cl s : (forall k, eqb (cl k) k = true) -> sound s -> sound (ds_clone cl s).
Proof.
  intros CL (W & B & Le & Ld & Lt & Rt & Hv). unfold ds_clone. split; [|split]; cbn [ds_ids ds_data].
  - clear -W CL L. unfold hm_wf in *. induction W as [|e l F W IH]; cbn; constructor; auto.
    rewrite Forall_map. eapply Forall_impl; [|exact F]. cbn. intros e' X.
    rewrite (eqb_cong_r L _ (CL _)). now rewrite (eqb_cong L _ (CL _)).
  - intros k i I. apply in_map_iff in I. destruct I as ([k' i'] & X & I). inversion X; subst. eauto.
  - rewrite map_length. repeat split; auto.
Qed.

Lemma survivor_sound cl s : (forall k, eqb (cl k) k = true) -> survivor eqb E cl s -> sound s.
Proof.
  intros CL. induction 1.
  - apply valid_sound. apply (reachable_valid L U CL). assumption.
  - now apply clone_sound.
  - eapply step_sound; eauto.
  - eapply make_set_u_sound; eauto.
  - eapply union_u_sound; eauto.
  - eapply extend_u_sound; eauto.
  - eapply clear_sound; eauto.
Qed.

(** ** In terms of questions *)
Lemma plus_with x s s' : sound s -> sound s' -> plus x s s' -> with_element eqb x s s'.
Proof.
  intros V V' [C R]. split; auto. intros y z Y Z. rewrite (joined_rel y z V), (joined_rel y z V'). auto.
Qed.

Lemma fused_merged a b s s' : sound s -> sound s' -> fused a b s s' -> merged eqb a b s s'.
Proof.
  intros V V' [C R]. split; auto. intros y z.
  rewrite (joined_rel y z V'), !(fun x y => joined_rel x y V). auto.
Qed.

Lemma asks_alike s s' : sound s -> asks_same s s' -> alike eqb s s'.
Proof.
  intros V A. pose proof (asks_sound V A) as V'. pose proof A as [Hi _]. unfold alike, ds_len, ds_contains.
  rewrite Hi. repeat split; auto; rewrite (joined_rel x y V), (joined_rel x y V'); apply (asks_rel x y A).
Qed.

Lemma find_linear s i : sound s -> i < length (ds_data s) ->
  exists v r, ds_find (length (ds_data s)) (ds_data s) i = (v, Ret r).
Proof.
  intros (_ & _ & _ & _ & _ & W & _) Li. destruct (W i Li) as [r R]. destruct (rootd_of R) as [d D].
  destruct (findd D (rootd_short D)) as (v & H & _). eauto.
Qed.

End Proofs.

(** ** Searches can be linear *)
Lemma find_deep fuel v d i r : rootd v d i r -> fuel <= d -> snd (ds_find fuel v i) = NoFuel.
Proof.
  revert d i. induction fuel as [|fuel IH]; intros d i R Le; [reflexivity|].
  inversion R as [|e ? ? Li P R2]; subst; [lia|]. cbn [ds_find].
  destruct (vec_at_lt v Li) as (x & -> & X).
  assert (Pa : pa v i = parent x) by (unfold pa; now rewrite X).
  rewrite <- Pa. replace (pa v i =? i) with false by (symmetry; now apply Nat.eqb_neq).
  pose proof (IH e (pa v i) R2 ltac:(lia)) as H. destruct (ds_find fuel v (pa v i)) as [v1 o]. cbn in H. subst o. reflexivity.
Qed.

Lemma chain_rootd m j : j <= m -> rootd (stale [data_new 0] m) j j 0.
Proof.
  induction j as [|j IH]; intros Le.
  - constructor; [rewrite stale_length; simpl; lia|]. rewrite stale_old by (simpl; lia). reflexivity.
  - assert (P : pa (stale [data_new 0] m) (S j) = j) by (rewrite stale_new; simpl; lia).
    apply rootd_up; [rewrite stale_length; simpl; lia|lia|]. rewrite P. apply IH. lia.
Qed.
