(** Proofs about the forest kept in [data_by_id]. *)
From Coq Require Import Permutation NArith.
From Verif Require Import Base HMModel DSModel.
Set Implicit Arguments.

Implicit Types (v : list data) (i j p q r : nat).

(** ** Vectors *)
Lemma vec_set_length {A} (v : list A) i a : length (vec_set v i a) = length v.
Proof. revert i; induction v as [|b v IH]; intros [|i]; simpl; auto. Qed.

Lemma vec_set_same {A} (v : list A) i a : i < length v -> nth_error (vec_set v i a) i = Some a.
Proof. revert i; induction v as [|b v IH]; intros [|i] H; simpl in *; auto; try lia. apply IH; lia. Qed.

Lemma vec_set_other {A} (v : list A) i j a : i <> j -> nth_error (vec_set v i a) j = nth_error v j.
Proof.
  revert i j; induction v as [|b v IH]; intros [|i] [|j] H; simpl in *; auto; try congruence.
Qed.

Lemma vec_at_lt {A} (v : list A) i : i < length v -> exists a, vec_at v i = Ret a /\ nth_error v i = Some a.
Proof.
  intros H. unfold vec_at. destruct (nth_error v i) eqn:Q; eauto.
  apply nth_error_None in Q. lia.
Qed.

(** ** Parents, ranks, roots *)
Definition pa v i : nat := match nth_error v i with Some d => parent d | None => i end.
Definition rk v i : N := match nth_error v i with Some d => rank d | None => 0%N end.

(** parents are elements and ranks increase towards them *)
Definition forest v : Prop := forall i, i < length v ->
  pa v i < length v /\ (pa v i <> i -> (rk v i < rk v (pa v i))%N).

Inductive root v : nat -> nat -> Prop :=
| root_self i : i < length v -> pa v i = i -> root v i i
| root_up i r : i < length v -> pa v i <> i -> root v (pa v i) r -> root v i r.

Lemma root_lt v i r : root v i r -> i < length v /\ r < length v.
Proof. induction 1; tauto. Qed.

Lemma root_top v i r : root v i r -> pa v r = r.
Proof. induction 1; auto. Qed.

Lemma root_root v i r : root v i r -> root v r r.
Proof. intros H. apply root_self; [apply (root_lt H)|exact (root_top H)]. Qed.

Lemma root_fun v i r q : root v i r -> root v i q -> r = q.
Proof.
  intros H. revert q. induction H as [i L P|i r L P H IH]; intros q Q; inversion Q; subst; auto; congruence.
Qed.

Lemma root_rank v i r : forest v -> root v i r -> i = r \/ (rk v i < rk v r)%N.
Proof.
  intros F H. induction H as [i L P|i r L P H IH]; auto. right.
  destruct (F i L) as [_ G]. specialize (G P). destruct IH as [<-|IH]; auto. lia.
Qed.

Lemma rank_bound v : exists M, forall i, (rk v i <= M)%N.
Proof.
  exists (fold_right (fun d m => N.max (rank d) m) 0%N v). intros i. unfold rk.
  destruct (nth_error v i) as [d|] eqn:H; [|lia].
  apply nth_error_In in H. clear i. induction v as [|e v IH]; simpl in *; [tauto|].
  destruct H as [->|H]; [lia|]. specialize (IH H). lia.
Qed.

Lemma root_exists v i : forest v -> i < length v -> exists r, root v i r.
Proof.
  intros F. destruct (rank_bound v) as [M B].
  remember (N.to_nat (M - rk v i)) as n eqn:Hn. revert i Hn.
  induction n as [n IH] using lt_wf_ind. intros i -> L.
  destruct (Nat.eq_dec (pa v i) i) as [P|P].
  - exists i. now apply root_self.
  - destruct (F i L) as [L2 G]. specialize (G P).
    destruct (IH (N.to_nat (M - rk v (pa v i)))) with (i := pa v i) as [r H]; auto.
    + pose proof (B i). pose proof (B (pa v i)). lia.
    + exists r. now apply root_up.
Qed.

(** the same elements, ranks and roots *)
Definition same v v' : Prop :=
  length v' = length v /\ (forall i, rk v' i = rk v i) /\ forest v' /\
  (forall i r, root v' i r <-> root v i r).

Lemma same_refl v : forest v -> same v v.
Proof. intros F. split; [reflexivity|]. split; [reflexivity|]. split; [exact F|]. tauto. Qed.

Lemma same_trans v1 v2 v3 : same v1 v2 -> same v2 v3 -> same v1 v3.
Proof.
  intros (L1 & R1 & F1 & T1) (L2 & R2 & F2 & T2). split; [congruence|].
  split; [intros; congruence|]. split; [exact F2|]. intros i r. rewrite T2. apply T1.
Qed.

Lemma same_sym v v' : forest v -> same v v' -> same v' v.
Proof.
  intros F (L & R & F' & T). split; [congruence|]. split; [intros; congruence|].
  split; [exact F|]. intros i r. symmetry. apply T.
Qed.

Lemma roots_eq v v' : forest v -> length v' = length v -> forest v' ->
  (forall i r, root v' i r -> root v i r) -> forall i r, root v' i r <-> root v i r.
Proof.
  intros F L F' H i r. split; [apply H|]. intros R.
  destruct (root_lt R) as [Li _]. destruct (@root_exists v' i F') as [q Q]; [lia|].
  rewrite (root_fun R (H _ _ Q)). exact Q.
Qed.

(** ** Pointing an element at its root *)
Lemma pa_set v i d j : i < length v -> pa (vec_set v i d) j = if j =? i then parent d else pa v j.
Proof.
  intros L. unfold pa. destruct (j =? i) eqn:Q.
  - apply Nat.eqb_eq in Q; subst. now rewrite vec_set_same.
  - apply Nat.eqb_neq in Q. rewrite vec_set_other by auto. reflexivity.
Qed.

Lemma rk_set v i d j : i < length v -> rk (vec_set v i d) j = if j =? i then rank d else rk v j.
Proof.
  intros L. unfold rk. destruct (j =? i) eqn:Q.
  - apply Nat.eqb_eq in Q; subst. now rewrite vec_set_same.
  - apply Nat.eqb_neq in Q. rewrite vec_set_other by auto. reflexivity.
Qed.

Lemma redirect v i r : forest v -> root v i r -> i <> r -> same v (vec_set v i (Data r (rk v i))).
Proof.
  intros F R Ne. destruct (root_lt R) as [Li Lr].
  set (v' := vec_set v i (Data r (rk v i))).
  assert (Len : length v' = length v) by apply vec_set_length.
  assert (Rk : forall j, rk v' j = rk v j).
  { intros j. unfold v'. rewrite rk_set by auto. simpl. destruct (j =? i) eqn:Q; auto.
    apply Nat.eqb_eq in Q. now subst. }
  assert (Pa : forall j, pa v' j = if j =? i then r else pa v j).
  { intros j. unfold v'. now rewrite pa_set by auto. }
  assert (F' : forest v').
  { intros j Lj. rewrite Len in *. rewrite Pa, !Rk. destruct (j =? i) eqn:Q.
    - apply Nat.eqb_eq in Q; subst. split; auto. intros _.
      destruct (root_rank F R); [congruence|auto].
    - now apply F. }
  split; [exact Len|]. split; [exact Rk|]. split; [exact F'|].
  apply roots_eq; auto. intros j q H. induction H as [j Lj P|j q Lj P H IH]; rewrite ?Pa in *; rewrite Len in Lj.
  - destruct (j =? i) eqn:Q.
    + apply Nat.eqb_eq in Q; congruence.
    + now apply root_self.
  - destruct (j =? i) eqn:Q.
    + apply Nat.eqb_eq in Q; subst. rewrite <- (root_fun (root_root R) IH). exact R.
    + now apply root_up.
Qed.

(** ** Finding *)
Lemma find_ok fuel v i r : forest v -> root v i r -> N.to_nat (rk v r - rk v i) < fuel ->
  exists v', ds_find fuel v i = (v', Ret r) /\ same v v'.
Proof.
  revert v i r. induction fuel as [|fuel IH]; intros v i r F R Lt; [lia|].
  destruct (root_lt R) as [Li Lr]. cbn [ds_find].
  destruct (vec_at_lt v Li) as (d & -> & D).
  assert (P : pa v i = parent d) by (unfold pa; now rewrite D).
  inversion R as [? ? T|? ? ? T R2]; subst.
  - rewrite <- P, T, Nat.eqb_refl. exists v. split; auto. now apply same_refl.
  - rewrite <- P. replace (pa v i =? i) with false by (symmetry; now apply Nat.eqb_neq).
    destruct (F i Li) as [_ G]. specialize (G T).
    destruct (IH v (pa v i) r F R2) as (v1 & Hf & S1).
    { destruct (root_rank F R2) as [Eq|X]; [rewrite Eq in *|]; lia. }
    rewrite Hf. pose proof S1 as (L1 & R1 & F1 & T1).
    destruct (@vec_at_lt _ v1 i) as (d1 & -> & D1); [lia|].
    eexists; split; [reflexivity|].
    eapply same_trans; [exact S1|].
    replace (rank d1) with (rk v1 i) by (unfold rk; now rewrite D1).
    apply redirect; auto.
    + now apply T1.
    + intros ->. apply T. exact (root_top R).
Qed.

(** ** Sizes *)
Definition heavy v : Prop := forall r, root v r r ->
  exists l, NoDup l /\ (forall i, In i l -> root v i r) /\ (2 ^ rk v r <= N.of_nat (length l))%N.

Lemma heavy_same v v' : same v v' -> heavy v -> heavy v'.
Proof.
  intros (L & Rk & F & T) H r R. apply T in R. destruct (H r R) as (l & N & I & S).
  exists l. split; auto. split; [|now rewrite Rk]. intros i X. apply T. auto.
Qed.

Lemma heavy_rank v i : forest v -> heavy v -> i < length v -> (2 ^ rk v i <= N.of_nat (length v))%N.
Proof.
  intros F H L. destruct (root_exists F L) as [r R].
  destruct (H r (root_root R)) as (l & N & I & S).
  assert (X : length l <= length v).
  { rewrite <- (seq_length (length v) 0). apply NoDup_incl_length; auto.
    intros j J. apply in_seq. destruct (root_lt (I j J)). lia. }
  assert (Y : (rk v i <= rk v r)%N) by (destruct (root_rank F R) as [->|Z]; lia).
  assert (Z := N.pow_le_mono_r 2 _ _ ltac:(lia) Y). lia.
Qed.

Lemma heavy_log v i : forest v -> heavy v -> i < length v -> (rk v i <= N.log2 (N.of_nat (length v)))%N.
Proof.
  intros F H L. pose proof (heavy_rank F H L). apply N.log2_le_pow2; lia.
Qed.

Lemma find_fuel v i r : forest v -> heavy v -> root v i r ->
  N.to_nat (rk v r - rk v i) < S (Nat.log2 (length v)).
Proof.
  intros F H R. destruct (root_lt R) as [_ Lr]. pose proof (heavy_rank F H Lr) as B.
  assert (X : N.to_nat (rk v r) <= Nat.log2 (length v)).
  { apply Nat.log2_le_pow2; [lia|].
    assert (Q : N.to_nat (2 ^ rk v r) <= length v) by lia.
    rewrite N2Nat.inj_pow in Q. exact Q. }
  lia.
Qed.

(** ** Adding an element *)
Lemma pa_push v j : pa (v ++ [data_new (length v)]) j = pa v j.
Proof.
  unfold pa. destruct (lt_dec j (length v)) as [L|L].
  - now rewrite nth_error_app1.
  - rewrite nth_error_app2 by lia. replace (nth_error v j) with (@None data).
    + destruct (j - length v) as [|[|k]] eqn:Q; simpl; lia.
    + symmetry. apply nth_error_None. lia.
Qed.

Lemma rk_push v j : rk (v ++ [data_new (length v)]) j = rk v j.
Proof.
  unfold rk. destruct (lt_dec j (length v)) as [L|L].
  - now rewrite nth_error_app1.
  - rewrite nth_error_app2 by lia. replace (nth_error v j) with (@None data).
    + destruct (j - length v) as [|[|k]] eqn:Q; simpl; auto.
    + symmetry. apply nth_error_None. lia.
Qed.

Lemma pa_out v j : length v <= j -> pa v j = j.
Proof. intros H. apply nth_error_None in H. unfold pa. now rewrite H. Qed.

Lemma push_forest v : forest v -> forest (v ++ [data_new (length v)]).
Proof.
  intros F i. rewrite app_length; simpl. intros L. rewrite pa_push, !rk_push.
  destruct (lt_dec i (length v)) as [L2|L2].
  - destruct (F i L2). split; [lia|auto].
  - rewrite pa_out by lia. split; [lia|congruence].
Qed.

Lemma push_roots v i r : forest v -> root (v ++ [data_new (length v)]) i r <->
  root v i r \/ (i = length v /\ r = length v).
Proof.
  intros F. set (w := v ++ [data_new (length v)]).
  assert (Lw : length w = S (length v)) by (unfold w; rewrite app_length; simpl; lia).
  assert (Pw : forall j, pa w j = pa v j) by (intros; apply pa_push).
  split.
  - induction 1 as [i L P|i r L P H IH]; rewrite Pw in *; rewrite Lw in L.
    + destruct (lt_dec i (length v)); [left; now apply root_self|right; lia].
    + destruct (lt_dec i (length v)) as [L2|L2].
      * left. apply root_up; auto. destruct IH as [IH|[IH _]]; auto.
        destruct (F i L2). lia.
      * rewrite pa_out in P by lia. congruence.
  - intros [H|[-> ->]].
    + induction H as [i L P|i r L P H IH].
      * apply root_self; [lia|now rewrite Pw].
      * apply root_up; [lia|now rewrite Pw|now rewrite Pw].
    + apply root_self; [lia|]. rewrite Pw. now apply pa_out.
Qed.

Lemma push_heavy v : forest v -> heavy v -> heavy (v ++ [data_new (length v)]).
Proof.
  intros F H r R. apply (push_roots r r F) in R. destruct R as [R|[-> _]].
  - destruct (H r R) as (l & N & I & S). exists l. split; auto. split; [|now rewrite rk_push].
    intros i X. apply push_roots; auto.
  - exists [length v]. split; [repeat constructor; intros []|]. split.
    + intros i [<-|[]]. apply push_roots; auto.
    + rewrite rk_push. unfold rk. replace (nth_error v (length v)) with (@None data).
      * simpl. lia.
      * symmetry. now apply nth_error_None.
Qed.

(** ** Linking two roots *)
Lemma root_links v hi lo w :
  forest v -> root v hi hi -> root v lo lo -> hi <> lo ->
  length w = length v -> forest w ->
  (forall j, pa w j = if j =? lo then hi else pa v j) ->
  forall i r, root w i r <-> (root v i r /\ r <> lo) \/ (root v i lo /\ r = hi).
Proof.
  intros F Rh Rl Ne Lw Fw Pw.
  assert (Hh : root w hi hi).
  { apply root_self; [rewrite Lw; apply (root_lt Rh)|]. rewrite Pw.
    replace (hi =? lo) with false by (symmetry; now apply Nat.eqb_neq). exact (root_top Rh). }
  assert (D : forall i r, root v i r -> root w i (if r =? lo then hi else r)).
  { induction 1 as [i L P|i r L P H IH].
    - destruct (i =? lo) eqn:Q.
      + apply root_up; [lia| |].
        * rewrite Pw, Q. apply Nat.eqb_eq in Q. congruence.
        * rewrite Pw, Q. exact Hh.
      + apply root_self; [lia|]. now rewrite Pw, Q.
    - assert (Q : (i =? lo) = false).
      { apply Nat.eqb_neq. intros ->. apply P. exact (root_top Rl). }
      apply root_up; [lia| |]; rewrite Pw, Q; auto. }
  intros i r. split.
  - intros H. destruct (root_lt H) as [L _]. rewrite Lw in L.
    destruct (root_exists F L) as [q Q]. pose proof (D _ _ Q) as W.
    rewrite (root_fun H W). destruct (q =? lo) eqn:X.
    + apply Nat.eqb_eq in X; subst. right; auto.
    + left. split; auto. now apply Nat.eqb_neq.
  - intros [[H N]|[H ->]]; pose proof (D _ _ H) as W.
    + replace (r =? lo) with false in W by (symmetry; now apply Nat.eqb_neq). exact W.
    + now rewrite Nat.eqb_refl in W.
Qed.

Lemma nodup_app {A} (l1 l2 : list A) : NoDup l1 -> NoDup l2 -> (forall x, In x l1 -> ~ In x l2) ->
  NoDup (l1 ++ l2).
Proof.
  induction 1 as [|x l1 N1 N IH]; intros N2 D; simpl; auto. constructor.
  - rewrite in_app_iff. intros [X|X]; auto. apply (D x); simpl; auto.
  - apply IH; auto. intros y Y. apply D. simpl; auto.
Qed.

(** [link v lo hi v']: [v'] is [v] with [lo] put below [hi] *)
Definition links v lo hi v' : Prop :=
  length v' = length v /\ forest v' /\ heavy v' /\
  (forall i r, root v' i r <-> (root v i r /\ r <> lo) \/ (root v i lo /\ r = hi)) /\
  (forall i, i <> hi -> rk v' i = rk v i) /\
  rk v' hi = (if (rk v hi =? rk v lo)%N then rk v hi + 1 else rk v hi)%N.

Lemma link_ok E v a b : forest v -> heavy v -> root v a a -> root v b b -> a <> b ->
  (N.log2 (N.of_nat (length v)) < u32_max)%N ->
  exists v', ds_link E v a b = (v', Ret tt) /\
    links v (if (rk v a <? rk v b)%N then a else b) (if (rk v a <? rk v b)%N then b else a) v'.
Proof.
  intros F H Ra Rb Ne B. destruct (root_lt Ra) as [La _]. destruct (root_lt Rb) as [Lb _].
  unfold ds_link.
  destruct (vec_at_lt v La) as (da & Qa & Da). destruct (vec_at_lt v Lb) as (db & Qb & Db).
  rewrite Qa, Qb.
  replace (rank da) with (rk v a) by (unfold rk; now rewrite Da).
  replace (rank db) with (rk v b) by (unfold rk; now rewrite Db).
  set (lower := (rk v a <? rk v b)%N).
  set (hi := if lower then b else a). set (lo := if lower then a else b).
  assert (Rh : root v hi hi) by (unfold hi; destruct lower; auto).
  assert (Rl : root v lo lo) by (unfold lo; destruct lower; auto).
  assert (Nhl : hi <> lo) by (unfold hi, lo; destruct lower; auto).
  assert (Le : (rk v lo <= rk v hi)%N).
  { unfold hi, lo. destruct lower eqn:Q; unfold lower in Q.
    - apply N.ltb_lt in Q. lia. - apply N.ltb_ge in Q. lia. }
  clearbody lower hi lo. clear Qa Qb Da Db Ra Rb La Lb.
  destruct (root_lt Rh) as [Lh _]. destruct (root_lt Rl) as [Ll _].
  destruct (vec_at_lt v Ll) as (dl & -> & Dl).
  replace (rank dl) with (rk v lo) by (unfold rk; now rewrite Dl).
  set (v1 := vec_set v lo (Data hi (rk v lo))).
  assert (L1 : length v1 = length v) by apply vec_set_length.
  destruct (@vec_at_lt _ v1 hi) as (dh & -> & Dh); [lia|].
  destruct (@vec_at_lt _ v1 lo) as (dl1 & -> & Dl1); [lia|].
  assert (Rk1 : forall j, rk v1 j = rk v j).
  { intros j. unfold v1. rewrite rk_set by auto. simpl. destruct (j =? lo) eqn:Q; auto.
    apply Nat.eqb_eq in Q. now subst. }
  assert (P1 : forall j, pa v1 j = if j =? lo then hi else pa v j).
  { intros j. unfold v1. now rewrite pa_set by auto. }
  replace (rank dh) with (rk v hi) by (rewrite <- Rk1; unfold rk; now rewrite Dh).
  replace (rank dl1) with (rk v lo) by (rewrite <- Rk1; unfold rk; now rewrite Dl1).
  replace (parent dh) with hi.
  2: { pose proof (P1 hi) as X. unfold pa at 1 in X. rewrite Dh in X. rewrite X.
       replace (hi =? lo) with false by (symmetry; now apply Nat.eqb_neq). now rewrite (root_top Rh). }
  (* the elements of the two trees *)
  destruct (H hi Rh) as (lh & Nh & Ih & Sh). destruct (H lo Rl) as (ll & Nl & Il & Sl).
  assert (Dis : NoDup (lh ++ ll)).
  { apply nodup_app; auto. intros x X Y. apply Nhl. exact (root_fun (Ih x X) (Il x Y)). }
  assert (Main : forall w, length w = length v -> (forall j, pa w j = if j =? lo then hi else pa v j) ->
    (forall j, j <> hi -> rk w j = rk v j) ->
    rk w hi = (if (rk v hi =? rk v lo)%N then rk v hi + 1 else rk v hi)%N -> links v lo hi w).
  { intros w Lw Pw Rw Rwh.
    assert (Mono : forall j, (rk v j <= rk w j)%N).
    { intros j. destruct (Nat.eq_dec j hi) as [->|Q]; [|rewrite Rw; auto; lia].
      rewrite Rwh. destruct (rk v hi =? rk v lo)%N; lia. }
    assert (Fw : forest w).
    { intros j Lj. rewrite Lw in *. rewrite Pw. destruct (j =? lo) eqn:Q.
      - apply Nat.eqb_eq in Q; subst j. split; [exact Lh|]. intros _.
        rewrite (Rw lo) by auto. rewrite Rwh. destruct (rk v hi =? rk v lo)%N eqn:X.
        + apply N.eqb_eq in X. lia.
        + apply N.eqb_neq in X. lia.
      - destruct (F j Lj) as [X Y]. split; [exact X|]. intros Z. specialize (Y Z).
        rewrite (Rw j).
        + specialize (Mono (pa v j)). lia.
        + intros ->. apply Z. exact (root_top Rh). }
    assert (Rts := root_links F Rh Rl Nhl Lw Fw Pw).
    split; [exact Lw|]. split; [exact Fw|]. split; [|split; [exact Rts|split; [exact Rw|exact Rwh]]].
    intros r R. apply Rts in R. destruct R as [[R Nr]|[R ->]].
    - destruct (Nat.eq_dec r hi) as [->|Q].
      + exists (lh ++ ll). split; [exact Dis|]. split.
        * intros i X. apply Rts. apply in_app_or in X. destruct X as [X|X]; [left|right]; auto.
        * rewrite app_length, Rwh. destruct (rk v hi =? rk v lo)%N eqn:X.
          -- apply N.eqb_eq in X. rewrite <- X in Sl. rewrite N.add_1_r, N.pow_succ_r'. lia.
          -- lia.
      + destruct (H r R) as (l & N & I & S). exists l. split; auto. split; [|now rewrite Rw].
        intros i X. apply Rts. left; auto.
    - exists (lh ++ ll). split; [exact Dis|]. split.
      * intros i X. apply Rts. apply in_app_or in X. destruct X as [X|X]; [left|right]; auto.
      * rewrite app_length, Rwh. destruct (rk v hi =? rk v lo)%N eqn:X.
        -- apply N.eqb_eq in X. rewrite <- X in Sl. rewrite N.add_1_r, N.pow_succ_r'. lia.
        -- lia. }
  destruct (rk v hi =? rk v lo)%N eqn:X.
  - unfold rank_incr.
    assert (Y : (rk v hi + 1 <=? u32_max)%N = true).
    { apply N.leb_le. pose proof (heavy_log F H Lh). lia. }
    rewrite Y. eexists; split; [reflexivity|]. apply Main.
    + now rewrite vec_set_length.
    + intros j. rewrite pa_set by lia. cbn [parent]. destruct (j =? hi) eqn:Q; auto.
      apply Nat.eqb_eq in Q; subst j.
      replace (hi =? lo) with false by (symmetry; now apply Nat.eqb_neq). now rewrite (root_top Rh).
    + intros j Q. rewrite rk_set by lia. apply Nat.eqb_neq in Q. rewrite Q. apply Rk1.
    + rewrite rk_set by lia. now rewrite Nat.eqb_refl.
  - eexists; split; [reflexivity|]. apply Main; auto.
Qed.
