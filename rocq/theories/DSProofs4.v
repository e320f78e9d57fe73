(** Proofs about the disjoint set: queries are invisible, effects of the
    single calls, order of calls. *)
From Coq Require Import Permutation NArith.
From Verif Require Import Base HMModel HMProofs DSModel DSSpec DSRun DSProofs DSProofs2 DSProofs3.
Set Implicit Arguments.

Section Proofs.
Variable K : Type.
Variable eqb : K -> K -> bool.
Hypothesis L : eq_laws eqb.
Variable E : machine.
Implicit Types (s : dset K) (g : log K) (x y z a b k : K) (xs : list K) (ps : list (K * K)).

Notation mem := (mem eqb).
Notation firsts := (firsts eqb).
Notation conn := (conn eqb).
Notation valid := (valid eqb E).
Notation shows := (shows eqb).
Notation joined := (joined eqb).

(** ** Twins: states differing only by path compression *)
Definition twin s s' : Prop := ds_ids s' = ds_ids s /\ same (ds_data s) (ds_data s').

Lemma twin_valid s s' : valid s -> twin s s' -> valid s'.
Proof.
  intros V [Q S]. destruct s' as [ids v]. simpl in *. subst ids. now apply same_valid.
Qed.

Lemma twin_refl s : valid s -> twin s s.
Proof. intros V. split; auto. apply same_refl. apply V. Qed.

Lemma twin_trans s1 s2 s3 : twin s1 s2 -> twin s2 s3 -> twin s1 s3.
Proof. intros [A B] [C D]. split; [congruence|]. eapply same_trans; eauto. Qed.

Lemma twin_sym s s' : valid s -> twin s s' -> twin s' s.
Proof. intros V [A B]. split; [auto|]. apply same_sym; auto. apply V. Qed.

Lemma same_push v v' : forest v -> same v v' ->
  same (v ++ [data_new (length v)]) (v' ++ [data_new (length v)]).
Proof.
  intros F (Ln & Rk & F' & T). split; [rewrite !app_length; simpl; congruence|].
  assert (X : data_new (length v) = data_new (length v')) by congruence.
  split; [|split].
  - intros i. rewrite rk_push, X, rk_push. apply Rk.
  - rewrite X. now apply push_forest.
  - intros i r. rewrite X, (push_roots _ _ F'), <- X, (push_roots _ _ F), T, Ln. tauto.
Qed.

Lemma twin_make x s t : valid s -> twin s t ->
  snd (ds_make_or_get eqb E x t) = snd (ds_make_or_get eqb E x s) /\
  twin (fst (ds_make_or_get eqb E x s)) (fst (ds_make_or_get eqb E x t)) /\
  valid (fst (ds_make_or_get eqb E x s)).
Proof.
  intros V T. pose proof (twin_valid V T) as Vt. pose proof T as [Q S].
  destruct (make_cases x V) as [(k & i & H1 & H2)|[(H1 & Le & H2)|(H1 & Le & H2)]];
  destruct (make_cases x Vt) as [(k' & i' & G1 & G2)|[(G1 & Le' & G2)|(G1 & Le' & G2)]];
    rewrite Q in *; try congruence; rewrite ?H2, ?G2; simpl; try lia.
  - split; [congruence|]. auto.
  - split; [congruence|]. split; [|now apply pushed_valid].
    split; [simpl; congruence|]. simpl. rewrite Q.
    destruct V as (_ & Ld & _ & _ & F & _). rewrite <- Ld. now apply same_push.
  - auto.
Qed.

Lemma twin_find i s t : valid s -> twin s t -> i < length (ds_data s) ->
  exists r, snd (ds_find_in i t) = Ret r /\ snd (ds_find_in i s) = Ret r /\
    root (ds_data s) i r /\
    twin s (fst (ds_find_in i s)) /\ twin s (fst (ds_find_in i t)).
Proof.
  intros V T Li. pose proof (twin_valid V T) as Vt. pose proof T as [Q S].
  destruct (@root_exists (ds_data s) i) as [r R]; [apply V|exact Li|].
  destruct (find_in_ok V R) as (v & H & Sv).
  assert (Rt : root (ds_data t) i r) by (apply S; exact R).
  destruct (find_in_ok Vt Rt) as (v' & H' & Sv').
  exists r. rewrite H, H'. simpl. split; auto. split; auto. split; auto. split; [split; auto|].
  split; [simpl; congruence|]. simpl. exact (same_trans S Sv').
Qed.

Hypothesis U : (N.log2 (N.of_nat (alloc_max E)) < u32_max)%N.

Lemma twin_link i j s t : valid s -> twin s t -> root (ds_data s) i i -> root (ds_data s) j j -> i <> j ->
  exists v v', ds_link E (ds_data s) i j = (v, Ret tt) /\ ds_link E (ds_data t) i j = (v', Ret tt) /\
    same v v'.
Proof.
  intros V T Ra Rb Ne. pose proof (twin_valid V T) as Vt. destruct T as [Q (Ln & Rk & Ft & Tt)].
  assert (B : forall q, valid q -> (N.log2 (N.of_nat (length (ds_data q))) < u32_max)%N).
  { intros q (_ & Ld & Le & _). eapply N.le_lt_trans; [|exact U]. apply N.log2_le_mono. lia. }
  destruct (@link_ok E (ds_data s) i j) as (v & H & Lv); auto; try apply V.
  destruct (@link_ok E (ds_data t) i j) as (v' & H' & Lv'); auto; try apply Vt; try (now apply Tt).
  exists v, v'. split; auto. split; auto. rewrite !Rk in Lv'.
  set (lo := if (rk (ds_data s) i <? rk (ds_data s) j)%N then i else j) in *.
  set (hi := if (rk (ds_data s) i <? rk (ds_data s) j)%N then j else i) in *.
  destruct Lv as (A1 & A2 & A3 & A4 & A5 & A6). destruct Lv' as (B1 & B2 & B3 & B4 & B5 & B6).
  split; [congruence|]. split; [|split; [exact B2|]].
  - intros n. destruct (Nat.eq_dec n hi) as [->|N].
    + rewrite A6, B6, !Rk. reflexivity.
    + rewrite A5, B5, Rk; auto.
  - intros n r. rewrite A4, B4, !Tt. tauto.
Qed.

Lemma twin_union a b s t : valid s -> twin s t ->
  snd (ds_union eqb E a b t) = snd (ds_union eqb E a b s) /\
  twin (fst (ds_union eqb E a b s)) (fst (ds_union eqb E a b t)).
Proof.
  intros V T. unfold ds_union.
  destruct (twin_make a V T) as (O1 & T1 & V1).
  pose proof (make_cases a V) as MC.
  destruct (ds_make_or_get eqb E a s) as [s1 o1] eqn:M1.
  destruct (ds_make_or_get eqb E a t) as [t1 p1] eqn:N1. simpl in *. subst p1.
  destruct o1 as [ia| | | |]; simpl; auto.
  assert (Ia : ia < length (ds_data s1)).
  { destruct MC as [(k & i & H1 & H2)|[(H1 & Le & H2)|(H1 & Le & H2)]]; inversion H2; subst.
    - apply entry_of_some in H1. destruct H1 as [H1 _]. exact (id_lt _ _ V1 H1).
    - destruct V1 as (_ & Ld & _). rewrite Ld. simpl. lia. }
  destruct (twin_make b V1 T1) as (O2 & T2 & V2).
  pose proof (make_cases b V1) as MC2.
  destruct (ds_make_or_get eqb E b s1) as [s2 o2] eqn:M2.
  destruct (ds_make_or_get eqb E b t1) as [t2 p2] eqn:N2. simpl in *. subst p2.
  destruct o2 as [ib| | | |]; simpl; auto.
  assert (Ib : ib < length (ds_data s2) /\ ia < length (ds_data s2)).
  { destruct MC2 as [(k & i & H1 & H2)|[(H1 & Le & H2)|(H1 & Le & H2)]]; inversion H2; subst.
    - apply entry_of_some in H1. destruct H1 as [H1 _]. split; auto. exact (id_lt _ _ V2 H1).
    - destruct V2 as (_ & Ld & _). destruct V1 as (_ & Ld1 & _). rewrite Ld. simpl. lia. }
  destruct Ib as [Ib Ia2].
  destruct (twin_find V2 T2 Ia2) as (ra & F1 & F2 & Ra & T3 & T3').
  destruct (ds_find_in ia s2) as [s3 q3]. destruct (ds_find_in ia t2) as [t3 q3'].
  simpl in *. subst q3 q3'.
  pose proof (twin_valid V2 T3) as V3.
  assert (T33 : twin s3 t3) by (eapply twin_trans; [apply (twin_sym V2 T3)|exact T3']).
  assert (Ib3 : ib < length (ds_data s3)) by (destruct T3 as [_ (Ln & _)]; congruence).
  destruct (twin_find V3 T33 Ib3) as (rb & G1 & G2 & Rb & T4 & T4').
  destruct (ds_find_in ib s3) as [s4 q4]. destruct (ds_find_in ib t3) as [t4 q4'].
  simpl in *. subst q4 q4'.
  pose proof (twin_valid V3 T4) as V4.
  assert (T44 : twin s4 t4) by (eapply twin_trans; [apply (twin_sym V3 T4)|exact T4']).
  destruct (Nat.eqb_spec ra rb) as [Q|Q]; simpl; auto.
  assert (Ra4 : root (ds_data s4) ra ra).
  { apply T4. apply T3. exact (root_root Ra). }
  assert (Rb4 : root (ds_data s4) rb rb) by (apply T4; exact (root_root Rb)).
  destruct (twin_link V4 T44 Ra4 Rb4 Q) as (v & v' & Hv & Hv' & Sv).
  rewrite Hv, Hv'. simpl. split; auto. split; simpl; auto. apply T44.
Qed.

Lemma twin_makes xs s t : valid s -> twin s t ->
  snd (for_each (ds_make_set eqb E) xs t) = snd (for_each (ds_make_set eqb E) xs s) /\
  twin (fst (for_each (ds_make_set eqb E) xs s)) (fst (for_each (ds_make_set eqb E) xs t)).
Proof.
  revert s t. induction xs as [|x xs IH]; intros s t V T; simpl; auto.
  unfold ds_make_set at 1 3 5 7. destruct (twin_make x V T) as (O1 & T1 & V1).
  destruct (ds_make_or_get eqb E x s) as [s1 o1]. destruct (ds_make_or_get eqb E x t) as [t1 p1].
  simpl in *. subst p1. destruct o1 as [i| | | |]; simpl; auto.
Qed.

Lemma twin_reserve n s t : valid s -> twin s t ->
  snd (ds_reserve E n t) = snd (ds_reserve E n s).
Proof.
  intros V [Q S]. unfold ds_reserve, vec_reserve, hm_reserve; simpl. rewrite Q.
  destruct S as (Ln & _). now rewrite Ln.
Qed.

Lemma twin_extend h xs s t : valid s -> twin s t ->
  snd (ds_extend eqb E h xs t) = snd (ds_extend eqb E h xs s) /\
  twin (fst (ds_extend eqb E h xs s)) (fst (ds_extend eqb E h xs t)).
Proof.
  intros V T. unfold ds_extend. pose proof (twin_reserve h V T) as R.
  assert (X : forall q : dset K, fst (ds_reserve E h q) = q) by reflexivity.
  pose proof (X s) as Xs. pose proof (X t) as Xt. clear X.
  destruct (ds_reserve E h s) as [s1 o]. destruct (ds_reserve E h t) as [t1 o']. simpl in *. subst.
  destruct o as [[]| | | |]; simpl; auto. now apply twin_makes.
Qed.

Lemma groups_ext (f f' : nat -> nat) (l : hmap K nat) m : (forall k i, In (k, i) l -> f i = f' i) ->
  groups f l m = groups f' l m.
Proof.
  unfold groups. revert m. induction l as [|[k i] l IH]; intros m H; simpl; auto.
  rewrite (H k i) by (simpl; auto). apply IH. intros k' i' I. apply (H k'). simpl; auto.
Qed.

Lemma twin_step o s t s' r : valid s -> twin s t -> op_ok o -> ds_step eqb E o s = (s', r) ->
  exists t', ds_step eqb E o t = (t', r) /\ twin s' t' /\
    (is_query o = true -> twin s s').
Proof.
  intros V T Ok H. pose proof (twin_valid V T) as Vt.
  assert (UO : forall p q : dset K * outcome unit, snd q = snd p -> twin (fst p) (fst q) ->
    unit_out p = (s', r) -> exists t', unit_out q = (t', r) /\ twin s' t').
  { intros p q X Y Z. unfold unit_out in *. inversion Z; subst. exists (fst q). rewrite X. auto. }
  destruct o; cbn [ds_step is_query] in *.
  - destruct (twin_make x V T) as (O1 & T1 & V1).
    assert (Y : snd (ds_make_set eqb E x t) = snd (ds_make_set eqb E x s) /\
      twin (fst (ds_make_set eqb E x s)) (fst (ds_make_set eqb E x t))).
    { unfold ds_make_set. destruct (ds_make_or_get eqb E x s), (ds_make_or_get eqb E x t). simpl in *.
      subst. auto. }
    destruct (UO _ _ (proj1 Y) (proj2 Y) H) as (t' & A & B). exists t'. split; [exact A|].
    split; [exact B|discriminate].
  - destruct (twin_union a b V T) as [A1 A2]. destruct (UO _ _ A1 A2 H) as (t' & A & B).
    exists t'. split; [exact A|]. split; [exact B|discriminate].
  - destruct (twin_extend hint xs V T) as [A1 A2]. destruct (UO _ _ A1 A2 H) as (t' & A & B).
    exists t'. split; [exact A|]. split; [exact B|discriminate].
  - unfold ds_extend_ref in *. rewrite map_id in *. destruct (twin_extend hint xs V T) as [A1 A2].
    destruct (UO _ _ A1 A2 H) as (t' & A & B).
    exists t'. split; [exact A|]. split; [exact B|discriminate].
  - inversion H; subst. exists (ds_new K). split; [reflexivity|]. split; [|discriminate].
    apply twin_refl. apply new_valid.
  - assert (A2 : twin (fst (ds_reserve E n s)) (fst (ds_reserve E n t))) by exact T.
    destruct (UO _ _ (twin_reserve n V T) A2 H) as (t' & A & B).
    exists t'. split; [exact A|]. split; [exact B|discriminate].
  - inversion H; subst. exists t. destruct T as [Q S]. unfold ds_contains. rewrite Q.
    split; [reflexivity|]. split; [split; auto|]. intros _. now apply twin_refl.
  - destruct (in_union_ok a b V) as (v & bb & Hs & Sv & Bs). rewrite Hs in H. simpl in H.
    inversion H; subst. destruct (in_union_ok a b Vt) as (v' & bb' & Ht & Sv' & Bt).
    rewrite Ht. simpl. destruct T as [Q S].
    assert (bb' = bb).
    { rewrite Q in Bt. assert (X : bb' = true <-> bb = true).
      { rewrite Bs, Bt. split; intros (ka & ia & kb & ib & X & Y & (r & R1 & R2));
          exists ka, ia, kb, ib; (split; [exact X|]); (split; [exact Y|]); exists r;
          [rewrite <- (proj2 (proj2 (proj2 S)) ia r), <- (proj2 (proj2 (proj2 S)) ib r)
          |rewrite (proj2 (proj2 (proj2 S)) ia r), (proj2 (proj2 (proj2 S)) ib r)]; auto. }
      destruct bb, bb'; auto; exfalso; destruct X as [X1 X2]; [discriminate (X2 eq_refl)|discriminate (X1 eq_refl)]. }
    subst bb'. eexists. split; [reflexivity|]. split.
    + split; [simpl; congruence|]. simpl. eapply same_trans; [apply same_sym; [apply V|exact Sv]|].
      exact (same_trans S Sv').
    + intros _. split; auto.
  - inversion H; subst. exists t. destruct T as [Q S]. unfold ds_is_empty. rewrite Q.
    split; [reflexivity|]. split; [split; auto|]. intros _. now apply twin_refl.
  - inversion H; subst. exists t. destruct T as [Q S]. unfold ds_len. rewrite Q.
    split; [reflexivity|]. split; [split; auto|]. intros _. now apply twin_refl.
  - destruct Ok as [Po Pp]. destruct (iter_ok order pick V Po) as (v & Hs & Sv & _).
    rewrite Hs in H. simpl in H. inversion H; subst.
    destruct (iter_ok order pick Vt Po) as (v' & Ht & Sv' & _). rewrite Ht. simpl.
    destruct T as [Q S].
    assert (X : groups (rf (ds_data t)) (order (ds_ids t)) [] = groups (rf (ds_data s)) (order (ds_ids s)) []).
    { rewrite Q. apply groups_ext. intros k i I.
      apply (Permutation_in _ (Permutation_sym (Po (ds_ids s)))) in I.
      destruct (root_of _ _ V I) as [r R]. rewrite (rf_root V R). apply (rf_root Vt). apply S. exact R. }
    rewrite X. eexists. split; [reflexivity|]. split.
    + split; [simpl; congruence|]. simpl. eapply same_trans; [apply same_sym; [apply V|exact Sv]|].
      exact (same_trans S Sv').
    + intros _. split; auto.
Qed.

Lemma step_valid o s s' r : valid s -> op_ok o -> ds_step eqb E o s = (s', r) ->
  (exists g, shows s g) -> valid s' /\ exists g, shows s' g.
Proof.
  intros V Ok H [g S]. destruct (step_ok L U o V S Ok H) as (g' & V' & S' & _). eauto.
Qed.

Lemma twin_run (ops : list (op K)) s t : valid s -> (exists g, shows s g) -> twin s t -> Forall (@op_ok K) ops ->
  snd (ds_run eqb E ops t) = snd (ds_run eqb E ops s).
Proof.
  revert s t. induction ops as [|o ops IH]; intros s t V Sh T Ok; simpl; auto.
  inversion Ok as [|? ? O1 O2]; subst.
  destruct (ds_step eqb E o s) as [s1 r1] eqn:H1.
  destruct (twin_step o V T O1 H1) as (t1 & -> & T1 & _).
  destruct (step_valid _ V O1 H1 Sh) as [V1 Sh1].
  specialize (IH s1 t1 V1 Sh1 T1 O2).
  destruct (ds_run eqb E ops s1), (ds_run eqb E ops t1). simpl in *. congruence.
Qed.

(** calls marked [false] are left out *)
Lemma drop_queries (mops : list (bool * op K)) s t :
  valid s -> (exists g, shows s g) -> twin s t -> Forall (fun p => op_ok (snd p)) mops ->
  Forall (fun p => fst p = false -> is_query (snd p) = true) mops ->
  snd (ds_run eqb E (map snd (filter (fun p => fst p) mops)) t) =
  map snd (filter (fun p => fst p) (combine (map fst mops) (snd (ds_run eqb E (map snd mops) s)))).
Proof.
  revert s t. induction mops as [|[m o] mops IH]; intros s t V Sh T Ok Qr; simpl; auto.
  inversion Ok as [|? ? O1 O2]; inversion Qr as [|? ? Q1 Q2]; subst. simpl in *.
  destruct (ds_step eqb E o s) as [s1 r1] eqn:H1.
  destruct (step_valid _ V O1 H1 Sh) as [V1 Sh1].
  destruct (twin_step o V T O1 H1) as (t1 & Ht & T1 & Tq).
  destruct m; simpl.
  - rewrite Ht. specialize (IH s1 t1 V1 Sh1 T1 O2 Q2).
    destruct (ds_run eqb E (map snd mops) s1) as [s2 tr2]. simpl in *.
    destruct (ds_run eqb E (map snd (filter (fun p => fst p) mops)) t1) as [t2 tr]. simpl in *. congruence.
  - assert (Tn : twin s1 t).
    { eapply twin_trans; [|exact T]. apply twin_sym; auto. }
    specialize (IH s1 t V1 Sh1 Tn O2 Q2).
    destruct (ds_run eqb E (map snd mops) s1) as [s2 tr2]. simpl in *. exact IH.
Qed.

(** ** Effects of the calls, in terms of the queries *)
Lemma joined_together s g x y : valid s -> shows s g -> (joined s x y <-> together eqb g x y).
Proof.
  intros V S. unfold DSRun.joined. destruct (in_union_ok x y V) as (v & bb & H & _ & B). rewrite H. simpl.
  rewrite <- (linked_together L x y V S), <- B. split; congruence.
Qed.

Definition near s x a : Prop := eqb x a = true \/ joined s x a.

Lemma near_conn s g x a : valid s -> shows s g -> (near s x a <-> conn (united g) x a /\
  (eqb x a = true \/ mem x (added g))).
Proof.
  intros V S. unfold near. rewrite (joined_together x a V S). unfold together. split.
  - intros [H|(M1 & M2 & H)]; auto. split; auto. now apply conn_eq.
  - intros [H1 H2]. destruct S as (P & O & C).
    destruct (conn_members L O H1) as [H|[A B]]; auto.
Qed.

Lemma union_joined s s' a b x y : valid s -> (exists g, shows s g) ->
  ds_union eqb E a b s = (s', Ret tt) ->
  (joined s' x y <->
   joined s x y \/ ((near s x a \/ near s x b) /\ (near s y a \/ near s y b))).
Proof.
  intros V [g S] H.
  destruct (union_shows L U a b V S) as [(s1 & H1 & V1 & S1 & _)|[[H1 _]|(s1 & H1 & _)]];
    rewrite H1 in H; inversion H; subst.
  rewrite (joined_together x y V1 S1), (joined_together x y V S).
  rewrite !(near_conn _ _ V S). unfold together; simpl. rewrite (conn_snoc L), !mem_app.
  assert (Mab : forall z, mem z [a; b] <-> eqb z a = true \/ eqb z b = true).
  { intros z. change [a; b] with ([a] ++ [b]). now rewrite mem_app, !mem_one. }
  rewrite !Mab. destruct S as (P & O & C).
  assert (Sy : forall z w, conn (united g) z w -> conn (united g) w z) by (intros; now apply conn_sym).
  split.
  - intros (M1 & M2 & [Q|[[Q1 Q2]|[Q1 Q2]]]).
    + destruct (conn_members L O Q) as [X|[X Y]]; [|left; auto].
      destruct M1 as [M1|[M1|M1]].
      * left. split; auto. split; auto. apply (mem_cong L _ X M1).
      * right. assert (eqb y a = true) by (rewrite <- (eqb_cong L _ X); auto).
        split; left; (split; [now apply conn_eq|auto]).
      * right. assert (eqb y b = true) by (rewrite <- (eqb_cong L _ X); auto).
        split; right; (split; [now apply conn_eq|auto]).
    + right. apply Sy in Q2. destruct (conn_members L O Q1) as [X|[X _]], (conn_members L O Q2) as [Y|[Y _]];
        (split; [left|right]); auto.
    + right. apply Sy in Q2. destruct (conn_members L O Q1) as [X|[X _]], (conn_members L O Q2) as [Y|[Y _]];
        (split; [right|left]); auto.
  - intros [(M1 & M2 & Q)|[X Y]].
    + split; auto.
    + split; [tauto|]. split; [tauto|].
      destruct X as [[X _]|[X _]], Y as [[Y _]|[Y _]].
      * left. eapply conn_trans; eauto.
      * right; left. auto.
      * right; right. auto.
      * left. eapply conn_trans; eauto.
Qed.

Lemma adds_joined s s' g xs x y : valid s -> shows s g -> valid s' ->
  shows s' (Log (added g ++ xs) (united g)) ->
  (joined s' x y <-> joined s x y \/ (mem x xs /\ eqb x y = true)) /\
  (ds_contains eqb x s' = true <-> ds_contains eqb x s = true \/ mem x xs).
Proof.
  intros V S V' S'.
  rewrite (joined_together x y V S), (joined_together x y V' S').
  rewrite (contains_mem L x S), (contains_mem L x S'). unfold together; simpl. rewrite !mem_app.
  split; [|tauto]. destruct S as (P & O & C). split.
  - intros (M1 & M2 & Q). destruct (conn_members L O Q) as [X|[X Y]]; [|left; auto].
    destruct M1 as [M1|M1]; [|right; auto]. left. split; auto. split; auto.
    apply (mem_cong L _ X M1).
  - intros [(M1 & M2 & Q)|[M Q]]; auto. split; auto. split; [|now apply conn_eq].
    right. apply (mem_cong L _ Q M).
Qed.

Lemma extend_joined s s' h xs x y : valid s -> (exists g, shows s g) ->
  ds_extend eqb E h xs s = (s', Ret tt) ->
  (joined s' x y <-> joined s x y \/ (mem x xs /\ eqb x y = true)) /\
  (ds_contains eqb x s' = true <-> ds_contains eqb x s = true \/ mem x xs).
Proof.
  intros V [g S] H. destruct (extend_ok L h xs V S H) as (g' & V' & S' & A).
  cbn [allowed] in A. destruct A as [[_ A]|(_ & _ & A)]; [|discriminate].
  destruct A as [(_ & -> & _)|(A & _)]; [|discriminate].
  eapply adds_joined; eauto.
Qed.

Lemma make_joined s s' k x y : valid s -> (exists g, shows s g) ->
  ds_make_set eqb E k s = (s', Ret tt) ->
  (joined s' x y <-> joined s x y \/ (eqb x k = true /\ eqb y k = true)) /\
  (ds_contains eqb x s' = true <-> ds_contains eqb x s = true \/ eqb x k = true).
Proof.
  intros V [g S] H. unfold ds_make_set in H.
  destruct (make_shows L k V S) as [(s1 & i & k' & H1 & V1 & S1 & _)|[H1 _]]; rewrite H1 in H; inversion H; subst.
  destruct (adds_joined [k] x y V S V1 S1) as [A B]. rewrite A, B, mem_one. split; [|tauto].
  split; (intros [X|[X Y]]; [auto|right; split; auto]).
  - now rewrite <- (eqb_cong L _ Y).
  - rewrite (eqb_cong L _ X). now apply (eq_sym' L).
Qed.

Lemma make_again s k : ds_contains eqb k s = true -> ds_make_set eqb E k s = (s, Ret tt).
Proof.
  unfold ds_contains, hm_contains, ds_make_set, ds_make_or_get, hm_entry.
  destruct (hm_get eqb k (ds_ids s)); [reflexivity|discriminate].
Qed.

Lemma from_iter_joined h xs s x y : ds_from_iter eqb E h xs = Ret s ->
  (joined s x y <-> mem x xs /\ eqb x y = true) /\
  (ds_contains eqb x s = true <-> mem x xs) /\ ds_len s = length (firsts xs).
Proof.
  intros H. destruct (from_iter_shows L E h xs H) as [V S].
  rewrite (joined_together x y V S), (contains_mem L x S). unfold together; simpl. split; [|split; [tauto|]].
  - split.
    + intros (M1 & M2 & Q). split; auto.
      clear - Q L. remember [] as ps eqn:Hp. induction Q as [x y H|x y H|x y H IH|x y z H1 IH1 H2 IH2].
      * exact H. * subst; destruct H. * apply (eq_sym' L). auto. * eapply (eq_trans' L); eauto.
    + intros [M Q]. split; auto. split; [apply (mem_cong L _ Q M)|now apply conn_eq].
  - unfold ds_len. rewrite <- (size_len S). reflexivity.
Qed.

(** ** Iteration in terms of the queries *)
Lemma pairwise_perm (l l' : list K) : Permutation l l' ->
  ForallOrdPairs (fun a b => eqb a b = false) l -> ForallOrdPairs (fun a b => eqb a b = false) l'.
Proof.
  intros P H.
  assert (X : forall q : list K, map fst (map (fun k => (k, tt)) q) = q).
  { intros q. rewrite map_map. simpl. apply map_id. }
  rewrite <- (X l') . rewrite <- (X l) in H. apply wf_keys. apply wf_keys in H.
  eapply (wf_perm L); [|exact H]. now apply Permutation_map.
Qed.

Lemma firsts_distinct xs : ForallOrdPairs (fun a b => eqb a b = false) (firsts xs).
Proof.
  induction xs as [|x xs IH] using rev_ind; [constructor|].
  rewrite (firsts_snoc L). destruct (memb eqb x xs) eqn:Q; [now rewrite app_nil_r|].
  apply (pairwise_perm (Permutation_cons_append (firsts xs) x)). constructor; auto.
  rewrite Forall_forall. intros y Y. destruct (eqb x y) eqn:X; auto. exfalso.
  apply (memb_false eqb) in Q. apply Q. apply (firsts_mem L). exists y. auto.
Qed.

Lemma iter_partition s order pick : valid s -> (exists g, shows s g) ->
  (forall l, Permutation l (order l)) -> (forall l, Permutation l (pick l)) ->
  exists s' ss, ds_step eqb E (OIter order pick) s = (s', Ret (RSets ss)) /\
    Forall (fun q => q <> []) ss /\
    ForallOrdPairs (fun a b => eqb a b = false) (concat ss) /\
    (forall x, ds_contains eqb x s = true <-> mem x (concat ss)) /\
    length (concat ss) = ds_len s /\
    (forall x y, joined s x y <-> exists q, In q ss /\ mem x q /\ mem y q).
Proof.
  intros V [g S] Po Pp.
  destruct (ds_step eqb E (OIter order pick) s) as [s' r] eqn:H.
  destruct (step_ok L U (OIter order pick) V S (conj Po Pp) H) as (g' & V' & S' & A).
  cbn [allowed] in A. destruct A as [-> (ss & (P & Ne & In1 & Ap) & ->)].
  exists s', ss. split; [reflexivity|]. split; [exact Ne|].
  split; [exact (pairwise_perm P (firsts_distinct _))|].
  assert (M : forall x, mem x (added g) <-> mem x (concat ss)).
  { intros x. rewrite <- (firsts_mem L). unfold DSSpec.mem.
    split; intros (y & I & Q); exists y; (split; [|exact Q]);
      [exact (Permutation_in _ P I)|exact (Permutation_in _ (Permutation_sym P) I)]. }
  split; [intros x; rewrite (contains_mem L x S); apply M|].
  split; [rewrite <- (Permutation_length P); unfold ds_len; now rewrite <- (size_len S)|].
  intros x y. rewrite (joined_together x y V S). unfold together. rewrite !M. split.
  - intros (M1 & M2 & Q). destruct M1 as (x' & I1 & Q1). destruct M2 as (y' & I2 & Q2).
    apply in_concat in I1, I2. destruct I1 as (q1 & J1 & I1), I2 as (q2 & J2 & I2).
    exists q1. split; auto. split; [exists x'; auto|].
    assert (C : conn (united g) x' y').
    { apply conn_trans with x; [apply conn_eq; now apply (eq_sym' L)|].
      apply conn_trans with y; auto. now apply conn_eq. }
    destruct (ForallOrdPairs_In Ap _ _ J1 J2) as [X|[X|X]].
    + subst q2. exists y'. auto.
    + exfalso. apply (X x' y'); auto.
    + exfalso. apply (X y' x'); auto. now apply conn_sym.
  - intros (q & J & (x' & I1 & Q1) & (y' & I2 & Q2)).
    split; [exists x'; split; auto; apply in_concat; eauto|].
    split; [exists y'; split; auto; apply in_concat; eauto|].
    rewrite Forall_forall in In1.
    apply conn_trans with x'; [now apply conn_eq|].
    apply conn_trans with y'; [now apply (In1 q)|]. apply conn_eq. now apply (eq_sym' L).
Qed.

Lemma from_iter_sets h xs s order pick : ds_from_iter eqb E h xs = Ret s ->
  (forall l, Permutation l (order l)) -> (forall l, Permutation l (pick l)) ->
  exists s' ss, ds_step eqb E (OIter order pick) s = (s', Ret (RSets ss)) /\
    Permutation (map (fun x => [x]) (firsts xs)) ss.
Proof.
  intros Hf Po Pp. destruct (from_iter_shows L E h xs Hf) as [V S].
  destruct (ds_step eqb E (OIter order pick) s) as [s' r] eqn:H.
  destruct (step_ok L U (OIter order pick) V S (conj Po Pp) H) as (g' & V' & S' & A).
  cbn [allowed] in A. destruct A as [-> (ss & (P & Ne & In1 & Ap) & ->)].
  exists s', ss. split; [reflexivity|]. simpl in *.
  assert (D := pairwise_perm P (firsts_distinct _)).
  assert (Sg : Forall (fun q => exists x, q = [x]) ss).
  { clear - Ne In1 D L. induction ss as [|q ss IH]; constructor.
    - inversion Ne as [|? ? N1 N2]; inversion In1 as [|? ? I1 I2]; subst. simpl in D.
      destruct q as [|x [|y q]]; [congruence|eauto|]. exfalso.
      assert (Q : conn [] x y) by (apply I1; simpl; auto).
      assert (Q2 : eqb x y = true).
      { clear - Q L. remember [] as ps eqn:Hp. induction Q as [x y H|x y H|x y H IH|x y z H1 IH1 H2 IH2].
        * exact H. * subst; destruct H. * apply (eq_sym' L). auto. * eapply (eq_trans' L); eauto. }
      simpl in D. inversion D as [|? ? D1 D2]; subst. inversion D1; subst. congruence.
    - apply IH.
      + now inversion Ne.
      + now inversion In1.
      + simpl in D. clear - D. induction q as [|x q IHq]; auto. simpl in D. inversion D; auto. }
  replace ss with (map (fun x => [x]) (concat ss)); [now apply Permutation_map|].
  clear - Sg. induction Sg as [|q ss [x ->] Sg IH]; simpl; auto. now rewrite IH.
Qed.

(** ** The order of the calls *)
Lemma history_replay (ops : list (op K)) g g' tr : history eqb E ops g g' tr -> ~ In Panic tr ->
  g' = replay ops g.
Proof.
  unfold replay. induction 1 as [|o ops g g1 g2 r tr A H IH]; intros N; simpl; auto.
  rewrite IH by (intros X; apply N; simpl; auto). f_equal.
  assert (Nr : r <> Panic) by (intros X; apply N; simpl; auto).
  destruct o; cbn [allowed record] in *; unfold adds in *;
    repeat match goal with
    | H : _ /\ _ |- _ => destruct H
    | H : _ \/ _ |- _ => destruct H
    end; subst; congruence.
Qed.

Lemma distinct_incl (l1 l2 : list K) : ForallOrdPairs (fun a b => eqb a b = false) l1 ->
  (forall x, In x l1 -> mem x l2) -> length l1 <= length l2.
Proof.
  revert l2. induction l1 as [|x l1 IH]; intros l2 D H; simpl; [lia|].
  inversion D as [|? ? D1 D2]; subst.
  destruct (H x) as (y & I & Q); [simpl; auto|]. apply in_split in I. destruct I as (p & q & ->).
  assert (Le : length l1 <= length (p ++ q)).
  { apply IH; auto. intros z Z. destruct (H z) as (w & I & Qw); [simpl; auto|]. exists w. split; auto.
    apply in_app_iff. apply in_app_iff in I. destruct I as [I|[I|I]]; auto. exfalso. subst w.
    rewrite Forall_forall in D1. specialize (D1 z Z).
    rewrite (eqb_cong L _ Q) in D1. apply (eq_sym' L) in Qw. congruence. }
  rewrite app_length in *. simpl. lia.
Qed.

Lemma firsts_len_le xs ys : (forall x, mem x xs -> mem x ys) -> length (firsts xs) <= length (firsts ys).
Proof.
  intros H. apply distinct_incl; [apply firsts_distinct|]. intros x I.
  apply (firsts_mem L). apply H. apply (firsts_mem L). exists x. split; auto. apply (eq_refl' L).
Qed.

Lemma conn_has ps ps' x y : (forall p, In p ps -> has_pair eqb p ps') -> conn ps x y -> conn ps' x y.
Proof.
  intros H. induction 1 as [x y Q|x y Q|x y Q IH|x y z Q1 IH1 Q2 IH2].
  - now apply conn_eq.
  - destruct (H _ Q) as ([p q] & I & X). simpl in X.
    destruct X as [[X Y]|[X Y]].
    + apply conn_trans with p; [now apply conn_eq|]. apply conn_trans with q; [now apply conn_pair|].
      apply conn_eq. now apply (eq_sym' L).
    + apply conn_trans with q; [now apply conn_eq|]. apply conn_trans with p.
      * apply conn_sym. now apply conn_pair.
      * apply conn_eq. now apply (eq_sym' L).
  - now apply conn_sym.
  - eapply conn_trans; eauto.
Qed.

Lemma same_facts_agree s g s' g' x y : valid s -> shows s g -> valid s' -> shows s' g' ->
  same_facts eqb g g' ->
  (joined s x y <-> joined s' x y) /\ ds_contains eqb x s = ds_contains eqb x s' /\ ds_len s = ds_len s'.
Proof.
  intros V S V' S' (M & P & P').
  split; [|split].
  - rewrite (joined_together x y V S), (joined_together x y V' S'). unfold together. rewrite !M.
    split; intros (A & B & C); (split; [exact A|split; [exact B|]]); eapply conn_has; eauto.
  - pose proof (contains_mem L x S) as A. pose proof (contains_mem L x S') as B. rewrite M in A.
    destruct (ds_contains eqb x s), (ds_contains eqb x s'); auto.
    + symmetry. apply B, A. reflexivity.
    + apply A, B. reflexivity.
  - unfold ds_len. rewrite <- (size_len S), <- (size_len S'). unfold size.
    apply Nat.le_antisymm; apply firsts_len_le; intros z; apply M.
Qed.

(** ** Room and outcomes *)
Lemma allowed_total o g g' r : allowed eqb E o g g' r -> r = Panic \/ exists v, r = Ret v.
Proof.
  destruct o; cbn [allowed]; unfold adds; intros;
    repeat match goal with
    | H : _ /\ _ |- _ => destruct H
    | H : _ \/ _ |- _ => destruct H
    | H : ex _ |- _ => destruct H
    | H : context [if ?b then _ else _] |- _ => destruct b
    end; subst; eauto.
Qed.

Lemma firsts_app_le xs ys : length (firsts (xs ++ ys)) <= length (firsts xs) + length ys.
Proof.
  induction ys as [|y ys IH] using rev_ind; [rewrite app_nil_r; simpl; lia|].
  rewrite app_assoc, (firsts_snoc L), !app_length. simpl. destruct (memb eqb y (xs ++ ys)); simpl; lia.
Qed.

Lemma adds_room xs g g' : adds eqb E xs g g' Panic -> alloc_max E < size eqb g + length xs.
Proof.
  intros [(X & _)|(_ & l1 & x & l2 & -> & _ & N & Q)]; [discriminate|].
  unfold size. rewrite <- Q. rewrite app_length. simpl.
  pose proof (firsts_app_le (added g) l1). lia.
Qed.

Lemma allowed_room o g g' : allowed eqb E o g g' Panic -> alloc_max E < size eqb g + demand o.
Proof.
  destruct o; cbn [allowed demand]; intros H.
  - apply adds_room in H. exact H.
  - destruct H as [(X & _)|(_ & H)]; [discriminate|]. apply adds_room in H. exact H.
  - destruct H as [(_ & H)|(H & _)]; [apply adds_room in H|]; lia.
  - destruct H as [(_ & H)|(H & _)]; [apply adds_room in H|]; lia.
  - destruct H; discriminate.
  - destruct H as [_ H]. destruct (Nat.leb_spec (size eqb g + n) (alloc_max E)); [discriminate|lia].
  - destruct H as (_ & b & _ & H); discriminate.
  - destruct H as (_ & b' & _ & H); discriminate.
  - destruct H as (_ & b & _ & H); discriminate.
  - destruct H; discriminate.
  - destruct H as (_ & b & _ & H); discriminate.
Qed.

Lemma step_returns o s s' r : valid s -> (exists g, shows s g) -> op_ok o -> ds_step eqb E o s = (s', r) ->
  (r = Panic \/ exists v, r = Ret v) /\
  (ds_len s + demand o <= alloc_max E -> exists v, r = Ret v).
Proof.
  intros V [g S] Ok H. destruct (step_ok L U o V S Ok H) as (g' & V' & S' & A).
  pose proof (allowed_total _ _ _ _ A) as T. split; [exact T|]. intros Le.
  destruct T as [->|T]; auto. exfalso. apply allowed_room in A.
  unfold ds_len in Le. rewrite <- (size_len S) in Le. lia.
Qed.

Lemma find_depth s i : valid s -> i < ds_len s ->
  exists v r, ds_find (S (Nat.log2 (ds_len s))) (ds_data s) i = (v, Ret r).
Proof.
  intros V Li. pose proof V as (_ & Ld & _ & _ & F & H). unfold ds_len in *.
  assert (Li' : i < length (ds_data s)) by (rewrite Ld; exact Li).
  destruct (root_exists F Li') as [r R]. pose proof (find_fuel F H R) as B.
  destruct (find_ok F R B) as (v & Q & _).
  exists v, r. rewrite <- Ld. exact Q.
Qed.

Lemma rank_size s d : valid s -> In d (ds_data s) ->
  (2 ^ rank d <= N.of_nat (ds_len s))%N /\ (rank d < u32_max)%N.
Proof.
  intros V I. pose proof V as (_ & Ld & Le & _ & F & H). unfold ds_len.
  apply In_nth_error in I. destruct I as [i Q].
  assert (Li : i < length (ds_data s)) by (apply nth_error_Some; congruence).
  assert (Rk : rank d = rk (ds_data s) i) by (unfold rk; now rewrite Q).
  rewrite Rk, <- Ld. split; [now apply heavy_rank|].
  eapply N.le_lt_trans; [apply (heavy_log F H Li)|].
  eapply N.le_lt_trans; [|exact U]. apply N.log2_le_mono. lia.
Qed.

(** ** Copies: states equal up to replacing the stored elements by equal ones *)
Definition copies s t : Prop :=
  Forall2 (fun e e' => eqb (fst e) (fst e') = true /\ snd e = snd e') (ds_ids s) (ds_ids t) /\
  ds_data t = ds_data s.

Lemma copies_get s t x : copies s t -> hm_get eqb x (ds_ids t) = hm_get eqb x (ds_ids s).
Proof.
  intros [F _]. induction F as [|[k i] [k' i'] l l' [Q1 Q2] F IH]; auto.
  unfold hm_get in *. simpl in *. subst i'. rewrite (eqb_cong_r L x (eq_sym' L _ _ Q1)).
  destruct (eqb x k); auto.
Qed.

Lemma copies_len s t : copies s t -> length (ds_ids t) = length (ds_ids s).
Proof. intros [F _]. induction F; simpl; auto. Qed.

Lemma copies_make x s t : copies s t ->
  snd (ds_make_or_get eqb E x t) = snd (ds_make_or_get eqb E x s) /\
  copies (fst (ds_make_or_get eqb E x s)) (fst (ds_make_or_get eqb E x t)).
Proof.
  intros C. pose proof (copies_get x C) as G. pose proof (copies_len C) as Ln. pose proof C as [F D].
  unfold ds_make_or_get, hm_entry. rewrite G, Ln, D.
  destruct (hm_get eqb x (ds_ids s)) as [i|]; simpl; auto.
  unfold hm_reserve. rewrite Ln. destruct (length (ds_ids s) + 1 <=? alloc_max E); simpl; auto.
  assert (X : forall v, copies (DSet (hm_insert_vacant x (length (ds_ids s)) (ds_ids s)) v)
                (DSet (hm_insert_vacant x (length (ds_ids s)) (ds_ids t)) v)).
  { intros v. split; simpl; auto. constructor; auto. split; [apply (eq_refl' L)|reflexivity]. }
  destruct (vec_push E (ds_data s) (data_new (length (ds_ids s)))); simpl; auto.
Qed.

Lemma copies_find i s t : copies s t ->
  snd (ds_find_in i t) = snd (ds_find_in i s) /\ copies (fst (ds_find_in i s)) (fst (ds_find_in i t)).
Proof.
  intros [F D]. unfold ds_find_in. rewrite D. destruct (ds_find _ (ds_data s) i); simpl.
  split; auto. split; auto.
Qed.

Lemma copies_union a b s t : copies s t ->
  snd (ds_union eqb E a b t) = snd (ds_union eqb E a b s) /\
  copies (fst (ds_union eqb E a b s)) (fst (ds_union eqb E a b t)).
Proof.
  intros C. unfold ds_union.
  destruct (copies_make a C) as [O1 C1].
  destruct (ds_make_or_get eqb E a s) as [s1 o1]. destruct (ds_make_or_get eqb E a t) as [t1 p1].
  simpl in *. subst p1. destruct o1 as [ia| | | |]; simpl; auto.
  destruct (copies_make b C1) as [O2 C2].
  destruct (ds_make_or_get eqb E b s1) as [s2 o2]. destruct (ds_make_or_get eqb E b t1) as [t2 p2].
  simpl in *. subst p2. destruct o2 as [ib| | | |]; simpl; auto.
  destruct (copies_find ia C2) as [O3 C3].
  destruct (ds_find_in ia s2) as [s3 o3]. destruct (ds_find_in ia t2) as [t3 p3].
  simpl in *. subst p3. destruct o3 as [ra| | | |]; simpl; auto.
  destruct (copies_find ib C3) as [O4 C4].
  destruct (ds_find_in ib s3) as [s4 o4]. destruct (ds_find_in ib t3) as [t4 p4].
  simpl in *. subst p4. destruct o4 as [rb| | | |]; simpl; auto.
  destruct (ra =? rb); simpl; auto. pose proof C4 as [F4 D4]. rewrite D4.
  destruct (ds_link E (ds_data s4) ra rb); simpl. split; auto. split; auto.
Qed.

Lemma copies_makes xs s t : copies s t ->
  snd (for_each (ds_make_set eqb E) xs t) = snd (for_each (ds_make_set eqb E) xs s) /\
  copies (fst (for_each (ds_make_set eqb E) xs s)) (fst (for_each (ds_make_set eqb E) xs t)).
Proof.
  revert s t. induction xs as [|x xs IH]; intros s t C; simpl; auto.
  unfold ds_make_set at 1 3 5 7. destruct (copies_make x C) as (O1 & C1).
  destruct (ds_make_or_get eqb E x s) as [s1 o1]. destruct (ds_make_or_get eqb E x t) as [t1 p1].
  simpl in *. subst p1. destruct o1 as [i| | | |]; simpl; auto.
Qed.

Lemma copies_reserve n s t : copies s t -> snd (ds_reserve E n t) = snd (ds_reserve E n s).
Proof.
  intros C. pose proof (copies_len C) as Ln. destruct C as [_ D].
  unfold ds_reserve, vec_reserve, hm_reserve; simpl. now rewrite Ln, D.
Qed.

Lemma copies_extend h xs s t : copies s t ->
  snd (ds_extend eqb E h xs t) = snd (ds_extend eqb E h xs s) /\
  copies (fst (ds_extend eqb E h xs s)) (fst (ds_extend eqb E h xs t)).
Proof.
  intros C. unfold ds_extend. pose proof (copies_reserve h C) as R.
  assert (X : forall q : dset K, fst (ds_reserve E h q) = q) by reflexivity.
  pose proof (X s) as Xs. pose proof (X t) as Xt. clear X.
  destruct (ds_reserve E h s) as [s1 o]. destruct (ds_reserve E h t) as [t1 o']. simpl in *. subst.
  destruct o as [[]| | | |]; simpl; auto. now apply copies_makes.
Qed.

Lemma copies_step o s t : copies s t -> (forall p q, o <> OIter p q) ->
  snd (ds_step eqb E o t) = snd (ds_step eqb E o s) /\
  copies (fst (ds_step eqb E o s)) (fst (ds_step eqb E o t)).
Proof.
  intros C N. pose proof (fun x => copies_get x C) as G. pose proof (copies_len C) as Ln.
  destruct o; cbn [ds_step]; unfold unit_out; cbn [fst snd].
  - unfold ds_make_set. destruct (copies_make x C) as (O1 & C1).
    destruct (ds_make_or_get eqb E x s), (ds_make_or_get eqb E x t). simpl in *. subst. auto.
  - destruct (copies_union a b C) as [A B]. rewrite A. auto.
  - destruct (copies_extend hint xs C) as [A B]. rewrite A. auto.
  - unfold ds_extend_ref. rewrite !map_id. destruct (copies_extend hint xs C) as [A B].
    unfold ds_extend in A, B. rewrite A. auto.
  - split; auto. split; constructor.
  - rewrite (copies_reserve n C). auto.
  - split; auto. unfold ds_contains, hm_contains. now rewrite G.
  - unfold ds_in_union. rewrite !G.
    destruct (hm_get eqb a (ds_ids s)) as [ia|]; simpl; auto.
    destruct (hm_get eqb b (ds_ids s)) as [ib|]; simpl; auto.
    destruct (copies_find ia C) as [O3 C3].
    destruct (ds_find_in ia s) as [s3 o3]. destruct (ds_find_in ia t) as [t3 p3].
    simpl in *. subst p3. destruct o3 as [ra| | | |]; simpl; auto.
    destruct (copies_find ib C3) as [O4 C4].
    destruct (ds_find_in ib s3) as [s4 o4]. destruct (ds_find_in ib t3) as [t4 p4].
    simpl in *. subst p4. destruct o4 as [rb| | | |]; simpl; auto.
  - unfold ds_is_empty. rewrite Ln. auto.
  - unfold ds_len. rewrite Ln. auto.
  - destruct (N order pick eq_refl).
Qed.

Lemma copies_run (ops : list (op K)) s t : copies s t -> (forall p q, ~ In (OIter p q) ops) ->
  snd (ds_run eqb E ops t) = snd (ds_run eqb E ops s).
Proof.
  revert s t. induction ops as [|o ops IH]; intros s t C N; simpl; auto.
  destruct (@copies_step o s t C) as [A B]; [intros p q ->; apply (N p q); simpl; auto|].
  destruct (ds_step eqb E o s) as [s1 r1], (ds_step eqb E o t) as [t1 r1']. simpl in *. subst r1'.
  specialize (IH s1 t1 B). destruct (ds_run eqb E ops s1), (ds_run eqb E ops t1). simpl in *.
  f_equal. apply IH. intros p q X. apply (N p q). auto.
Qed.

Lemma clone_copies cl s : (forall k, eqb (cl k) k = true) -> copies s (ds_clone cl s).
Proof.
  intros CL. split; [|reflexivity]. simpl. induction (ds_ids s) as [|e l IH]; constructor; auto.
  split; auto. simpl. apply (eq_sym' L). apply CL.
Qed.

(** ** Statements without an element at hand *)
Lemma from_iter_len h xs s : ds_from_iter eqb E h xs = Ret s -> ds_len s = length (firsts xs).
Proof.
  intros H. destruct (from_iter_shows L E h xs H) as [V S]. unfold ds_len. now rewrite <- (size_len S).
Qed.

Lemma from_iter_obs h xs s : ds_from_iter eqb E h xs = Ret s ->
  (forall x y, joined s x y <-> mem x xs /\ eqb x y = true) /\
  (forall x, ds_contains eqb x s = true <-> mem x xs) /\ ds_len s = length (firsts xs).
Proof.
  intros H. split; [|split; [|now apply from_iter_len with h]].
  - intros x y. apply (from_iter_joined h xs x y H).
  - intros x. apply (from_iter_joined h xs x x H).
Qed.

Lemma from_iter_ref_obs cl h xs s : (forall k, eqb (cl k) k = true) -> ds_from_iter_ref eqb cl E h xs = Ret s ->
  (forall x y, joined s x y <-> mem x xs /\ eqb x y = true) /\
  (forall x, ds_contains eqb x s = true <-> mem x xs) /\ ds_len s = length (firsts xs).
Proof.
  intros CL H. assert (X : ds_from_iter eqb E h (map cl xs) = Ret s) by exact H.
  destruct (from_iter_obs _ _ X) as (A & B & C). rewrite (firsts_cl L _ _ CL), map_length in C.
  split; [|split; [|exact C]].
  - intros x y. rewrite A. now rewrite (mem_cl L cl).
  - intros x. rewrite B. now rewrite (mem_cl L cl).
Qed.

Lemma same_facts_obs s g s' g' : valid s -> shows s g -> valid s' -> shows s' g' ->
  same_facts eqb g g' ->
  (forall x y, joined s x y <-> joined s' x y) /\
  (forall x, ds_contains eqb x s = ds_contains eqb x s') /\ ds_len s = ds_len s'.
Proof.
  intros V S V' S' F. split; [|split].
  - intros x y. apply (same_facts_agree x y V S V' S' F).
  - intros x. apply (same_facts_agree x x V S V' S' F).
  - destruct F as (M & _). unfold ds_len. rewrite <- (size_len S), <- (size_len S'). unfold size.
    apply Nat.le_antisymm; apply firsts_len_le; intros z; apply M.
Qed.

Lemma replay_flat (ops : list (op K)) g : ~ In OClear ops ->
  added (replay ops g) = added g ++ flat_map (fun o => added (record o empty_log)) ops /\
  united (replay ops g) = united g ++ flat_map (fun o => united (record o empty_log)) ops.
Proof.
  unfold replay. revert g. induction ops as [|o ops IH]; intros g N; simpl.
  - now rewrite !app_nil_r.
  - destruct (IH (record o g)) as [A B]; [intros X; apply N; simpl; auto|]. rewrite A, B.
    destruct o; simpl; rewrite <- ?app_assoc; auto. destruct N. simpl; auto.
Qed.

Lemma has_refl p ps : In p ps -> has_pair eqb p ps.
Proof. intros I. exists p. split; auto. left. split; apply (eq_refl' L). Qed.

Lemma permuted_facts (ops1 ops2 : list (op K)) : Permutation ops1 ops2 -> ~ In OClear ops1 ->
  same_facts eqb (replay ops1 empty_log) (replay ops2 empty_log).
Proof.
  intros P N. assert (N2 : ~ In OClear ops2).
  { intros X. apply N. exact (Permutation_in _ (Permutation_sym P) X). }
  destruct (replay_flat ops1 empty_log N) as [A1 B1]. destruct (replay_flat ops2 empty_log N2) as [A2 B2].
  unfold same_facts. rewrite A1, A2, B1, B2. simpl.
  pose proof (Permutation_flat_map (fun o => added (record o empty_log)) P) as PA.
  pose proof (Permutation_flat_map (fun o => united (record o empty_log)) P) as PB.
  split; [|split].
  - intros x. unfold DSSpec.mem. split; intros (y & I & Q); exists y; (split; [|exact Q]).
    + exact (Permutation_in _ PA I).
    + exact (Permutation_in _ (Permutation_sym PA) I).
  - intros p I. apply has_refl. exact (Permutation_in _ PB I).
  - intros p I. apply has_refl. exact (Permutation_in _ (Permutation_sym PB) I).
Qed.

End Proofs.

(** ** Iterating over a clone *)
Section Clone.
Variable K : Type.
Variable eqb : K -> K -> bool.
Variable cl : K -> K.
Variable E : machine.
Implicit Types (s : dset K).

Let fid : K * nat -> K * nat := fun p => (cl (fst p), snd p).
Let fset : nat * list K -> nat * list K := fun p => (fst p, map cl (snd p)).

Lemma clone_find i s s' o : ds_find_in i s = (s', o) -> ds_find_in i (ds_clone cl s) = (ds_clone cl s', o).
Proof.
  unfold ds_find_in, ds_clone. cbn [ds_ids ds_data]. destruct (ds_find (S (length (ds_data s))) (ds_data s) i). intros H; inversion H; subst.
  reflexivity.
Qed.

Lemma entry_fset r m : hm_entry_of Nat.eqb r (map fset m) = option_map fset (hm_entry_of Nat.eqb r m).
Proof. induction m as [|[k v] m IH]; cbn [map hm_entry_of fset fst snd]; auto. destruct (r =? k); auto. Qed.

Lemma set_fset r v m : hm_set Nat.eqb r (map cl v) (map fset m) = map fset (hm_set Nat.eqb r v m).
Proof.
  induction m as [|[k w] m IH]; cbn [map hm_set fset fst snd]; auto.
  destruct (r =? k); cbn [map fset fst snd]; auto. now rewrite IH.
Qed.

Lemma clone_push r key m m1 o : ds_group_push E r key m = (m1, o) ->
  ds_group_push E r (cl key) (map fset m) = (map fset m1, o).
Proof.
  unfold ds_group_push, hm_or_insert, hm_entry, hm_get, hm_reserve. rewrite entry_fset, map_length.
  destruct (hm_entry_of Nat.eqb r m) as [[k v]|]; cbn [option_map fset fst snd].
  - unfold vec_push. rewrite map_length. destruct (length v + 1 <=? alloc_max E); intros H; inversion H; subst; auto.
    rewrite <- set_fset, map_app. reflexivity.
  - destruct (length m + 1 <=? alloc_max E); cbn [obind]; [|intros H; inversion H; subst; auto].
    unfold vec_push. cbn [length].
    destruct (0 + 1 <=? alloc_max E); intros H; inversion H; subst; auto.
    f_equal. exact (set_fset r [key] ((r, []) :: m)).
Qed.

Lemma clone_group l s m s' o : ds_group E l s m = (s', o) ->
  ds_group E (map fid l) (ds_clone cl s) (map fset m) = (ds_clone cl s', omap (map fset) o).
Proof.
  revert s m. induction l as [|[key val] l IH]; intros s m; cbn [map ds_group fid fst snd].
  - intros H; inversion H; subst. reflexivity.
  - destruct (ds_find_in val s) as [s1 q] eqn:F. rewrite (clone_find _ _ F).
    destruct q as [r| | | |]; try (intros H; inversion H; subst; reflexivity).
    destruct (ds_group_push E r key m) as [m1 p] eqn:G. rewrite (clone_push _ _ _ G).
    destruct p as [[]| | | |]; try (intros H; inversion H; subst; reflexivity). apply IH.
Qed.

Lemma drain_fset n it : drain n (map fset it) = map (map cl) (drain n it).
Proof. revert it. induction n as [|n IH]; intros [|[k v] it]; simpl; auto. now rewrite IH. Qed.

Lemma clone_iter s order pick order' pick' s' ss :
  (forall l, order' (map (fun p => (cl (fst p), snd p)) l) = map (fun p => (cl (fst p), snd p)) (order l)) ->
  (forall l, pick' (map (fun p => (fst p, map cl (snd p))) l) = map (fun p => (fst p, map cl (snd p))) (pick l)) ->
  ds_step eqb E (OIter order pick) s = (s', Ret (RSets ss)) ->
  ds_step eqb E (OIter order' pick') (ds_clone cl s) = (ds_clone cl s', Ret (RSets (map (map cl) ss))).
Proof.
  intros Ho Hp. cbn [ds_step]. unfold ds_into_iter, ds_build_sets.
  destruct (ds_group E (order (ds_ids s)) s []) as [s1 o] eqn:G. apply clone_group in G.
  change (ds_ids (ds_clone cl s)) with (map (fun p => (cl (fst p), snd p)) (ds_ids s)).
  rewrite Ho. unfold fid in G. cbn [map] in G.
  rewrite G. destruct o as [m| | | |]; try discriminate.
  cbn [omap obind]. intros H. injection H as <- <-. unfold si_new.
  assert (Hp' : pick' (map fset m) = map fset (pick m)) by apply Hp.
  rewrite Hp', map_length, drain_fset. reflexivity.
Qed.
End Clone.
