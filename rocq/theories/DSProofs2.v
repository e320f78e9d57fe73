(** Proofs about the disjoint set: the state represents the log. *)
From Coq Require Import Permutation NArith.
From Verif Require Import Base HMModel HMProofs DSModel DSSpec DSRun DSProofs.
Set Implicit Arguments.

Section Proofs.
Variable K : Type.
Variable eqb : K -> K -> bool.
Hypothesis L : eq_laws eqb.
Implicit Types (s : dset K) (g : log K) (x y z a b k : K) (xs : list K) (ps : list (K * K)).

Notation mem := (mem eqb).
Notation memb := (memb eqb).
Notation firsts := (firsts eqb).
Notation conn := (conn eqb).

(** ** Membership and first elements *)
Lemma memb_mem x xs : memb x xs = true <-> mem x xs.
Proof. unfold DSSpec.memb, DSSpec.mem. rewrite existsb_exists. reflexivity. Qed.

Lemma memb_false x xs : memb x xs = false <-> ~ mem x xs.
Proof. rewrite <- memb_mem. destruct (memb x xs); split; congruence. Qed.

Lemma mem_cong x y xs : eqb x y = true -> mem x xs -> mem y xs.
Proof. intros Q (z & I & H). exists z. split; auto. now rewrite <- (eqb_cong L z Q). Qed.

Lemma memb_cong x y xs : eqb x y = true -> memb x xs = memb y xs.
Proof.
  intros Q. unfold DSSpec.memb. induction xs as [|z xs IH]; simpl; auto.
  now rewrite IH, (eqb_cong L z Q).
Qed.

Lemma mem_app x xs ys : mem x (xs ++ ys) <-> mem x xs \/ mem x ys.
Proof.
  unfold DSSpec.mem. split.
  - intros (y & I & H). apply in_app_or in I. destruct I; eauto.
  - intros [(y & I & H)|(y & I & H)]; exists y; split; auto; apply in_or_app; auto.
Qed.

Lemma mem_one x y : mem x [y] <-> eqb x y = true.
Proof.
  unfold DSSpec.mem. split; [intros (z & [<-|[]] & H); auto|]. intros H. exists y. simpl; auto.
Qed.

Lemma firsts_from_snoc seen xs x : firsts_from eqb seen (xs ++ [x]) =
  firsts_from eqb seen xs ++ (if memb x seen || memb x xs then [] else [x]).
Proof.
  revert seen. induction xs as [|h xs IH]; intros seen; simpl.
  - rewrite orb_false_r. destruct (memb x seen); reflexivity.
  - destruct (memb h seen) eqn:Q; rewrite IH; simpl.
    + destruct (eqb x h) eqn:X; simpl; auto.
      rewrite (memb_cong seen X), Q. reflexivity.
    + rewrite !orb_assoc. rewrite (orb_comm (memb x seen)). reflexivity.
Qed.

Lemma firsts_snoc xs x : firsts (xs ++ [x]) = firsts xs ++ (if memb x xs then [] else [x]).
Proof. unfold DSSpec.firsts. now rewrite firsts_from_snoc. Qed.

Lemma firsts_mem x xs : mem x (firsts xs) <-> mem x xs.
Proof.
  induction xs as [|y xs IH] using rev_ind; [reflexivity|].
  rewrite firsts_snoc, !mem_app, IH. destruct (memb y xs) eqn:Q.
  - rewrite mem_one. split; [intros [H|(z & [] & _)]; auto|]. intros [H|H]; auto.
    left. rewrite memb_mem in Q. apply (mem_cong (eq_sym' L _ _ H) Q).
  - reflexivity.
Qed.

Lemma firsts_length_mono xs ys : length (firsts xs) <= length (firsts (xs ++ ys)).
Proof.
  induction ys as [|y ys IH] using rev_ind; [now rewrite app_nil_r|].
  rewrite app_assoc, firsts_snoc, app_length. lia.
Qed.

Lemma firsts_nil xs : firsts xs = [] <-> xs = [].
Proof.
  split; [|now intros ->]. destruct xs as [|x xs]; auto. unfold DSSpec.firsts. simpl. discriminate.
Qed.

(** ** The generated equivalence *)
Lemma conn_incl ps qs x y : incl ps qs -> conn ps x y -> conn qs x y.
Proof.
  intros I. induction 1.
  - now apply conn_eq.
  - apply conn_pair. auto.
  - now apply conn_sym.
  - eapply conn_trans; eauto.
Qed.

Lemma conn_refl ps x : conn ps x x.
Proof. apply conn_eq. apply (eq_refl' L). Qed.

Lemma conn_snoc ps a b x y : conn (ps ++ [(a, b)]) x y <->
  conn ps x y \/ (conn ps x a /\ conn ps b y) \/ (conn ps x b /\ conn ps a y).
Proof.
  split.
  - induction 1 as [x y H|x y H|x y H IH|x y z H1 IH1 H2 IH2].
    + left. now apply conn_eq.
    + apply in_app_or in H. destruct H as [H|[H|[]]].
      * left. now apply conn_pair.
      * inversion H; subst. right; left. split; apply conn_refl.
    + destruct IH as [IH|[[IH1 IH2]|[IH1 IH2]]].
      * left. now apply conn_sym.
      * right; right. split; now apply conn_sym.
      * right; left. split; now apply conn_sym.
    + destruct IH1 as [A|[[A1 A2]|[A1 A2]]], IH2 as [B|[[B1 B2]|[B1 B2]]].
      * left. eapply conn_trans; eauto.
      * right; left. split; auto. eapply conn_trans; eauto.
      * right; right. split; auto. eapply conn_trans; eauto.
      * right; left. split; auto. eapply conn_trans; eauto.
      * right; left. split; auto.
      * left. eapply conn_trans; eauto.
      * right; right. split; auto. eapply conn_trans; eauto.
      * left. eapply conn_trans; eauto.
      * right; right. split; auto.
  - assert (I : incl ps (ps ++ [(a, b)])) by (intros q Q; apply in_or_app; auto).
    assert (P : conn (ps ++ [(a, b)]) a b) by (apply conn_pair, in_or_app; simpl; auto).
    intros [H|[[H1 H2]|[H1 H2]]].
    + now apply (conn_incl I).
    + eapply conn_trans; [apply (conn_incl I H1)|]. eapply conn_trans; [exact P|]. apply (conn_incl I H2).
    + eapply conn_trans; [apply (conn_incl I H1)|]. eapply conn_trans; [apply conn_sym, P|].
      apply (conn_incl I H2).
Qed.

(** only elements of pairs are connected to others *)
Definition log_ok g : Prop := forall a b, In (a, b) (united g) -> mem a (added g) /\ mem b (added g).

Lemma conn_members g x y : log_ok g -> conn (united g) x y ->
  eqb x y = true \/ (mem x (added g) /\ mem y (added g)).
Proof.
  intros O. induction 1 as [x y H|x y H|x y H IH|x y z H1 IH1 H2 IH2].
  - auto.
  - right. now apply O.
  - destruct IH as [IH|[A B]]; auto. left. now apply (eq_sym' L).
  - destruct IH1 as [A|[A1 A2]], IH2 as [B|[B1 B2]]; auto.
    + left. eapply (eq_trans' L); eauto.
    + right. split; auto. apply (mem_cong (eq_sym' L _ _ A)). auto.
    + right. split; auto. apply (mem_cong B). auto.
Qed.

(** ** States *)
Variable E : machine.

Definition valid s : Prop :=
  hm_wf eqb (ds_ids s) /\ length (ds_data s) = length (ds_ids s) /\
  length (ds_ids s) <= alloc_max E /\
  Permutation (map snd (ds_ids s)) (seq 0 (length (ds_ids s))) /\
  forest (ds_data s) /\ heavy (ds_data s).

(** being in one tree *)
Definition linked s (i j : nat) : Prop := exists r, root (ds_data s) i r /\ root (ds_data s) j r.

Definition shows s g : Prop :=
  Permutation (map fst (ds_ids s)) (firsts (added g)) /\
  log_ok g /\
  forall x i y j, In (x, i) (ds_ids s) -> In (y, j) (ds_ids s) ->
    (linked s i j <-> conn (united g) x y).

Lemma new_valid : valid (ds_new K).
Proof.
  split; [constructor|]. split; [reflexivity|]. split; [simpl; lia|]. split; [apply Permutation_refl|].
  split.
  - intros i H. simpl in H. lia.
  - intros r H. apply root_lt in H. simpl in H. lia.
Qed.

Lemma new_shows : shows (ds_new K) empty_log.
Proof. split; [apply Permutation_refl|]. split; [intros a b []|]. intros x i y j []. Qed.

Lemma id_lt s x i : valid s -> In (x, i) (ds_ids s) -> i < length (ds_data s).
Proof.
  intros (_ & Ld & _ & P & _) I. rewrite Ld.
  assert (H : In i (seq 0 (length (ds_ids s)))).
  { eapply Permutation_in; [exact P|]. apply in_map_iff. exists (x, i). auto. }
  apply in_seq in H. lia.
Qed.

Lemma entry_mem s g x : shows s g -> (exists e, hm_entry_of eqb x (ds_ids s) = Some e) <-> mem x (added g).
Proof.
  intros (P & _). rewrite <- firsts_mem. split.
  - intros [[k i] H]. apply entry_of_some in H. destruct H as [I Q]. exists k. split; auto.
    eapply Permutation_in; [exact P|]. apply in_map_iff. exists (k, i). auto.
  - intros (y & I & Q). destruct (hm_entry_of eqb x (ds_ids s)) as [e|] eqn:H; eauto. exfalso.
    apply (Permutation_in _ (Permutation_sym P)) in I. apply in_map_iff in I.
    destruct I as [[k i] [<- I]]. rewrite entry_of_none in H. specialize (H _ I). simpl in *. congruence.
Qed.

Lemma size_len s g : shows s g -> size eqb g = length (ds_ids s).
Proof. intros (P & _). unfold size. rewrite <- (Permutation_length P). apply map_length. Qed.

(** ** Adding an element *)
Lemma shows_again s g x : shows s g -> mem x (added g) -> shows s (Log (added g ++ [x]) (united g)).
Proof.
  intros (P & O & C) M. split; [|split]; simpl; auto.
  - rewrite firsts_snoc. apply memb_mem in M. rewrite M, app_nil_r. exact P.
  - intros a b I. destruct (O a b I). simpl. rewrite !mem_app. auto.
Qed.

Definition pushed x s : dset K :=
  DSet ((x, length (ds_ids s)) :: ds_ids s) (ds_data s ++ [data_new (length (ds_ids s))]).

Lemma make_cases x s : valid s ->
  (exists k i, hm_entry_of eqb x (ds_ids s) = Some (k, i) /\ ds_make_or_get eqb E x s = (s, Ret i)) \/
  (hm_entry_of eqb x (ds_ids s) = None /\ length (ds_ids s) < alloc_max E /\
     ds_make_or_get eqb E x s = (pushed x s, Ret (length (ds_ids s)))) \/
  (hm_entry_of eqb x (ds_ids s) = None /\ length (ds_ids s) = alloc_max E /\
     ds_make_or_get eqb E x s = (s, Panic)).
Proof.
  intros (W & Ld & Le & P & F & H). unfold ds_make_or_get, hm_entry, hm_get.
  destruct (hm_entry_of eqb x (ds_ids s)) as [[k i]|] eqn:Q.
  - left. exists k, i. auto.
  - right. simpl. unfold hm_reserve, vec_push. rewrite Ld.
    destruct (length (ds_ids s) + 1 <=? alloc_max E) eqn:X; simpl.
    + left. apply Nat.leb_le in X. split; auto. split; [lia|reflexivity].
    + right. apply Nat.leb_gt in X. split; auto. split; [lia|reflexivity].
Qed.

Lemma pushed_valid x s : valid s -> hm_entry_of eqb x (ds_ids s) = None ->
  length (ds_ids s) < alloc_max E -> valid (pushed x s).
Proof.
  intros (W & Ld & Le & P & F & H) N Lt. unfold pushed, valid; cbn [ds_ids ds_data].
  split; [now apply wf_cons|]. split; [rewrite app_length; simpl; lia|]. split; [simpl; lia|].
  split; [|rewrite <- Ld; split; [now apply push_forest|now apply push_heavy]].
  cbn [map length snd]. rewrite seq_S. cbn [Nat.add].
  eapply Permutation_trans; [apply perm_skip, P|]. apply Permutation_cons_append.
Qed.

Lemma pushed_shows x s g : valid s -> shows s g -> hm_entry_of eqb x (ds_ids s) = None ->
  shows (pushed x s) (Log (added g ++ [x]) (united g)).
Proof.
  intros V S N. pose proof (entry_mem x S) as M. pose proof V as (W & Ld & Le & P & F & H).
  destruct S as (Pf & O & C).
  assert (Nm : ~ mem x (added g)) by (rewrite <- M, N; intros [e X]; discriminate).
  split; [|split]; cbn [added united].
  - cbn [pushed ds_ids map fst]. rewrite firsts_snoc. apply memb_false in Nm. rewrite Nm.
    eapply Permutation_trans; [apply perm_skip, Pf|]. apply Permutation_cons_append.
  - intros a b I. destruct (O a b I). simpl. rewrite !mem_app. auto.
  - assert (NC : forall y j, In (y, j) (ds_ids s) -> ~ conn (united g) x y).
    { intros y j I Q. destruct (conn_members O Q) as [X|[X _]]; auto.
      rewrite entry_of_none in N. specialize (N _ I). simpl in N. congruence. }
    assert (NR : forall y j, In (y, j) (ds_ids s) -> ~ linked (pushed x s) (length (ds_ids s)) j).
    { intros y j I (r & R1 & R2). cbn [pushed ds_data] in *. rewrite <- Ld in *.
      apply (push_roots _ _ F) in R1. apply (push_roots _ _ F) in R2.
      pose proof (id_lt _ _ V I) as Lj.
      destruct R1 as [R1|[_ ->]]; [apply root_lt in R1; lia|].
      destruct R2 as [R2|[R2 _]]; [apply root_lt in R2; lia|lia]. }
    intros y i z j [I|I] [J|J].
    + inversion I; inversion J; subst. split; [intros _; apply conn_refl|]. intros _.
      exists (length (ds_ids s)). cbn [pushed ds_data]. rewrite <- Ld.
      split; apply (push_roots _ _ F); auto.
    + inversion I; subst. split; intros X; exfalso; [eapply NR; eauto|eapply NC; eauto].
    + inversion J; subst. split; intros X; exfalso.
      * destruct X as (r & X1 & X2). eapply NR; eauto. exists r. split; eauto.
      * apply conn_sym in X. eapply NC; eauto.
    + rewrite <- (C y i z j I J). unfold linked. cbn [pushed ds_data]. rewrite <- Ld.
      pose proof (id_lt _ _ V I) as Li. pose proof (id_lt _ _ V J) as Lj. split.
      * intros (r & R1 & R2). apply (push_roots _ _ F) in R1. apply (push_roots _ _ F) in R2.
        destruct R1 as [R1|[R1 _]]; [|lia]. destruct R2 as [R2|[R2 _]]; [|lia]. exists r; auto.
      * intros (r & R1 & R2). exists r. split; apply (push_roots _ _ F); auto.
Qed.

Lemma make_shows x s g : valid s -> shows s g ->
  (exists s' i k, ds_make_or_get eqb E x s = (s', Ret i) /\ valid s' /\
     shows s' (Log (added g ++ [x]) (united g)) /\ In (k, i) (ds_ids s') /\ eqb x k = true /\
     incl (ds_ids s) (ds_ids s') /\ room eqb E x (added g)) \/
  (ds_make_or_get eqb E x s = (s, Panic) /\ no_room eqb E x (added g)).
Proof.
  intros V S. pose proof (entry_mem x S) as M. pose proof (size_len S) as Sz. unfold size in Sz.
  destruct (make_cases x V) as [(k & i & Q & H)|[(Q & Lt & H)|(Q & Lt & H)]]; rewrite H.
  - left. exists s, i, k. split; auto. split; auto.
    assert (Mx : mem x (added g)) by (apply M; eauto).
    split; [now apply shows_again|]. apply entry_of_some in Q. destruct Q as [Q1 Q2].
    split; auto. split; auto. split; [apply incl_refl|]. now left.
  - left. exists (pushed x s), (length (ds_ids s)), x. split; auto.
    split; [now apply pushed_valid|]. split; [now apply pushed_shows|].
    split; [simpl; auto|]. split; [apply (eq_refl' L)|]. split; [intros e I; simpl; auto|].
    right. lia.
  - right. split; auto. split; [|congruence]. rewrite <- M, Q. intros [e X]. discriminate.
Qed.

(** ** Finding *)
Lemma find_in_ok s i r : valid s -> root (ds_data s) i r ->
  exists v, ds_find_in i s = (DSet (ds_ids s) v, Ret r) /\ same (ds_data s) v.
Proof.
  intros (W & Ld & Le & P & F & H) R. unfold ds_find_in.
  pose proof (find_fuel F H R) as X.
  destruct (root_lt R) as [Li _].
  assert (Nat.log2 (length (ds_data s)) < length (ds_data s)) by (apply Nat.log2_lt_lin; lia).
  destruct (@find_ok (S (length (ds_data s))) (ds_data s) i r F R) as (v & -> & S).
  - lia.
  - exists v. auto.
Qed.

Lemma same_valid s v : valid s -> same (ds_data s) v -> valid (DSet (ds_ids s) v).
Proof.
  intros (W & Ld & Le & P & F & H) S. pose proof S as (Ls & Rs & Fs & Ts).
  split; [exact W|]. split; [simpl; congruence|]. split; [exact Le|]. split; [exact P|].
  split; [exact Fs|]. exact (heavy_same S H).
Qed.

Lemma same_shows s v g : shows s g -> same (ds_data s) v -> shows (DSet (ds_ids s) v) g.
Proof.
  intros (P & O & C) (Ls & Rs & Fs & Ts). split; [exact P|]. split; [exact O|].
  intros x i y j I J. rewrite <- (C x i y j I J). unfold linked; simpl. split.
  - intros (r & A & B). exists r. rewrite <- !Ts. auto.
  - intros (r & A & B). exists r. rewrite !Ts. auto.
Qed.

Lemma root_of s x i : valid s -> In (x, i) (ds_ids s) -> exists r, root (ds_data s) i r.
Proof. intros V I. apply root_exists; [apply V|]. exact (id_lt _ _ V I). Qed.

(** ** Uniting *)
(** the [u32] ranks suffice: [usize] has fewer than [2^32] bits *)
Hypothesis U : (N.log2 (N.of_nat (alloc_max E)) < u32_max)%N.

Lemma link_shows s g a b ia ib ka kb ra rb :
  valid s -> shows s g -> In (ka, ia) (ds_ids s) -> In (kb, ib) (ds_ids s) ->
  eqb a ka = true -> eqb b kb = true -> mem a (added g) -> mem b (added g) ->
  root (ds_data s) ia ra -> root (ds_data s) ib rb -> ra <> rb ->
  exists v, ds_link E (ds_data s) ra rb = (v, Ret tt) /\ valid (DSet (ds_ids s) v) /\
    shows (DSet (ds_ids s) v) (Log (added g) (united g ++ [(a, b)])).
Proof.
  intros V S Ia Ib Qa Qb Ma Mb Ra Rb Ne. pose proof V as (W & Ld & Le & P & F & H).
  destruct S as (Pf & O & C).
  destruct (@link_ok E (ds_data s) ra rb F H (root_root Ra) (root_root Rb) Ne) as (v & Hl & Lk).
  { eapply N.le_lt_trans; [|exact U]. apply N.log2_le_mono. lia. }
  exists v. split; [exact Hl|].
  set (lo := if (rk (ds_data s) ra <? rk (ds_data s) rb)%N then ra else rb) in *.
  set (hi := if (rk (ds_data s) ra <? rk (ds_data s) rb)%N then rb else ra) in *.
  assert (LH : (lo = ra /\ hi = rb) \/ (lo = rb /\ hi = ra)).
  { unfold lo, hi. destruct (rk (ds_data s) ra <? rk (ds_data s) rb)%N; auto. }
  clearbody lo hi. destruct Lk as (Lv & Fv & Hv & Rv & _).
  split.
  { split; [exact W|]. split; [simpl; congruence|]. split; [exact Le|]. split; [exact P|].
    split; [exact Fv|exact Hv]. }
  split; [exact Pf|]. split.
  { intros p q I. simpl in I. apply in_app_or in I. destruct I as [I|[I|[]]]; simpl.
    - now apply O. - inversion I; subst. auto. }
  intros x i y j I J. cbn [ds_ids] in I, J. simpl united. rewrite conn_snoc.
  destruct (root_of _ _ V I) as [ri Ri]. destruct (root_of _ _ V J) as [rj Rj].
  assert (Tr : forall z n r z' n' r', In (z, n) (ds_ids s) -> In (z', n') (ds_ids s) ->
    root (ds_data s) n r -> root (ds_data s) n' r' -> (conn (united g) z z' <-> r = r')).
  { intros z n r z' n' r' Iz Iz' Rz Rz'. rewrite <- (C _ _ _ _ Iz Iz'). split.
    - intros (q & Q1 & Q2). rewrite (root_fun Rz Q1), (root_fun Rz' Q2). reflexivity.
    - intros <-. exists r. auto. }
  assert (Ca : forall z n r, In (z, n) (ds_ids s) -> root (ds_data s) n r ->
     (conn (united g) z a <-> r = ra) /\ (conn (united g) z b <-> r = rb)).
  { intros z n r Iz Rz. rewrite <- (Tr _ _ _ _ _ _ Iz Ia Rz Ra), <- (Tr _ _ _ _ _ _ Iz Ib Rz Rb).
    split; split; intros X; (eapply conn_trans; [exact X|]); apply conn_eq; auto; now apply (eq_sym' L). }
  destruct (Ca _ _ _ I Ri) as [Xa Xb]. destruct (Ca _ _ _ J Rj) as [Ya Yb].
  assert (Sy : forall z, conn (united g) z y <-> conn (united g) y z) by (intros; split; apply conn_sym).
  rewrite (Tr _ _ _ _ _ _ I J Ri Rj), Xa, Xb, (Sy b), (Sy a), Ya, Yb.
  (* roots after linking *)
  assert (Nv : forall n r, root (ds_data s) n r -> root v n (if r =? lo then hi else r)).
  { intros n r Rk. apply Rv. destruct (r =? lo) eqn:Q.
    - apply Nat.eqb_eq in Q; subst. auto. - apply Nat.eqb_neq in Q. auto. }
  unfold linked; cbn [ds_data].
  assert (Lk : (exists r, root v i r /\ root v j r) <-> (if ri =? lo then hi else ri) = (if rj =? lo then hi else rj)).
  { split.
    - intros (r & A & B). rewrite (root_fun (Nv _ _ Ri) A). exact (root_fun B (Nv _ _ Rj)).
    - intros Q. exists (if ri =? lo then hi else ri). split; [now apply Nv|]. rewrite Q. now apply Nv. }
  rewrite Lk.
  destruct (Nat.eqb_spec ri lo) as [A|A], (Nat.eqb_spec rj lo) as [B|B], LH as [[-> ->]|[-> ->]];
    subst; split; intuition congruence.
Qed.

Lemma same_link_conn g a b x y : conn (united g) a b ->
  (conn (united g ++ [(a, b)]) x y <-> conn (united g) x y).
Proof.
  intros Q. rewrite conn_snoc. split; [|auto]. intros [X|[[X Y]|[X Y]]]; auto.
  - eapply conn_trans; [exact X|]. eapply conn_trans; [exact Q|exact Y].
  - eapply conn_trans; [exact X|]. eapply conn_trans; [apply conn_sym, Q|exact Y].
Qed.

Lemma union_shows s g a b : valid s -> shows s g ->
  (exists s', ds_union eqb E a b s = (s', Ret tt) /\ valid s' /\
     shows s' (Log (added g ++ [a; b]) (united g ++ [(a, b)])) /\
     room eqb E a (added g) /\ room eqb E b (added g ++ [a])) \/
  (ds_union eqb E a b s = (s, Panic) /\ no_room eqb E a (added g)) \/
  (exists s', ds_union eqb E a b s = (s', Panic) /\ valid s' /\
     shows s' (Log (added g ++ [a]) (united g)) /\
     room eqb E a (added g) /\ no_room eqb E b (added g ++ [a])).
Proof.
  intros V S. unfold ds_union.
  destruct (make_shows a V S) as [(s1 & ia & ka & H1 & V1 & S1 & Ia1 & Qa & _ & Ra1)|[H1 N1]]; rewrite H1.
  2: { right; left. auto. }
  destruct (make_shows b V1 S1) as [(s2 & ib & kb & H2 & V2 & S2 & Ib & Qb & Inc & Rb1)|[H2 N2]]; rewrite H2.
  2: { right; right. exists s1. simpl in *. auto. }
  assert (Ia : In (ka, ia) (ds_ids s2)) by auto.
  simpl added in *. simpl united in *. rewrite <- app_assoc in S2. simpl in S2.
  destruct (root_of _ _ V2 Ia) as [ra Ra]. destruct (root_of _ _ V2 Ib) as [rb Rb].
  destruct (find_in_ok V2 Ra) as (v3 & H3 & E3). rewrite H3.
  pose proof (same_valid V2 E3) as V3. pose proof (same_shows S2 E3) as S3.
  set (s3 := DSet (ds_ids s2) v3) in *.
  assert (Rb3 : root (ds_data s3) ib rb) by (apply E3; exact Rb).
  destruct (find_in_ok V3 Rb3) as (v4 & H4 & E4). rewrite H4.
  pose proof (same_valid V3 E4) as V4. pose proof (same_shows S3 E4) as S4.
  set (s4 := DSet (ds_ids s3) v4) in *.
  assert (Ra4 : root (ds_data s4) ia ra) by (apply E4, E3; exact Ra).
  assert (Rb4 : root (ds_data s4) ib rb) by (apply E4; exact Rb3).
  assert (I4a : In (ka, ia) (ds_ids s4)) by exact Ia.
  assert (I4b : In (kb, ib) (ds_ids s4)) by exact Ib.
  assert (Ma : mem a (added g ++ [a; b])).
  { apply mem_app. right. exists a. simpl. split; auto. apply (eq_refl' L). }
  assert (Mb : mem b (added g ++ [a; b])).
  { apply mem_app. right. exists b. simpl. split; auto. apply (eq_refl' L). }
  left. destruct (Nat.eqb_spec ra rb) as [Q|Q].
  - exists s4. split; [reflexivity|]. split; [exact V4|].
    split; [|auto]. destruct S4 as (P4 & O4 & C4). split; [exact P4|]. split.
    + intros p q I. simpl in I. apply in_app_or in I. destruct I as [I|[I|[]]]; simpl.
      * now apply O4. * inversion I; subst. auto.
    + intros x i y j I J. rewrite (C4 x i y j I J). symmetry.
      apply (same_link_conn (Log (added g) (united g))). simpl.
      apply conn_trans with ka; [now apply conn_eq|].
      apply conn_trans with kb; [|apply conn_eq; now apply (eq_sym' L)].
      apply (C4 _ _ _ _ I4a I4b). exists ra. subst rb. auto.
  - destruct (link_shows V4 S4 I4a I4b Qa Qb Ma Mb Ra4 Rb4 Q) as (v5 & H5 & V5 & S5).
    rewrite H5. eexists. split; [reflexivity|]. split; [exact V5|]. split; [exact S5|]. auto.
Qed.

End Proofs.
