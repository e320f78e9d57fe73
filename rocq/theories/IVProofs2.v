(** Set operations on intervals. *)
From Verif Require Import Base IVModel IVSpec IVRun IVProofs.
Set Implicit Arguments.

Section Sets.
Variable T : Type.
Variable cmp : T -> T -> comparison.
Hypothesis HL : ord_laws cmp.
Implicit Types x y z : T.
Implicit Types a b c i j r : interval T.
Notation lle := (le (lower_cmp cmp)).
Notation ule := (le (upper_cmp cmp)).
Notation wf := (wf cmp).
Notation ok := (ok cmp).
Let LL : ord_laws (lower_cmp cmp) := lower_cmp_laws HL.
Let UL : ord_laws (upper_cmp cmp) := upper_cmp_laws HL.
Notation mk l u := (Interval (Some (NonEmpty l u))).

Definition lmin_of (l : lower T) ls := In l ls /\ forall m, In m ls -> lle l m.
Definition lmax_of (l : lower T) ls := In l ls /\ forall m, In m ls -> lle m l.
Definition umin_of (u : upper T) us := In u us /\ forall m, In m us -> ule u m.
Definition umax_of (u : upper T) us := In u us /\ forall m, In m us -> ule m u.

Ltac two := split; [cbn; auto | intros ? [<-|[<-|[]]]; auto; try apply (le_refl LL); try apply (le_refl UL)].

Lemma lmin_is l m : lmin_of (lower_min cmp l m) [l; m].
Proof. destruct (lmin_cases HL l m) as [[-> H]|[-> H]]; two. Qed.
Lemma lmax_is l m : lmax_of (lower_max cmp l m) [l; m].
Proof. destruct (lmax_cases HL l m) as [[-> H]|[-> H]]; two. Qed.
Lemma umin_is l m : umin_of (upper_min cmp l m) [l; m].
Proof. destruct (umin_cases HL l m) as [[-> H]|[-> H]]; two. Qed.
Lemma umax_is l m : umax_of (upper_max cmp l m) [l; m].
Proof. destruct (umax_cases HL l m) as [[-> H]|[-> H]]; two. Qed.

Lemma lmin_if l m : lmin_of (if lower_lt cmp m l then m else l) [l; m].
Proof.
  destruct (lower_lt cmp m l) eqn:H.
  - apply lower_lt_spec in H. assert (lle m l) by ord LL. two.
  - assert (lle l m) by (apply (nlt_le LL); intros K; apply lower_lt_spec in K; congruence). two.
Qed.
Lemma lmax_if l m : lmax_of (if lower_lt cmp l m then m else l) [l; m].
Proof.
  destruct (lower_lt cmp l m) eqn:H.
  - apply lower_lt_spec in H. assert (lle l m) by ord LL. two.
  - assert (lle m l) by (apply (nlt_le LL); intros K; apply lower_lt_spec in K; congruence). two.
Qed.
Lemma umax_if l m : umax_of (if upper_gt cmp m l then m else l) [l; m].
Proof.
  destruct (upper_gt cmp m l) eqn:H.
  - apply (upper_gt_spec HL) in H. assert (ule l m) by ord UL. two.
  - assert (ule m l) by (apply (nlt_le UL); intros K; apply (upper_gt_spec HL) in K; congruence). two.
Qed.
Lemma umin_if l m : umin_of (if upper_gt cmp l m then m else l) [l; m].
Proof.
  destruct (upper_gt cmp l m) eqn:H.
  - apply (upper_gt_spec HL) in H. assert (ule m l) by ord UL. two.
  - assert (ule l m) by (apply (nlt_le UL); intros K; apply (upper_gt_spec HL) in K; congruence). two.
Qed.

(** *** cross comparison *)
Lemma ul_lu_lt u l : ul_lt cmp u l = lu_gt cmp l u.
Proof.
  unfold ul_lt, lu_gt. rewrite (ord_opp HL (lval l) (uval u)). destruct (cmp (lval l) (uval u)); cbn; auto. apply orb_comm.
Qed.

Lemma iv_lt_mk l1 u1 l2 u2 : iv_lt cmp (mk l1 u1) (mk l2 u2) = lu_gt cmp l2 u1.
Proof. cbn. apply ul_lu_lt. Qed.
Lemma iv_gt_mk l1 u1 l2 u2 : iv_gt cmp (mk l1 u1) (mk l2 u2) = lu_gt cmp l1 u2.
Proof. reflexivity. Qed.

(** *** sameness *)
Lemma same_bounds l u l' u' : same cmp (iv_into_tuple (mk l u)) (iv_into_tuple (mk l' u')) <->
  eqv (lower_cmp cmp) l l' /\ eqv (upper_cmp cmp) u u'.
Proof.
  destruct l as [[l a]], u as [[u b]], l' as [[l' a']], u' as [[u' b']].
  unfold same, eqv at 3 4, lower_cmp, upper_cmp; cbn. unfold eqv.
  destruct (cmp l l'), (cmp u u'); split; try (intros (?&?&?&?)); try (intros (?&?)); subst; try discriminate;
  rewrite ?eqb_reflx; auto;
  destruct (eqb a a') eqn:Ha, (eqb b b') eqn:Hb; try destruct a; try destruct b; try discriminate;
  try (apply eqb_prop in Ha; apply eqb_prop in Hb; subst; auto).
Qed.
Lemma iv_eq_same a b : iv_eq cmp a b = true <-> same cmp (iv_into_tuple a) (iv_into_tuple b).
Proof.
  destruct a as [[[l u]|]], b as [[[l' u']|]]; try (cbn; split; auto; try discriminate; fail).
  rewrite same_bounds. unfold iv_eq; cbn [imp lo up].
  rewrite andb_true_iff, lower_eq_cmp, upper_eq_cmp. reflexivity.
Qed.
Lemma same_refl a : same cmp (iv_into_tuple a) (iv_into_tuple a).
Proof. destruct a as [[[l u]|]]; [|exact I]. apply same_bounds; split; [apply (cmp_refl LL)|apply (cmp_refl UL)]. Qed.

(** *** intersection *)
Definition inter_char ls us r := exists l u, lmax_of l ls /\ umin_of u us /\
  (r = mk l u /\ ok l u \/ r = Interval None /\ ~ ok l u).

Lemma lmax_uniq ls l l' : lmax_of l ls -> lmax_of l' ls -> eqv (lower_cmp cmp) l l'.
Proof. intros [A B] [C D]. apply (les_eqv LL); auto. Qed.
Lemma lmin_uniq ls l l' : lmin_of l ls -> lmin_of l' ls -> eqv (lower_cmp cmp) l l'.
Proof. intros [A B] [C D]. apply (les_eqv LL); auto. Qed.
Lemma umax_uniq ls l l' : umax_of l ls -> umax_of l' ls -> eqv (upper_cmp cmp) l l'.
Proof. intros [A B] [C D]. apply (les_eqv UL); auto. Qed.
Lemma umin_uniq ls l l' : umin_of l ls -> umin_of l' ls -> eqv (upper_cmp cmp) l l'.
Proof. intros [A B] [C D]. apply (les_eqv UL); auto. Qed.

Lemma ok_eqv l l' u u' : eqv (lower_cmp cmp) l l' -> eqv (upper_cmp cmp) u u' -> ok l u -> ok l' u'.
Proof.
  intros A B. apply (eqv_les LL) in A. apply (eqv_les UL) in B. destruct A, B. apply (ok_mono HL); auto.
Qed.

Lemma eqv_sym_l l l' : eqv (lower_cmp cmp) l l' -> eqv (lower_cmp cmp) l' l.
Proof. intros A; apply (eqv_les LL) in A; destruct A; apply (les_eqv LL); auto. Qed.
Lemma eqv_sym_u l l' : eqv (upper_cmp cmp) l l' -> eqv (upper_cmp cmp) l' l.
Proof. intros A; apply (eqv_les UL) in A; destruct A; apply (les_eqv UL); auto. Qed.

Lemma inter_char_same ls us r r' : inter_char ls us r -> inter_char ls us r' ->
  same cmp (iv_into_tuple r) (iv_into_tuple r').
Proof.
  intros (l & u & Hl & Hu & H) (l' & u' & Hl' & Hu' & H').
  pose proof (lmax_uniq Hl Hl') as El. pose proof (umin_uniq Hu Hu') as Eu.
  destruct H as [[-> H]|[-> H]], H' as [[-> H']|[-> H']].
  - apply same_bounds; auto.
  - exfalso; apply H'; exact (ok_eqv El Eu H).
  - exfalso; apply H. exact (ok_eqv (eqv_sym_l El) (eqv_sym_u Eu) H').
  - exact I.
Qed.

Lemma inter_char_perm ls us ls' us' r : (forall m, In m ls <-> In m ls') -> (forall m, In m us <-> In m us') ->
  inter_char ls us r -> inter_char ls' us' r.
Proof.
  intros A B (l & u & [Hl1 Hl2] & [Hu1 Hu2] & H). exists l, u. split; [|split]; auto.
  - split; [apply A; auto | intros m Hm; apply Hl2, A; auto].
  - split; [apply B; auto | intros m Hm; apply Hu2, B; auto].
Qed.

Lemma cross_ok l1 u1 l2 u2 l u : ok l1 u1 -> ok l2 u2 -> lmax_of l [l1; l2] -> umin_of u [u1; u2] ->
  (lu_gt cmp l1 u2 = false /\ lu_gt cmp l2 u1 = false <-> ok l u).
Proof.
  intros O1 O2 [Hl Hl'] [Hu Hu']. rewrite !(ok_alt HL). split.
  - intros [A B]. cbn in Hl, Hu. destruct Hl as [<-|[<-|[]]], Hu as [<-|[<-|[]]]; auto.
  - intros H. assert (lle l1 l) by (apply Hl'; cbn; auto). assert (lle l2 l) by (apply Hl'; cbn; auto).
    assert (ule u u1) by (apply Hu'; cbn; auto). assert (ule u u2) by (apply Hu'; cbn; auto).
    split; eapply (ok_mono HL); eauto.
Qed.

Lemma inter_mk l1 u1 l2 u2 : ok l1 u1 -> ok l2 u2 ->
  exists r, iv_intersection cmp (mk l1 u1) (mk l2 u2) = Ret r /\ inter_char [l1; l2] [u1; u2] r.
Proof.
  intros O1 O2. unfold iv_intersection. cbn [iv_is_empty imp orb].
  rewrite iv_lt_mk, iv_gt_mk.
  pose proof (lmax_if l1 l2) as Hl. pose proof (umin_if u1 u2) as Hu.
  pose proof (cross_ok O1 O2 Hl Hu) as X.
  destruct (lu_gt cmp l1 u2) eqn:G1; cbn [orb].
  { eexists; split; [reflexivity|]. do 2 eexists; split; [exact Hl|split; [exact Hu|right; split; auto]].
    rewrite <- X. intros [K _]; discriminate. }
  destruct (lu_gt cmp l2 u1) eqn:G2.
  { eexists; split; [reflexivity|]. do 2 eexists; split; [exact Hl|split; [exact Hu|right; split; auto]].
    rewrite <- X. intros [_ K]; discriminate. }
  cbn [unwrap obind lo up]. eexists; split; [reflexivity|].
  do 2 eexists; split; [exact Hl|split; [exact Hu|left; split; auto]]. apply X; auto.
Qed.

Lemma into_inter_mk l1 u1 l2 u2 : ok l1 u1 -> ok l2 u2 ->
  exists r, iv_into_intersection cmp (mk l1 u1) (mk l2 u2) = Ret r /\ inter_char [l1; l2] [u1; u2] r.
Proof.
  intros O1 O2. unfold iv_into_intersection, iv_intersects. cbn [iv_is_empty imp].
  rewrite iv_lt_mk, iv_gt_mk.
  pose proof (lmax_is l1 l2) as Hl. pose proof (umin_is u1 u2) as Hu.
  pose proof (cross_ok O1 O2 Hl Hu) as X.
  destruct (lu_gt cmp l1 u2) eqn:G1; cbn [orb negb].
  { eexists; split; [reflexivity|]. do 2 eexists; split; [exact Hl|split; [exact Hu|right; split; auto]].
    rewrite <- X. intros [K _]; discriminate. }
  destruct (lu_gt cmp l2 u1) eqn:G2; cbn [negb].
  { eexists; split; [reflexivity|]. do 2 eexists; split; [exact Hl|split; [exact Hu|right; split; auto]].
    rewrite <- X. intros [_ K]; discriminate. }
  cbn [unwrap obind iv_into_bounds imp lo up].
  assert (O : ok (lower_max cmp l1 l2) (upper_min cmp u1 u2)) by (apply X; auto).
  rewrite (from_bounds_ok HL O). eexists; split; [reflexivity|].
  do 2 eexists; split; [exact Hl|split; [exact Hu|left; split; auto]].
Qed.

Lemma inter_none_l b : iv_intersection cmp (Interval None) b = Ret (Interval None).
Proof. reflexivity. Qed.
Lemma inter_none_r a : iv_intersection cmp a (Interval None) = Ret (Interval None).
Proof. unfold iv_intersection; cbn. now rewrite orb_true_r. Qed.
Lemma into_inter_none_r a : iv_into_intersection cmp a (Interval None) = Ret (Interval None).
Proof. unfold iv_into_intersection; cbn. destruct a as [[a|]]; reflexivity. Qed.

Lemma inter_char_wf ls us r : inter_char ls us r -> wf r.
Proof. intros (l & u & _ & _ & [[-> H]|[-> _]]); [apply wf_ok; auto | exact I]. Qed.

(** bounds that are not ok admit no common point *)
Lemma not_ok_empty l u x : ~ ok l u -> aboveb cmp l x -> belowb cmp u x -> False.
Proof.
  destruct l as [[l a]], u as [[u b]]; unfold IVProofs.ok, aboveb, belowb; cbn. intros N A B.
  apply N. destruct a, b; cbn in *.
  - destruct (lt_or_ge HL l u); auto. right; repeat split. ord HL.
  - left; ord HL.
  - left; ord HL.
  - left; ord HL.
Qed.

Lemma inter_char_mem l1 u1 l2 u2 r x : inter_char [l1; l2] [u1; u2] r ->
  mem cmp (iv_into_tuple r) x <-> mem cmp (iv_into_tuple (mk l1 u1)) x /\ mem cmp (iv_into_tuple (mk l2 u2)) x.
Proof.
  intros (l & u & [Hl Hl'] & [Hu Hu'] & H). rewrite !mem_bounds.
  assert (L1 : lle l1 l) by (apply Hl'; cbn; auto). assert (L2 : lle l2 l) by (apply Hl'; cbn; auto).
  assert (U1 : ule u u1) by (apply Hu'; cbn; auto). assert (U2 : ule u u2) by (apply Hu'; cbn; auto).
  assert (E : aboveb cmp l x /\ belowb cmp u x <->
    (aboveb cmp l1 x /\ belowb cmp u1 x) /\ aboveb cmp l2 x /\ belowb cmp u2 x).
  { split.
    - intros [A B]. repeat split; eauto using (lle_points HL), (ule_points HL).
    - intros ([A1 B1] & A2 & B2). cbn in Hl, Hu. destruct Hl as [<-|[<-|[]]], Hu as [<-|[<-|[]]]; auto. }
  destruct H as [[-> O]|[-> N]].
  - rewrite mem_bounds; exact E.
  - rewrite <- E. cbn. split; [intros []|]. intros [A B]; exact (not_ok_empty x N A B).
Qed.

Lemma intersection_spec a b : wf a -> wf b ->
  exists r r', iv_intersection cmp a b = Ret r /\ iv_into_intersection cmp a b = Ret r' /\
    iv_eq cmp r r' = true /\ wf r /\ wf r' /\
    forall x, mem cmp (iv_into_tuple r) x <-> mem cmp (iv_into_tuple a) x /\ mem cmp (iv_into_tuple b) x.
Proof.
  destruct a as [[[l1 u1]|]]; intros Wa Wb.
  2: { exists (Interval None), (Interval None). do 5 (split; [reflexivity || exact I|]). intros x; cbn; tauto. }
  destruct b as [[[l2 u2]|]].
  2: { exists (Interval None), (Interval None). rewrite inter_none_r, into_inter_none_r. do 5 (split; [reflexivity || exact I|]). intros x; cbn; tauto. }
  apply wf_ok in Wa; apply wf_ok in Wb.
  destruct (inter_mk Wa Wb) as (r & Hr & C). destruct (into_inter_mk Wa Wb) as (r' & Hr' & C').
  exists r, r'. split; auto. split; auto. split; [apply iv_eq_same; exact (inter_char_same C C')|].
  split; [exact (inter_char_wf C)|]. split; [exact (inter_char_wf C')|].
  intros x; apply inter_char_mem; auto.
Qed.

(** *** span *)
Definition span_char ls us r := exists l u, lmin_of l ls /\ umax_of u us /\ r = mk l u.

Lemma span_char_same ls us r r' : span_char ls us r -> span_char ls us r' ->
  same cmp (iv_into_tuple r) (iv_into_tuple r').
Proof.
  intros (l & u & Hl & Hu & ->) (l' & u' & Hl' & Hu' & ->). apply same_bounds.
  split; [exact (lmin_uniq Hl Hl') | exact (umax_uniq Hu Hu')].
Qed.
Lemma span_char_perm ls us ls' us' r : (forall m, In m ls <-> In m ls') -> (forall m, In m us <-> In m us') ->
  span_char ls us r -> span_char ls' us' r.
Proof.
  intros A B (l & u & [Hl1 Hl2] & [Hu1 Hu2] & H). exists l, u. split; [|split]; auto.
  - split; [apply A; auto | intros m Hm; apply Hl2, A; auto].
  - split; [apply B; auto | intros m Hm; apply Hu2, B; auto].
Qed.

Lemma span_ok l1 u1 l2 u2 l u : ok l1 u1 -> ok l2 u2 -> lmin_of l [l1; l2] -> umax_of u [u1; u2] -> ok l u.
Proof.
  intros O1 O2 [Hl Hl'] [Hu Hu'].
  apply (@ok_mono _ cmp HL l1 u1); auto; [apply Hl' | apply Hu']; cbn; auto.
Qed.
Lemma span_mk l1 u1 l2 u2 : exists r, iv_span cmp (mk l1 u1) (mk l2 u2) = Ret r /\ span_char [l1; l2] [u1; u2] r.
Proof.
  unfold iv_span; cbn [iv_is_empty imp unwrap obind lo up]. eexists; split; [reflexivity|].
  do 2 eexists; split; [apply lmin_if|split; [apply umax_if|reflexivity]].
Qed.
Lemma into_span_mk l1 u1 l2 u2 : ok l1 u1 -> ok l2 u2 ->
  exists r, iv_into_span cmp (mk l1 u1) (mk l2 u2) = Ret r /\ span_char [l1; l2] [u1; u2] r.
Proof.
  intros O1 O2. unfold iv_into_span; cbn [iv_is_empty imp unwrap obind lo up iv_into_bounds].
  rewrite (from_bounds_ok HL (span_ok O1 O2 (lmin_is l1 l2) (umax_is u1 u2))).
  eexists; split; [reflexivity|].
  do 2 eexists; split; [apply lmin_is|split; [apply umax_is|reflexivity]].
Qed.

(** *** contains_interval *)
Lemma contains_mk l u l' u' : iv_contains_interval cmp (mk l u) (mk l' u') = true <-> lle l l' /\ ule u' u.
Proof. unfold iv_contains_interval; cbn. rewrite andb_true_iff, lower_le_spec, (upper_ge_spec HL). reflexivity. Qed.

Lemma contains_points a b x : iv_contains_interval cmp a b = true ->
  mem cmp (iv_into_tuple b) x -> mem cmp (iv_into_tuple a) x.
Proof.
  destruct a as [[[l u]|]], b as [[[l' u']|]].
  - rewrite contains_mk, !mem_bounds. intros [A B] [C D]. split; eauto using (lle_points HL), (ule_points HL).
  - intros _ [].
  - discriminate.
  - intros _ [].
Qed.

(** *** density *)
Section Dense.
Hypothesis HD : dense cmp.

Lemma ok_inhabited l u : ok l u -> exists x, aboveb cmp l x /\ belowb cmp u x.
Proof.
  destruct l as [[l a]], u as [[u b]]; unfold IVProofs.ok, aboveb, belowb; cbn. intros [H|(H & -> & ->)].
  - destruct (HD H) as (z & Z1 & Z2). exists z. destruct a, b; split; cbn; ord HL.
  - exists l; split; cbn; ord HL.
Qed.

(** points of a (valid) interval arbitrarily close to its ends *)
Lemma lower_escape l u m : ok l u -> lt (lower_cmp cmp) l m ->
  exists x, aboveb cmp l x /\ belowb cmp u x /\ ~ aboveb cmp m x.
Proof.
  destruct l as [[l a]], u as [[u b]], m as [[m c]]; unfold IVProofs.ok, aboveb, belowb, lt at 2, lower_cmp; cbn.
  intros O H.
  destruct (cmp l m) eqn:K; [| |discriminate].
  - destruct a, c; try discriminate; cbn in *. exists l. split; [apply (le_refl HL)|].
    split; [destruct O as [O|(O & _ & ->)]; try destruct b; cbn; ord HL|].
    intros X; ord HL.
  - clear H. destruct a.
    + exists l. split; [apply (le_refl HL)|]. split; [destruct O as [O|(O & _ & ->)]; try destruct b; cbn; ord HL|].
      destruct c; cbn; intros X; ord HL.
    + destruct O as [O|(_ & F & _)]; [|discriminate].
      destruct (lt_or_ge HL u m) as [U|U].
      * destruct (HD O) as (z & Z1 & Z2). exists z. split; [cbn; auto|]. split; [destruct b; cbn; ord HL|].
        destruct c; cbn; intros X; ord HL.
      * destruct (HD K) as (z & Z1 & Z2). exists z. split; [cbn; auto|]. split; [destruct b; cbn; ord HL|].
        destruct c; cbn; intros X; ord HL.
Qed.
Lemma upper_escape l u m : ok l u -> lt (upper_cmp cmp) m u ->
  exists x, aboveb cmp l x /\ belowb cmp u x /\ ~ belowb cmp m x.
Proof.
  destruct l as [[l a]], u as [[u b]], m as [[m c]]; unfold IVProofs.ok, aboveb, belowb, lt at 2, upper_cmp; cbn.
  intros O H.
  destruct (cmp m u) eqn:K; [| |discriminate].
  - destruct c, b; try discriminate; cbn in *. exists u. 
    split; [destruct O as [O|(O & -> & _)]; try destruct a; cbn; ord HL|].
    split; [apply (le_refl HL)|]. intros X; ord HL.
  - clear H. destruct b.
    + exists u. split; [destruct O as [O|(O & -> & _)]; try destruct a; cbn; ord HL|]. split; [apply (le_refl HL)|].
      destruct c; cbn; intros X; ord HL.
    + destruct O as [O|(_ & _ & F)]; [|discriminate].
      destruct (lt_or_ge HL m l) as [U|U].
      * destruct (HD O) as (z & Z1 & Z2). exists z. split; [destruct a; cbn; ord HL|]. split; [cbn; auto|].
        destruct c; cbn; intros X; ord HL.
      * destruct (HD K) as (z & Z1 & Z2). exists z. split; [destruct a; cbn; ord HL|]. split; [cbn; auto|].
        destruct c; cbn; intros X; ord HL.
Qed.

Lemma contains_complete a b : wf b ->
  (forall x, mem cmp (iv_into_tuple b) x -> mem cmp (iv_into_tuple a) x) -> iv_contains_interval cmp a b = true.
Proof.
  destruct b as [[[l' u']|]]; [|destruct a as [[[? ?]|]]; reflexivity]. intros W H. apply wf_ok in W.
  destruct a as [[[l u]|]].
  - apply contains_mk. split.
    + apply (nlt_le LL). intros K. destruct (lower_escape W K) as (x & A & B & N).
      apply N. apply (proj1 (mem_bounds cmp l u x)). apply H, mem_bounds; auto.
    + apply (nlt_le UL). intros K. destruct (upper_escape W K) as (x & A & B & N).
      apply N. apply (proj1 (mem_bounds cmp l u x)). apply H, mem_bounds; auto.
  - exfalso. destruct (ok_inhabited W) as (x & A & B). apply (H x), mem_bounds; auto.
Qed.
End Dense.

Lemma contains_refl a : iv_contains_interval cmp a a = true.
Proof. destruct a as [[[l u]|]]; [|reflexivity]. apply contains_mk. split; [apply (le_refl LL)|apply (le_refl UL)]. Qed.
Lemma contains_trans a b c : iv_contains_interval cmp a b = true -> iv_contains_interval cmp b c = true ->
  iv_contains_interval cmp a c = true.
Proof.
  destruct a as [[[l u]|]], b as [[[l' u']|]], c as [[[l'' u'']|]]; try discriminate; auto.
  rewrite !contains_mk. intros [A B] [C D]. split; [exact (le_trans LL A C)|exact (le_trans UL D B)].
Qed.
Lemma contains_antisym a b : iv_contains_interval cmp a b = true -> iv_contains_interval cmp b a = true -> iv_eq cmp a b = true.
Proof.
  destruct a as [[[l u]|]], b as [[[l' u']|]]; try discriminate; auto.
  rewrite !contains_mk. intros [A B] [C D]. apply iv_eq_same, same_bounds. split; [apply (les_eqv LL); auto|apply (les_eqv UL); auto].
Qed.

Lemma span_contains l1 u1 l2 u2 r : span_char [l1; l2] [u1; u2] r ->
  iv_contains_interval cmp r (mk l1 u1) = true /\ iv_contains_interval cmp r (mk l2 u2) = true /\
  forall c, iv_contains_interval cmp c (mk l1 u1) = true -> iv_contains_interval cmp c (mk l2 u2) = true ->
    iv_contains_interval cmp c r = true.
Proof.
  intros (l & u & [Hl Hl'] & [Hu Hu'] & ->). rewrite !contains_mk.
  split; [split; [apply Hl'|apply Hu']; cbn; auto|]. split; [split; [apply Hl'|apply Hu']; cbn; auto|].
  intros [[[cl cu]|]]; [|discriminate]. rewrite !contains_mk. intros [A B] [C D].
  cbn in Hl, Hu. destruct Hl as [<-|[<-|[]]], Hu as [<-|[<-|[]]]; auto.
Qed.

Lemma span_spec a b : wf a -> wf b ->
  exists r r', iv_span cmp a b = Ret r /\ iv_into_span cmp a b = Ret r' /\ iv_eq cmp r r' = true /\ wf r /\ wf r' /\
    iv_contains_interval cmp r a = true /\ iv_contains_interval cmp r b = true /\
    (forall c, iv_contains_interval cmp c a = true -> iv_contains_interval cmp c b = true ->
      iv_contains_interval cmp c r = true).
Proof.
  intros Wa Wb. destruct b as [[[l2 u2]|]].
  2: { exists a, a. split; [reflexivity|]. split; [reflexivity|]. split; [apply iv_eq_same, same_refl|].
       split; auto. split; auto. split; [apply contains_refl|]. split; auto. destruct a as [[[? ?]|]]; reflexivity. }
  destruct a as [[[l1 u1]|]].
  2: { exists (mk l2 u2), (mk l2 u2). split; [reflexivity|]. split; [reflexivity|]. split; [apply iv_eq_same, same_refl|].
       split; auto. split; auto. split; [reflexivity|]. split; [apply contains_refl|]. auto. }
  apply wf_ok in Wa; apply wf_ok in Wb.
  destruct (span_mk l1 u1 l2 u2) as (r & Hr & C). destruct (into_span_mk Wa Wb) as (r' & Hr' & C').
  exists r, r'. split; auto. split; auto. split; [apply iv_eq_same; exact (span_char_same C C')|].
  split; [destruct C as (l & u & A & B & ->); apply wf_ok; exact (span_ok Wa Wb A B)|].
  split; [destruct C' as (l & u & A & B & ->); apply wf_ok; exact (span_ok Wa Wb A B)|].
  exact (span_contains C).
Qed.

(** *** merge *)
Lemma merge_sep l1 u1 l2 u2 : iv_can_be_merged cmp (mk l1 u1) (mk l2 u2) = negb (are_separated cmp l2 u1 || are_separated cmp l1 u2).
Proof. reflexivity. Qed.

Lemma sep_points l u : are_separated cmp l u = false -> forall x, aboveb cmp l x \/ belowb cmp u x.
Proof.
  destruct l as [[l a]], u as [[u b]]; unfold are_separated, aboveb, belowb, vgt, veq; cbn. intros H x.
  destruct (lt_or_ge HL x l) as [X|X], (lt_or_ge HL u x) as [Y|Y].
  - destruct (cmp l u) eqn:K; try discriminate; ord HL.
  - destruct (cmp l u) eqn:K; try discriminate.
    + right. destruct b; cbn; ord HL.
    + right; destruct b; cbn; ord HL.
  - left; destruct a; cbn; auto. destruct (cmp l u) eqn:K; try discriminate; ord HL.
  - destruct a; [left; auto|]. destruct b; [right; auto|].
    destruct (lt_or_ge HL l x); [left; auto|]. destruct (lt_or_ge HL x u); [right; auto|].
    cbn in H. assert (K : cmp u l = Eq) by (apply (les_eqv HL); ord HL). rewrite K in H.
    rewrite orb_true_r in H; discriminate.
Qed.

Lemma merge_forms l1 u1 l2 u2 : ok l1 u1 -> ok l2 u2 -> iv_can_be_merged cmp (mk l1 u1) (mk l2 u2) = true ->
  exists r r', iv_merge cmp (mk l1 u1) (mk l2 u2) = (r, inl tt) /\
    iv_into_merged cmp (mk l1 u1) (mk l2 u2) = Ret (inl r') /\
    span_char [l1; l2] [u1; u2] r /\ span_char [l1; l2] [u1; u2] r'.
Proof.
  intros O1 O2 H. unfold iv_merge, iv_into_merged. rewrite H. cbn [negb imp iv_is_empty unwrap obind iv_into_bounds lo up].
  rewrite (from_bounds_ok HL (span_ok O1 O2 (lmin_is l1 l2) (umax_is u1 u2))). cbn [obind].
  do 2 eexists; split; [reflexivity|]. split; [reflexivity|]. split.
  - do 2 eexists; split; [apply lmin_if|split; [apply umax_if|reflexivity]].
  - do 2 eexists; split; [apply lmin_is|split; [apply umax_is|reflexivity]].
Qed.

Lemma merge_points l1 u1 l2 u2 r x : ok l1 u1 -> ok l2 u2 -> iv_can_be_merged cmp (mk l1 u1) (mk l2 u2) = true ->
  span_char [l1; l2] [u1; u2] r ->
  mem cmp (iv_into_tuple r) x <-> mem cmp (iv_into_tuple (mk l1 u1)) x \/ mem cmp (iv_into_tuple (mk l2 u2)) x.
Proof.
  intros O1 O2 H C. split.
  - destruct C as (l & u & [Hl _] & [Hu _] & ->). rewrite !mem_bounds. intros [A B].
    rewrite merge_sep, negb_true_iff, orb_false_iff in H. destruct H as [S1 S2].
    pose proof (sep_points l2 u1 S1 x) as P1. pose proof (sep_points l1 u2 S2 x) as P2.
    cbn in Hl, Hu. destruct Hl as [<-|[<-|[]]], Hu as [<-|[<-|[]]]; try tauto.
  - destruct (span_contains C) as (A & B & _). intros [M|M]; eauto using contains_points.
Qed.

Lemma merge_spec a b : wf a -> wf b -> iv_can_be_merged cmp a b = true ->
  exists r r', iv_merge cmp a b = (r, inl tt) /\ iv_into_merged cmp a b = Ret (inl r') /\ iv_eq cmp r r' = true /\
    wf r /\ wf r' /\
    (forall x, mem cmp (iv_into_tuple r) x <-> mem cmp (iv_into_tuple a) x \/ mem cmp (iv_into_tuple b) x) /\
    exists s, iv_span cmp a b = Ret s /\ iv_eq cmp r s = true.
Proof.
  intros Wa Wb H. destruct a as [[[l1 u1]|]].
  2: { exists b, b. split; [reflexivity|]. split; [destruct b as [[[l2 u2]|]]; reflexivity|].
       split; [apply iv_eq_same, same_refl|]. split; auto. split; auto. split; [intros x; cbn; tauto|].
       exists b; split; [destruct b as [[[l2 u2]|]]; reflexivity|apply iv_eq_same, same_refl]. }
  destruct b as [[[l2 u2]|]].
  2: { exists (mk l1 u1), (mk l1 u1). split; [reflexivity|]. split; [reflexivity|].
       split; [apply iv_eq_same, same_refl|]. split; auto. split; auto.
       split; [intros x; cbn [imp iv_into_tuple mem]; tauto|].
       exists (mk l1 u1); split; [reflexivity|apply iv_eq_same, same_refl]. }
  apply wf_ok in Wa; apply wf_ok in Wb.
  destruct (merge_forms Wa Wb H) as (r & r' & Hr & Hr' & C & C'). exists r, r'.
  split; auto. split; auto. split; [apply iv_eq_same; exact (span_char_same C C')|].
  split; [destruct C as (l & u & A & B & ->); apply wf_ok; exact (span_ok Wa Wb A B)|].
  split; [destruct C' as (l & u & A & B & ->); apply wf_ok; exact (span_ok Wa Wb A B)|].
  split; [intros x; exact (merge_points x Wa Wb H C)|].
  destruct (span_mk l1 u1 l2 u2) as (s & Hs & Cs). exists s; split; auto.
  apply iv_eq_same; exact (span_char_same C Cs).
Qed.

Lemma merge_refused a b : iv_can_be_merged cmp a b = false ->
  iv_merge cmp a b = (a, inr b) /\ iv_into_merged cmp a b = Ret (inr (a, b)).
Proof. intros H; unfold iv_merge, iv_into_merged; rewrite H; auto. Qed.

Lemma mem_convex t : convex cmp (mem cmp t).
Proof.
  destruct t as [[[[l lc] u] uc]|]; intros x y z; cbn; [|intros []].
  intros [A B] [C D] E F. destruct lc, uc; cbn in *; split; ord HL.
Qed.

Lemma merge_convex a b : wf a -> wf b -> iv_can_be_merged cmp a b = true ->
  convex cmp (fun x => mem cmp (iv_into_tuple a) x \/ mem cmp (iv_into_tuple b) x).
Proof.
  intros Wa Wb H. destruct (merge_spec _ _ Wa Wb H) as (r & _ & _ & _ & _ & _ & _ & M & _).
  intros x y z. rewrite <- !M. apply mem_convex.
Qed.

Lemma sep_gap l1 u1 l2 u2 (HD : dense cmp) : ok l1 u1 -> ok l2 u2 -> are_separated cmp l2 u1 = true ->
  exists x y z, (aboveb cmp l1 x /\ belowb cmp u1 x) /\ (aboveb cmp l2 y /\ belowb cmp u2 y) /\ le cmp x z /\ le cmp z y /\
   ~ belowb cmp u1 z /\ ~ aboveb cmp l2 z.
Proof.
  intros O1 O2 S. destruct (ok_inhabited HD O1) as (x & X1 & X2). destruct (ok_inhabited HD O2) as (y & Y1 & Y2).
  assert (Z : exists z, le cmp (uval u1) z /\ le cmp z (lval l2) /\ ~ belowb cmp u1 z /\ ~ aboveb cmp l2 z).
  { destruct u1 as [[u b]], l2 as [[l a]]; unfold are_separated, vgt, veq, belowb, aboveb in *; cbn in *.
    destruct (cmp l u) eqn:K; cbn in S.
    - exists u. rewrite (ord_opp HL l u), K in S; cbn in S. destruct b, a; try discriminate; cbn.
      repeat split; try ord HL; intros Q; ord HL.
    - rewrite (ord_opp HL l u), K in S; discriminate.
    - apply (gt_lt HL) in K. destruct (HD _ _ K) as (z & Z1 & Z2). exists z.
      repeat split; try ord HL; destruct a, b; cbn; intros Q; ord HL. }
  destruct Z as (z & Z1 & Z2 & Z3 & Z4). exists x, y, z. repeat split; auto.
  - destruct u1 as [[u [|]]]; unfold belowb in X2; cbn in *; ord HL.
  - destruct l2 as [[l [|]]]; unfold aboveb in Y1; cbn in *; ord HL.
Qed.

Lemma merge_complete a b (HD : dense cmp) : wf a -> wf b ->
  convex cmp (fun x => mem cmp (iv_into_tuple a) x \/ mem cmp (iv_into_tuple b) x) ->
  iv_can_be_merged cmp a b = true.
Proof.
  destruct a as [[[l1 u1]|]]; [|reflexivity]. destruct b as [[[l2 u2]|]]; [|reflexivity].
  intros Wa Wb C. apply wf_ok in Wa; apply wf_ok in Wb.
  rewrite merge_sep. destruct (are_separated cmp l2 u1) eqn:S1; [|destruct (are_separated cmp l1 u2) eqn:S2]; cbn; auto.
  - exfalso. destruct (sep_gap HD Wa Wb S1) as (x & y & z & X & Y & Z1 & Z2 & N1 & N2).
    destruct (C x y z) as [K|K]; rewrite ?mem_bounds in *; tauto.
  - exfalso. destruct (sep_gap HD Wb Wa S2) as (x & y & z & X & Y & Z1 & Z2 & N1 & N2).
    destruct (C x y z) as [K|K]; rewrite ?mem_bounds in *; tauto.
Qed.

(** *** everything a program can hold is well formed *)
Lemma obtainable_wf i : obtainable cmp i -> wf i.
Proof.
  induction 1; try (destruct (create_checked_wf _ _ _ _ _ H); auto; fail).
  - exact I.
  - cbn. right; repeat split; apply (cmp_refl HL).
  - destruct (iv_can_be_merged cmp a b) eqn:M.
    + destruct (merge_spec _ _ IHobtainable1 IHobtainable2 M) as (r & r' & _ & Hr & _ & _ & W & _). congruence.
    + destruct (merge_refused a b M) as [_ K]; congruence.
  - destruct (iv_can_be_merged cmp a b) eqn:M.
    + destruct (merge_spec _ _ IHobtainable1 IHobtainable2 M) as (r & r' & _ & Hr & _ & _ & W & _). congruence.
    + destruct (merge_refused a b M) as [_ K]. rewrite K in H1; inversion H1; subst. destruct H2; subst; auto.
  - destruct (iv_can_be_merged cmp a b) eqn:M.
    + destruct (merge_spec _ _ IHobtainable1 IHobtainable2 M) as (r & r' & -> & _ & _ & W & _); auto.
    + destruct (merge_refused a b M) as [-> _]; auto.
  - destruct (iv_can_be_merged cmp a b) eqn:M.
    + destruct (merge_spec _ _ IHobtainable1 IHobtainable2 M) as (r & r' & K & _). rewrite K in H1; discriminate.
    + destruct (merge_refused a b M) as [K _]. rewrite K in H1; inversion H1; subst; auto.
  - destruct (intersection_spec _ _ IHobtainable1 IHobtainable2) as (r & r' & _ & K & _ & _ & W & _). congruence.
  - destruct (intersection_spec _ _ IHobtainable1 IHobtainable2) as (r & r' & K & _ & _ & W & _). congruence.
  - destruct (span_spec _ _ IHobtainable1 IHobtainable2) as (r & r' & _ & K & _ & _ & W & _). congruence.
  - destruct (span_spec _ _ IHobtainable1 IHobtainable2) as (r & r' & K & _ & _ & W & _). congruence.
  - unfold iv_add in H0. destruct (imp a); [|inversion H0; subst; auto].
    destruct (upper_add f (up n) k); try discriminate; cbn [obind] in H0. destruct (lower_add f (lo n) k); try discriminate; cbn [obind] in H0.
    inversion H0; apply (fix_wf HL).
  - unfold iv_sub in H0. destruct (imp a); [|inversion H0; subst; auto].
    destruct (upper_sub f (up n) k); try discriminate; cbn [obind] in H0. destruct (lower_sub f (lo n) k); try discriminate; cbn [obind] in H0.
    inversion H0; apply (fix_wf HL).
  - unfold iv_mul in H0. destruct (imp a); [|inversion H0; subst; auto].
    destruct (upper_mul f (up n) k); try discriminate; cbn [obind] in H0. destruct (lower_mul f (lo n) k); try discriminate; cbn [obind] in H0.
    inversion H0; apply (fix_wf HL).
  - unfold iv_div in H0. destruct (imp a); [|inversion H0; subst; auto].
    destruct (upper_div f (up n) k); try discriminate; cbn [obind] in H0. destruct (lower_div f (lo n) k); try discriminate; cbn [obind] in H0.
    inversion H0; apply (fix_wf HL).
  - unfold iv_add_assign in H0. destruct (imp a); [|inversion H0; subst; apply (fix_wf HL)].
    destruct (lower_add_assign f (lo n) k) as [? [| | | |]]; try discriminate.
    destruct (upper_add_assign f (up n) k) as [? [| | | |]]; try discriminate. inversion H0; apply (fix_wf HL).
  - unfold iv_sub_assign in H0. destruct (imp a); [|inversion H0; subst; apply (fix_wf HL)].
    destruct (lower_sub_assign f (lo n) k) as [? [| | | |]]; try discriminate.
    destruct (upper_sub_assign f (up n) k) as [? [| | | |]]; try discriminate. inversion H0; apply (fix_wf HL).
  - unfold iv_mul_assign in H0. destruct (imp a); [|inversion H0; subst; apply (fix_wf HL)].
    destruct (lower_mul_assign f (lo n) k) as [? [| | | |]]; try discriminate.
    destruct (upper_mul_assign f (up n) k) as [? [| | | |]]; try discriminate. inversion H0; apply (fix_wf HL).
  - unfold iv_div_assign in H0. destruct (imp a); [|inversion H0; subst; apply (fix_wf HL)].
    destruct (lower_div_assign f (lo n) k) as [? [| | | |]]; try discriminate.
    destruct (upper_div_assign f (up n) k) as [? [| | | |]]; try discriminate. inversion H0; apply (fix_wf HL).
  - unfold iv_neg in H0. destruct (iv_into_tuple a) as [[[[l lc] u] uc]|].
    + destruct (f u); try discriminate; cbn [obind] in H0. destruct (f l); try discriminate; cbn [obind] in H0.
      inversion H0; apply (fix_wf HL).
    + inversion H0; exact I.
Qed.
End Sets.
