(** Proofs about the disjoint set: queries, iteration, histories. *)
From Coq Require Import Permutation NArith.
From Verif Require Import Base HMModel HMProofs DSModel DSSpec DSRun DSProofs DSProofs2.
Set Implicit Arguments.

Section Proofs.
Variable K : Type.
Variable eqb : K -> K -> bool.
Hypothesis L : eq_laws eqb.
Variable E : machine.
Implicit Types (s : dset K) (g : log K) (x y z a b k : K) (xs : list K) (ps : list (K * K)).

Notation mem := (mem eqb).
Notation firsts := (firsts eqb).
Notation conn := (conn eqb).
Notation valid := (valid eqb E).
Notation shows := (shows eqb).

(** ** in_union *)
Lemma in_union_ok s a b : valid s ->
  exists v bb, ds_in_union eqb a b s = (DSet (ds_ids s) v, Ret bb) /\ same (ds_data s) v /\
   (bb = true <-> exists ka ia kb ib, hm_entry_of eqb a (ds_ids s) = Some (ka, ia) /\
      hm_entry_of eqb b (ds_ids s) = Some (kb, ib) /\ linked s ia ib).
Proof.
  intros V. pose proof V as (_ & _ & _ & _ & F & _). unfold ds_in_union, hm_get.
  assert (Id : s = DSet (ds_ids s) (ds_data s)) by now destruct s.
  destruct (hm_entry_of eqb a (ds_ids s)) as [[ka ia]|] eqn:Qa; simpl.
  2: { exists (ds_data s), false. rewrite <- Id. split; [reflexivity|]. split; [now apply same_refl|].
       split; [discriminate|]. intros (ka & ia & kb & ib & X & _). discriminate. }
  destruct (hm_entry_of eqb b (ds_ids s)) as [[kb ib]|] eqn:Qb; simpl.
  2: { exists (ds_data s), false. rewrite <- Id. split; [reflexivity|]. split; [now apply same_refl|].
       split; [discriminate|]. intros (ka' & ia' & kb & ib & _ & X & _). discriminate. }
  pose proof (entry_of_some _ _ _ Qa) as [Ia _]. pose proof (entry_of_some _ _ _ Qb) as [Ib _].
  destruct (root_of _ _ V Ia) as [ra Ra]. destruct (root_of _ _ V Ib) as [rb Rb].
  destruct (find_in_ok V Ra) as (v1 & H1 & S1). rewrite H1.
  pose proof (same_valid V S1) as V1. set (s1 := DSet (ds_ids s) v1) in *.
  assert (Rb1 : root (ds_data s1) ib rb) by (apply S1; exact Rb).
  destruct (find_in_ok V1 Rb1) as (v2 & H2 & S2). rewrite H2.
  exists v2, (ra =? rb). split; [reflexivity|]. split; [eapply same_trans; eauto|].
  rewrite Nat.eqb_eq. split.
  - intros <-. exists ka, ia, kb, ib. split; auto. split; auto. exists ra. auto.
  - intros (ka' & ia' & kb' & ib' & X & Y & (r & R1 & R2)). inversion X; inversion Y; subst.
    rewrite (root_fun Ra R1). now apply (root_fun R2).
Qed.

Lemma linked_together s g a b : valid s -> shows s g ->
  (exists ka ia kb ib, hm_entry_of eqb a (ds_ids s) = Some (ka, ia) /\
      hm_entry_of eqb b (ds_ids s) = Some (kb, ib) /\ linked s ia ib) <-> together eqb g a b.
Proof.
  intros V S. pose proof S as (P & O & C). unfold together.
  rewrite <- (entry_mem L a S), <- (entry_mem L b S). split.
  - intros (ka & ia & kb & ib & X & Y & Lk). split; [eauto|]. split; [eauto|].
    apply entry_of_some in X. apply entry_of_some in Y. destruct X as [X1 X2], Y as [Y1 Y2].
    apply (C _ _ _ _ X1 Y1) in Lk.
    eapply conn_trans; [apply conn_eq, X2|]. eapply conn_trans; [exact Lk|].
    apply conn_eq. now apply (eq_sym' L).
  - intros ([[ka ia] X] & [[kb ib] Y] & H). exists ka, ia, kb, ib. split; auto. split; auto.
    apply entry_of_some in X. apply entry_of_some in Y. destruct X as [X1 X2], Y as [Y1 Y2].
    apply (C _ _ _ _ X1 Y1).
    eapply conn_trans; [apply conn_eq; apply (eq_sym' L), X2|]. eapply conn_trans; [exact H|].
    now apply conn_eq.
Qed.

Lemma contains_mem s g x : shows s g -> (ds_contains eqb x s = true <-> mem x (added g)).
Proof.
  intros S. rewrite <- (entry_mem L x S). unfold ds_contains. rewrite contains_entry.
  destruct (hm_entry_of eqb x (ds_ids s)) as [e|]; split; try discriminate; eauto.
  intros [e X]; discriminate.
Qed.

(** ** Adding several elements *)
Lemma firsts_bound s g : valid s -> shows s g -> length (firsts (added g)) <= alloc_max E.
Proof. intros V S. pose proof (size_len S) as X. unfold size in X. rewrite X. apply V. Qed.

Lemma makes_shows xs s g s' r : valid s -> shows s g ->
  for_each (ds_make_set eqb E) xs s = (s', r) ->
  exists g', valid s' /\ shows s' g' /\ adds eqb E xs g g' (omap (fun _ => RUnit) r).
Proof.
  revert s g. induction xs as [|x xs IH]; intros s g V S; simpl.
  - intros H; inversion H; subst. exists g. split; auto. split; auto. left. rewrite !app_nil_r.
    split; auto. split; [now destruct g|]. eapply firsts_bound; eauto.
  - unfold ds_make_set at 1.
    destruct (make_shows L x V S) as [(s1 & i & k & H1 & V1 & S1 & _)|[H1 N1]]; rewrite H1; simpl.
    + intros H. destruct (IH _ _ V1 S1 H) as (g' & V' & S' & A). exists g'. split; auto. split; auto.
      destruct A as [(Hr & Hg & Hl)|(Hr & l1 & z & l2 & -> & Hg & N)]; cbn [added united] in *.
      * left. rewrite <- app_assoc in Hg, Hl. auto.
      * right. split; auto. exists (x :: l1), z, l2. split; auto.
        rewrite <- app_assoc in Hg, N. auto.
    + intros H; inversion H; subst. exists g. split; auto. split; auto. right. split; auto.
      exists [], x, xs. simpl. rewrite app_nil_r. split; auto. split; [now destruct g|exact N1].
Qed.

(** ** Iteration *)
Definition rf (v : list data) (i : nat) : nat :=
  match snd (ds_find (S (length v)) v i) with Ret r => r | _ => i end.

Lemma rf_root s i r : valid s -> root (ds_data s) i r -> rf (ds_data s) i = r.
Proof.
  intros V R. destruct (find_in_ok V R) as (v & H & _). unfold ds_find_in in H. unfold rf.
  destruct (ds_find (S (length (ds_data s))) (ds_data s) i) as [v' o]. inversion H; subst. reflexivity.
Qed.

(** adding a key to its group *)
Definition gpush (r : nat) k (m : hmap nat (list K)) : hmap nat (list K) :=
  match hm_get Nat.eqb r m with
  | Some ks => hm_set Nat.eqb r (ks ++ [k]) m
  | None => (r, [k]) :: m
  end.
Definition groups (f : nat -> nat) (l : hmap K nat) (m : hmap nat (list K)) : hmap nat (list K) :=
  fold_left (fun m e => gpush (f (snd e)) (fst e) m) l m.

Lemma nat_laws : eq_laws Nat.eqb.
Proof.
  constructor; intros *; rewrite ?Nat.eqb_eq; congruence.
Qed.

Definition gok (f : nat -> nat) (l : hmap K nat) (m : hmap nat (list K)) : Prop :=
  hm_wf Nat.eqb m /\
  Forall (fun e => snd e <> [] /\ forall k, In k (snd e) -> exists i, In (k, i) l /\ f i = fst e) m /\
  Permutation (map fst l) (concat (map snd m)).

Lemma set_concat r ks k (m : hmap nat (list K)) : hm_get Nat.eqb r m = Some ks ->
  Permutation (concat (map snd m) ++ [k]) (concat (map snd (hm_set Nat.eqb r (ks ++ [k]) m))).
Proof.
  unfold hm_get. induction m as [|[r' ks'] m IH]; simpl; [discriminate|].
  destruct (r =? r') eqn:Q; simpl.
  - intros X; inversion X; subst. rewrite <- !app_assoc. apply Permutation_app_head.
    apply Permutation_app_comm.
  - intros X. rewrite <- app_assoc. apply Permutation_app_head. auto.
Qed.

Lemma gpush_ok f l m k i : gok f l m -> gok f (l ++ [(k, i)]) (gpush (f i) k m).
Proof.
  intros (W & Fm & P). unfold gpush. destruct (hm_get Nat.eqb (f i) m) as [ks|] eqn:Q.
  - split; [now apply wf_set|]. split.
    + rewrite Forall_forall in *. intros [r ks'] I. 
      assert (W2 : hm_wf Nat.eqb (hm_set Nat.eqb (f i) (ks ++ [k]) m)) by now apply wf_set.
      assert (Y := proj2 (wf_iff nat_laws r (r, ks') W2) (conj I (Nat.eqb_refl r))).
      rewrite (entry_of_set nat_laws) in Y. simpl.
      unfold hm_get in Q. destruct (hm_entry_of Nat.eqb (f i) m) as [[r0 ks0]|] eqn:Q0; [|discriminate].
      simpl in Q; inversion Q; subst ks0. clear Q.
      destruct (r =? f i) eqn:X.
      * simpl in Y. inversion Y; subst. clear Y. apply entry_of_some in Q0. destruct Q0 as [Q0 Q1].
        apply Nat.eqb_eq in Q1, X. destruct (Fm _ Q0) as [G1 G2]. simpl in *. split.
        -- destruct ks; discriminate.
        -- intros k' J. apply in_app_or in J. destruct J as [J|[<-|[]]].
           ++ destruct (G2 k' J) as (i' & I1 & I2). exists i'. split; auto. apply in_or_app; auto.
           ++ exists i. split; auto. apply in_or_app; simpl; auto.
      * apply entry_of_some in Y. destruct Y as [Y _]. destruct (Fm _ Y) as [G1 G2]. simpl in *.
        split; auto. intros k' J. destruct (G2 k' J) as (i' & I1 & I2). exists i'. split; auto.
        apply in_or_app; auto.
    + rewrite map_app. simpl. eapply Permutation_trans; [apply Permutation_app_tail, P|].
      now apply set_concat.
  - assert (N : hm_entry_of Nat.eqb (f i) m = None).
    { unfold hm_get in Q. destruct (hm_entry_of Nat.eqb (f i) m); [discriminate|auto]. }
    split; [now apply wf_cons|]. split.
    + constructor; simpl.
      * split; [discriminate|]. intros k' [<-|[]]. exists i. split; auto. apply in_or_app; simpl; auto.
      * rewrite Forall_forall in *. intros e I. destruct (Fm e I) as [G1 G2]. split; auto.
        intros k' J. destruct (G2 k' J) as (i' & I1 & I2). exists i'. split; auto. apply in_or_app; auto.
    + rewrite map_app. simpl. eapply Permutation_trans; [apply Permutation_app_comm|].
      simpl. now apply perm_skip.
Qed.

Lemma gok_size f l m : gok f l m -> length m <= length l /\ forall r ks, In (r, ks) m -> length ks <= length l.
Proof.
  intros (W & Fm & P). apply Permutation_length in P. rewrite map_length in P. rewrite P.
  clear W P. split.
  - induction m as [|[r ks] m IH]; simpl; auto. inversion Fm as [|? ? [G _] F2]; subst.
    rewrite app_length. specialize (IH F2). simpl in G. destruct ks; [congruence|simpl; lia].
  - intros r ks I. clear Fm. induction m as [|[r' ks'] m IH]; simpl in *; [tauto|].
    rewrite app_length. destruct I as [I|I]; [inversion I; subst; lia|]. specialize (IH I). lia.
Qed.

Lemma group_push_ok f l m k i : gok f l m -> length l < alloc_max E ->
  ds_group_push E (f i) k m = (gpush (f i) k m, Ret tt).
Proof.
  intros G Lt. destruct (gok_size G) as [Gm Gk]. unfold ds_group_push, hm_or_insert, hm_entry, gpush.
  destruct (hm_get Nat.eqb (f i) m) as [ks|] eqn:Q; simpl.
  - unfold vec_push. rewrite get_entry in Q.
    destruct (hm_entry_of Nat.eqb (f i) m) as [[r ks']|] eqn:Q2; [|discriminate].
    simpl in Q; inversion Q; subst. apply entry_of_some in Q2. destruct Q2 as [Q2 _].
    specialize (Gk _ _ Q2).
    replace (length ks + 1 <=? alloc_max E) with true by (symmetry; apply Nat.leb_le; lia). reflexivity.
  - unfold hm_reserve. replace (length m + 1 <=? alloc_max E) with true by (symmetry; apply Nat.leb_le; lia).
    cbn [obind]. unfold vec_push. cbn [length Nat.add app].
    replace (1 <=? alloc_max E) with true by (symmetry; apply Nat.leb_le; lia).
    unfold hm_insert_vacant. cbn [hm_set app]. now rewrite Nat.eqb_refl.
Qed.

Lemma group_ok l2 s v l1 m : valid s -> same (ds_data s) v -> gok (rf (ds_data s)) l1 m ->
  (forall k i, In (k, i) l2 -> In (k, i) (ds_ids s)) -> length l1 + length l2 <= alloc_max E ->
  exists v', ds_group E l2 (DSet (ds_ids s) v) m =
    (DSet (ds_ids s) v', Ret (groups (rf (ds_data s)) l2 m)) /\
    same (ds_data s) v' /\ gok (rf (ds_data s)) (l1 ++ l2) (groups (rf (ds_data s)) l2 m).
Proof.
  intros V. revert v l1 m. induction l2 as [|[k i] l2 IH]; intros v l1 m S G I Le; simpl.
  - exists v. rewrite app_nil_r. auto.
  - pose proof (same_valid V S) as Vv.
    destruct (root_of k i V) as [r R]; [apply I; simpl; auto|].
    assert (Rv : root (ds_data (DSet (ds_ids s) v)) i r) by (apply S; exact R).
    destruct (find_in_ok Vv Rv) as (v1 & H1 & S1). rewrite H1.
    rewrite <- (rf_root V R). simpl in Le.
    rewrite (group_push_ok k i G) by lia.
    cbn [ds_data ds_ids] in *.
    destruct (IH v1 (l1 ++ [(k, i)]) (gpush (rf (ds_data s) i) k m)) as (v' & H & Sv & Gv).
    + eapply same_trans; eauto.
    + now apply gpush_ok.
    + intros k' i' J. apply I. simpl; auto.
    + rewrite app_length. simpl. lia.
    + exists v'. rewrite H. split; [reflexivity|]. split; [exact Sv|].
      rewrite <- app_assoc in Gv. exact Gv.
Qed.

Lemma drain_all n (it : set_iter K) : length it < n -> drain n it = map snd it.
Proof.
  revert it. induction n as [|n IH]; intros [|[r ks] it] H; simpl in *; auto; try lia.
  rewrite IH; auto. lia.
Qed.

Lemma concat_perm {A} (l1 l2 : list (list A)) : Permutation l1 l2 -> Permutation (concat l1) (concat l2).
Proof.
  induction 1; simpl; auto.
  - now apply Permutation_app_head.
  - rewrite !app_assoc. apply Permutation_app_tail, Permutation_app_comm.
  - eapply Permutation_trans; eauto.
Qed.

Lemma iter_ok s order pick : valid s -> (forall l, Permutation l (order l)) ->
  exists v, ds_into_iter E (order (ds_ids s)) pick s =
     (DSet (ds_ids s) v, Ret (pick (groups (rf (ds_data s)) (order (ds_ids s)) []))) /\
    same (ds_data s) v /\
    gok (rf (ds_data s)) (order (ds_ids s)) (groups (rf (ds_data s)) (order (ds_ids s)) []).
Proof.
  intros V Po. unfold ds_into_iter, ds_build_sets.
  destruct (@group_ok (order (ds_ids s)) s (ds_data s) [] []) as (v & H & S & G).
  - exact V.
  - apply same_refl. apply V.
  - split; [constructor|]. split; [constructor|]. apply Permutation_refl.
  - intros k i I. eapply Permutation_in; [apply Permutation_sym, Po|exact I].
  - simpl. rewrite <- (Permutation_length (Po (ds_ids s))). apply V.
  - exists v. replace (DSet (ds_ids s) (ds_data s)) with s in H by now destruct s. rewrite H.
    split; [reflexivity|]. auto.
Qed.

Lemma gok_partition s g l m m' : valid s -> shows s g -> Permutation (ds_ids s) l ->
  gok (rf (ds_data s)) l m -> Permutation m m' -> partition eqb g (map snd m').
Proof.
  intros V S P (W & Fm & Pm) Pm'. destruct S as (Pf & O & C).
  assert (Wm : hm_wf Nat.eqb m') by (eapply (wf_perm nat_laws); eauto).
  assert (Fm' : Forall (fun e => snd e <> [] /\ forall k, In k (snd e) ->
     exists i, In (k, i) (ds_ids s) /\ root (ds_data s) i (fst e)) m').
  { rewrite Forall_forall in *. intros e I. apply (Permutation_in _ (Permutation_sym Pm')) in I.
    destruct (Fm e I) as [G1 G2]. split; auto. intros k J. destruct (G2 k J) as (i & J1 & J2).
    apply (Permutation_in _ (Permutation_sym P)) in J1. exists i. split; auto.
    destruct (root_of _ _ V J1) as [r R]. rewrite (rf_root V R) in J2. now subst. }
  split; [|split; [|split]].
  - eapply Permutation_trans; [apply Permutation_sym, Pf|].
    eapply Permutation_trans; [apply Permutation_map, P|].
    eapply Permutation_trans; [exact Pm|]. apply concat_perm. now apply Permutation_map.
  - rewrite Forall_map. eapply Forall_impl; [|exact Fm']. simpl. tauto.
  - rewrite Forall_map. eapply Forall_impl; [|exact Fm']. simpl. intros e [_ G] x y X Y.
    destruct (G x X) as (i & I1 & I2). destruct (G y Y) as (j & J1 & J2).
    apply (C _ _ _ _ I1 J1). exists (fst e). auto.
  - clear Pm' Pm Fm. induction Wm as [|e m' D Wm IH]; simpl; constructor.
    + inversion Fm' as [|? ? [_ G] F2]; subst. rewrite Forall_map. rewrite Forall_forall in *.
      intros e' I x y X Y Q. destruct (F2 e' I) as [_ G'].
      destruct (G x X) as (i & I1 & I2). destruct (G' y Y) as (j & J1 & J2).
      apply (C _ _ _ _ I1 J1) in Q. destruct Q as (r & R1 & R2).
      specialize (D e' I). apply Nat.eqb_neq in D. apply D.
      rewrite (root_fun I2 R1). exact (root_fun R2 J2).
    + apply IH. now inversion Fm'.
Qed.

(** ** Each call refines the log *)
Hypothesis U : (N.log2 (N.of_nat (alloc_max E)) < u32_max)%N.

Lemma empty_added s g : shows s g -> (ds_is_empty s = true <-> added g = []).
Proof.
  intros S. pose proof (size_len S) as X. unfold size in X. unfold ds_is_empty.
  rewrite <- X, Nat.eqb_eq, length_zero_iff_nil. apply firsts_nil.
Qed.

Lemma reserve_ok s g n : valid s -> shows s g ->
  ds_reserve E n s = (s, if size eqb g + n <=? alloc_max E then Ret tt else Panic).
Proof.
  intros V S. unfold ds_reserve, vec_reserve, hm_reserve. rewrite (size_len S).
  destruct V as (_ & Ld & _). rewrite Ld.
  destruct (length (ds_ids s) + n <=? alloc_max E); reflexivity.
Qed.

Lemma extend_ok h xs s g s' r : valid s -> shows s g -> ds_extend eqb E h xs s = (s', r) ->
  exists g', valid s' /\ shows s' g' /\
    allowed eqb E (OExtend h xs) g g' (omap (fun _ => RUnit) r).
Proof.
  intros V S. unfold ds_extend. rewrite (reserve_ok h V S). cbn [allowed].
  destruct (size eqb g + h <=? alloc_max E) eqn:Q.
  - intros H. destruct (makes_shows _ V S H) as (g' & V' & S' & A). exists g'. split; auto. split; auto.
    left. split; auto. now apply Nat.leb_le.
  - intros H; inversion H; subst. exists g. split; auto. split; auto. right. split; auto.
    now apply Nat.leb_gt.
Qed.

Lemma step_ok o s g s' r : valid s -> shows s g -> op_ok o -> ds_step eqb E o s = (s', r) ->
  exists g', valid s' /\ shows s' g' /\ allowed eqb E o g g' r.
Proof.
  intros V S Ok H. destruct o; cbn [ds_step allowed] in *.
  - unfold unit_out in H. unfold ds_make_set in H.
    assert (X : for_each (ds_make_set eqb E) [x] s = ds_make_set eqb E x s).
    { simpl. destruct (ds_make_set eqb E x s) as [q [[]| | | |]]; reflexivity. }
    destruct (ds_make_set eqb E x s) as [s1 r1] eqn:Q.
    destruct (makes_shows _ V S X) as (g' & V' & S' & A). unfold ds_make_set in Q. rewrite Q in H.
    simpl in H. inversion H; subst. eauto.
  - unfold unit_out in H.
    destruct (union_shows L U a b V S) as [(s1 & H1 & V1 & S1 & Ra & Rb)|[[H1 N]|(s1 & H1 & V1 & S1 & Ra & N)]];
      rewrite H1 in H; simpl in H; inversion H; subst.
    + eexists. split; [exact V1|]. split; [exact S1|]. left. split; auto. split; auto.
      eapply (firsts_bound V1 S1).
    + exists g. split; auto. split; auto. right. split; auto. right. split; auto.
      exists [], a, [b]. simpl. rewrite app_nil_r. split; auto. split; [now destruct g|auto].
    + eexists. split; [exact V1|]. split; [exact S1|]. right. split; auto. right. split; auto.
      exists [a], b, []. auto.
  - unfold unit_out in H. destruct (ds_extend eqb E hint xs s) as [s1 r1] eqn:Q.
    simpl in H. inversion H; subst. exact (extend_ok _ _ V S Q).
  - unfold unit_out in H. unfold ds_extend_ref in H. rewrite map_id in H.
    fold (ds_extend eqb E hint xs s) in H. destruct (ds_extend eqb E hint xs s) as [s1 r1] eqn:Q.
    simpl in H. inversion H; subst. exact (extend_ok _ _ V S Q).
  - inversion H; subst. exists empty_log. split; [apply new_valid|]. split; [apply new_shows|]. auto.
  - unfold unit_out in H. rewrite (reserve_ok n V S) in H. simpl in H. inversion H; subst.
    exists g. split; auto. split; auto. split; auto. destruct (size eqb g + n <=? alloc_max E); reflexivity.
  - inversion H; subst. exists g. split; auto. split; auto. split; auto.
    exists (ds_contains eqb x s'). split; auto. now apply contains_mem.
  - destruct (in_union_ok a b V) as (v & bb & Hq & Sv & B). rewrite Hq in H. simpl in H.
    inversion H; subst. exists g. split; [now apply same_valid|]. split; [now apply same_shows|].
    split; auto. exists bb. split; auto. rewrite B. now apply linked_together.
  - inversion H; subst. exists g. split; auto. split; auto. split; auto.
    exists (ds_is_empty s'). split; auto. now apply empty_added.
  - inversion H; subst. exists g. split; auto. split; auto. split; auto. unfold ds_len.
    now rewrite (size_len S).
  - destruct Ok as [Po Pp].
    destruct (iter_ok order pick V Po) as (v & Hq & Sv & G). rewrite Hq in H. simpl in H.
    inversion H; subst. exists g. split; [now apply same_valid|]. split; [now apply same_shows|].
    split; auto. eexists. split; [|reflexivity].
    change (partition eqb g (drain (Datatypes.S (length (pick (groups (rf (ds_data s)) (order (ds_ids s)) []))))
      (pick (groups (rf (ds_data s)) (order (ds_ids s)) [])))).
    rewrite drain_all by auto. eapply gok_partition; eauto.
Qed.

Lemma run_ok ops s g s' tr : valid s -> shows s g -> Forall (@op_ok K) ops ->
  ds_run eqb E ops s = (s', tr) ->
  exists g', valid s' /\ shows s' g' /\ history eqb E ops g g' tr.
Proof.
  revert s g tr. induction ops as [|o ops IH]; intros s g tr V S Ok H; simpl in H.
  - inversion H; subst. exists g. split; auto. split; auto. constructor.
  - inversion Ok as [|? ? O1 O2]; subst.
    destruct (ds_step eqb E o s) as [s1 r] eqn:Q. destruct (ds_run eqb E ops s1) as [s2 tr2] eqn:R.
    inversion H; subst. destruct (step_ok _ V S O1 Q) as (g1 & V1 & S1 & A).
    destruct (IH _ _ _ V1 S1 O2 R) as (g2 & V2 & S2 & Hh). exists g2. split; auto. split; auto.
    econstructor; eauto.
Qed.

(** ** Constructors *)
Lemma with_capacity_ok n s : ds_with_capacity K E n = Ret s -> s = ds_new K.
Proof.
  unfold ds_with_capacity. destruct (hm_reserve E n (@nil (K * nat))); simpl; try discriminate.
  destruct (vec_reserve E n (@nil data)); simpl; try discriminate. intros H; inversion H; auto.
Qed.

Lemma with_capacity_iff n : ds_with_capacity K E n = if n <=? alloc_max E then Ret (ds_new K) else Panic.
Proof.
  unfold ds_with_capacity, hm_reserve, vec_reserve. simpl. destruct (n <=? alloc_max E); reflexivity.
Qed.

Lemma from_iter_inv h xs s : ds_from_iter eqb E h xs = Ret s ->
  for_each (ds_make_set eqb E) xs (ds_new K) = (s, Ret tt).
Proof.
  unfold ds_from_iter. rewrite with_capacity_iff. destruct (h <=? alloc_max E); simpl; [|discriminate].
  unfold ds_finish. destruct (for_each (ds_make_set eqb E) xs (ds_new K)) as [s' [[]| | | |]]; simpl;
    try discriminate. intros H; inversion H; auto.
Qed.

Lemma from_iter_shows h xs s : ds_from_iter eqb E h xs = Ret s -> valid s /\ shows s (Log xs []).
Proof.
  intros H. apply from_iter_inv in H.
  destruct (makes_shows xs (new_valid eqb E) (new_shows eqb) H) as (g & V & S & A).
  destruct A as [(_ & -> & _)|(X & _)]; [|discriminate]. simpl in S. auto.
Qed.

Lemma eqb_cl cl x y : (forall k, eqb (cl k) k = true) -> eqb (cl x) (cl y) = eqb x y.
Proof. intros CL. now rewrite (eqb_cong L _ (CL x)), (eqb_cong_r L _ (CL y)). Qed.

Lemma clone_valid cl s : (forall k, eqb (cl k) k = true) -> valid s -> valid (ds_clone cl s).
Proof.
  intros CL (W & Ld & Le & P & F & H). unfold ds_clone.
  split; [|cbn [ds_ids ds_data]; rewrite map_length].
  - apply wf_keys. apply wf_keys in W. cbn [ds_ids]. rewrite map_map. simpl.
    clear - W CL L. induction (ds_ids s) as [|e m IH]; simpl in *; [constructor|].
    inversion W as [|? ? W1 W2]; subst. constructor; auto. rewrite Forall_map in *.
    eapply Forall_impl; [|exact W1]. intros e' Q. simpl in Q. now rewrite eqb_cl.
  - split; [exact Ld|]. split; [exact Le|]. split; [|split; [exact F|exact H]].
    rewrite map_map. simpl. exact P.
Qed.

Definition clone_log cl g : log K :=
  Log (map cl (added g)) (map (fun p => (cl (fst p), cl (snd p))) (united g)).

Lemma memb_cl cl x xs : (forall k, eqb (cl k) k = true) -> memb eqb (cl x) (map cl xs) = memb eqb x xs.
Proof.
  intros CL. unfold memb. induction xs as [|y xs IH]; simpl; auto. now rewrite IH, eqb_cl.
Qed.

Lemma firsts_cl cl xs : (forall k, eqb (cl k) k = true) -> firsts (map cl xs) = map cl (firsts xs).
Proof.
  intros CL. induction xs as [|x xs IH] using rev_ind; auto.
  rewrite map_app. simpl. rewrite !(firsts_snoc L), IH, memb_cl, map_app by auto.
  destruct (memb eqb x xs); reflexivity.
Qed.

Lemma mem_cl cl x xs : (forall k, eqb (cl k) k = true) -> (mem x (map cl xs) <-> mem x xs).
Proof.
  intros CL. unfold DSSpec.mem. split.
  - intros (y & I & Q). apply in_map_iff in I. destruct I as (z & <- & I). exists z. split; auto.
    now rewrite <- (eqb_cong_r L x (CL z)).
  - intros (y & I & Q). exists (cl y). split; [now apply in_map|]. now rewrite (eqb_cong_r L x (CL y)).
Qed.

Lemma conn_cl cl ps x y : (forall k, eqb (cl k) k = true) ->
  (conn (map (fun p => (cl (fst p), cl (snd p))) ps) x y <-> conn ps x y).
Proof.
  intros CL. split.
  - induction 1 as [x y H|x y H|x y H IH|x y z H1 IH1 H2 IH2].
    + now apply conn_eq.
    + apply in_map_iff in H. destruct H as ([a b] & Q & I). inversion Q; subst. simpl.
      apply conn_trans with a; [apply conn_eq, CL|]. apply conn_trans with b; [now apply conn_pair|].
      apply conn_eq, (eq_sym' L), CL.
    + now apply conn_sym.
    + eapply conn_trans; eauto.
  - induction 1 as [x y H|x y H|x y H IH|x y z H1 IH1 H2 IH2].
    + now apply conn_eq.
    + apply conn_trans with (cl x); [apply conn_eq, (eq_sym' L), CL|].
      apply conn_trans with (cl y); [|apply conn_eq, CL]. apply conn_pair.
      apply in_map_iff. exists (x, y). auto.
    + now apply conn_sym.
    + eapply conn_trans; eauto.
Qed.

Lemma clone_shows cl s g : (forall k, eqb (cl k) k = true) -> shows s g ->
  shows (ds_clone cl s) (clone_log cl g).
Proof.
  intros CL (P & O & C). split; [|split]; cbn [ds_clone clone_log ds_ids added united].
  - rewrite firsts_cl, map_map by auto. simpl. rewrite <- map_map. now apply Permutation_map.
  - intros a b I. simpl in *. rewrite !mem_cl by auto. apply in_map_iff in I.
    destruct I as ([p q] & Q & I). inversion Q; subst. simpl. destruct (O _ _ I) as [M1 M2].
    split; [apply (mem_cong L _ (eq_sym' L _ _ (CL p)) M1)|apply (mem_cong L _ (eq_sym' L _ _ (CL q)) M2)].
  - intros x i y j I J. apply in_map_iff in I. apply in_map_iff in J.
    destruct I as ([x0 i0] & Qx & I), J as ([y0 j0] & Qy & J). simpl in *. inversion Qx; inversion Qy; subst.
    rewrite conn_cl by auto. transitivity (conn (united g) x0 y0); [exact (C _ _ _ _ I J)|].
    split; intros X.
    + apply conn_trans with x0; [apply conn_eq, CL|]. apply conn_trans with y0; auto.
      apply conn_eq, (eq_sym' L), CL.
    + apply conn_trans with (cl x0); [apply conn_eq, (eq_sym' L), CL|].
      apply conn_trans with (cl y0); auto. apply conn_eq, CL.
Qed.

Lemma reachable_valid cl s : (forall k, eqb (cl k) k = true) -> reachable eqb E cl s ->
  valid s /\ exists g, shows s g.
Proof.
  intros CL. induction 1 as [|n s H|h xs s H|h xs s H|s R IH|o s s' r R IH Ok H].
  - split; [apply new_valid|]. exists empty_log. apply new_shows.
  - apply with_capacity_ok in H; subst. split; [apply new_valid|]. exists empty_log. apply new_shows.
  - destruct (from_iter_shows _ _ H); eauto.
  - assert (X : ds_from_iter eqb E h (map cl xs) = Ret s) by exact H.
    destruct (from_iter_shows _ _ X); eauto.
  - destruct IH as [V [g S]]. split; [now apply clone_valid|].
    exists (clone_log cl g). now apply clone_shows.
  - destruct IH as [V [g S]]. destruct (step_ok _ V S Ok H) as (g' & V' & S' & _). eauto.
Qed.

End Proofs.
