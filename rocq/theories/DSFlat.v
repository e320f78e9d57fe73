(** Path compression: searches only shorten later searches. *)
From Coq Require Import Permutation NArith.
From Verif Require Import Base HMModel HMProofs DSModel DSSpec DSRun DSProofs DSProofs2 DSProofs3 DSProofs4 DSCost.
Local Open Scope outcome_scope.
Set Implicit Arguments.

Implicit Types (v w : list data) (i j n : nat).

(** [find_calls] counts the recursion of the model's function *)
Lemma calls_least n fuel v i : find_calls n v i < n ->
  (snd (ds_find fuel v i) = NoFuel <-> fuel < find_calls n v i).
Proof.
  revert fuel v i. induction n as [|n IH]; intros fuel v i H; [lia|].
  cbn [find_calls] in *. destruct fuel as [|fuel].
  - simpl. split; auto. intros _. destruct (vec_at v i) as [d| | | |]; try lia. destruct (parent d =? i); lia.
  - cbn [ds_find]. destruct (vec_at v i) as [d| | | |]; simpl; try (split; [discriminate|lia]).
    destruct (parent d =? i); simpl; [split; [discriminate|lia]|].
    specialize (IH fuel v (parent d) ltac:(lia)).
    destruct (ds_find fuel v (parent d)) as [v1 [p| | | |]]; simpl in *; try (split; [discriminate|]; intros; exfalso; 
      assert (fuel < find_calls n v (parent d)) as X by lia; apply IH in X; discriminate).
    + destruct (vec_at v1 i); simpl; (split; [discriminate|]; intros; exfalso;
        assert (fuel < find_calls n v (parent d)) as X by lia; apply IH in X; discriminate).
    + split; auto. intros _. apply -> Nat.succ_lt_mono. now apply IH.
Qed.

(** no [find] takes more calls in [w] than in [v] *)
Definition flatter v w : Prop := forall n j, find_calls n w j <= find_calls n v j.

Lemma flatter_refl v : flatter v v.
Proof. intros n j. lia. Qed.
Lemma flatter_trans v w x : flatter v w -> flatter w x -> flatter v x.
Proof. intros A B n j. specialize (A n j). specialize (B n j). lia. Qed.

Lemma calls_root v n r : pa v r = r -> r < length v -> find_calls n v r <= 1.
Proof.
  intros P L. destruct n as [|n]; simpl; [lia|]. destruct (vec_at_lt v L) as (d & -> & D).
  unfold pa in P. rewrite D in P. rewrite P, Nat.eqb_refl. lia.
Qed.

Lemma calls_below v n i r : i < length v -> pa v i = r -> pa v r = r -> r < length v -> find_calls n v i <= 2.
Proof.
  intros Li P Pr L. destruct n as [|n]; simpl; [lia|]. destruct (vec_at_lt v Li) as (d & -> & D).
  unfold pa in P at 1. rewrite D in P. rewrite P. pose proof (@calls_root v n r Pr L). destruct (r =? i); lia.
Qed.

Lemma redirect_flatter v i r x : i < length v -> r < length v -> pa v r = r -> pa v i <> i -> i <> r ->
  flatter v (vec_set v i (Data r x)).
Proof.
  intros Li Lr Pr Ni Ne n. induction n as [|n IH]; intros j; simpl; [lia|].
  unfold vec_at. destruct (Nat.eq_dec i j) as [<-|Q].
  - rewrite vec_set_same by auto. cbn [parent]. replace (r =? i) with false by (symmetry; apply Nat.eqb_neq; auto).
    destruct (vec_at_lt v Li) as (d & _ & D). rewrite D.
    assert (P : pa v i = parent d) by (unfold pa; now rewrite D).
    rewrite <- P. replace (pa v i =? i) with false by (symmetry; now apply Nat.eqb_neq).
    destruct n as [|n]; [simpl; lia|].
    assert (find_calls (S n) (vec_set v i (Data r x)) r <= 1).
    { apply calls_root; [|now rewrite vec_set_length]. rewrite pa_set by auto.
      now replace (r =? i) with false by (symmetry; apply Nat.eqb_neq; auto). }
    assert (1 <= find_calls (S n) v (pa v i)).
    { simpl. destruct (vec_at v (pa v i)) as [d0| | | |]; try lia. destruct (parent d0 =? pa v i); lia. }
    lia.
  - rewrite vec_set_other by auto. destruct (nth_error v j) as [d|]; [|lia].
    destruct (parent d =? j); [lia|]. specialize (IH (parent d)). lia.
Qed.

Lemma find_flat fuel v i r : forest v -> root v i r -> N.to_nat (rk v r - rk v i) < fuel ->
  exists v', ds_find fuel v i = (v', Ret r) /\ same v v' /\ flatter v v' /\ pa v' i = r /\
    (forall j, (rk v j < rk v i)%N -> pa v' j = pa v j).
Proof.
  revert v i r. induction fuel as [|fuel IH]; intros v i r F R Lt; [lia|].
  destruct (root_lt R) as [Li Lr]. cbn [ds_find].
  destruct (vec_at_lt v Li) as (d & -> & D).
  assert (P : pa v i = parent d) by (unfold pa; now rewrite D).
  inversion R as [? ? T|? ? ? T R2]; subst.
  - rewrite <- P, T, Nat.eqb_refl. exists v. split; auto. split; [now apply same_refl|].
    split; [apply flatter_refl|]. auto.
  - rewrite <- P. replace (pa v i =? i) with false by (symmetry; now apply Nat.eqb_neq).
    destruct (F i Li) as [Lp G]. specialize (G T).
    destruct (IH v (pa v i) r F R2) as (v1 & Hf & S1 & Fl & _ & Low).
    { destruct (root_rank F R2) as [Eq|X]; [rewrite Eq in *|]; lia. }
    rewrite Hf. pose proof S1 as (L1 & R1 & F1 & T1).
    destruct (@vec_at_lt _ v1 i) as (d1 & -> & D1); [lia|].
    replace (rank d1) with (rk v1 i) by (unfold rk; now rewrite D1).
    assert (Nir : i <> r) by (intros ->; apply T; exact (root_top R)).
    assert (Rv1 : root v1 i r) by now apply T1.
    assert (S2 : same v1 (vec_set v1 i (Data r (rk v1 i)))) by (apply redirect; auto).
    exists (vec_set v1 i (Data r (rk v1 i))). split; [reflexivity|].
    split; [eapply same_trans; [exact S1|exact S2]|].
    split.
    { eapply flatter_trans; [exact Fl|]. apply redirect_flatter; auto; try lia.
      - exact (root_top Rv1).
      - rewrite (Low i G). exact T. }
    split; [rewrite pa_set by lia; now rewrite Nat.eqb_refl|].
    intros j Hj. rewrite pa_set by lia. destruct (j =? i) eqn:Q.
    + apply Nat.eqb_eq in Q; subst j. lia.
    + apply Low. lia.
Qed.

Section Flat.
Variable K : Type.
Variable eqb : K -> K -> bool.
Variable E : machine.
Implicit Types (s : dset K).
Notation valid := (valid eqb E).

Lemma find_in_flat s i r : valid s -> root (ds_data s) i r ->
  exists v, ds_find_in i s = (DSet (ds_ids s) v, Ret r) /\ same (ds_data s) v /\
    flatter (ds_data s) v /\ (forall n, find_calls n v i <= 2).
Proof.
  intros V R. pose proof V as (W & Ld & Le & P & F & H).
  unfold ds_find_in. pose proof (find_fuel F H R) as X. destruct (root_lt R) as [Li Lr].
  assert (Nat.log2 (length (ds_data s)) < length (ds_data s)) by (apply Nat.log2_lt_lin; lia).
  destruct (@find_flat (S (length (ds_data s))) (ds_data s) i r F R) as (v & -> & S & Fl & Pi & _); [lia|].
  exists v. split; auto. split; auto. split; auto. intros n.
  destruct S as (Lv & _ & _ & T). apply (@calls_below v n i r); try lia.
  apply (@root_top v i). now apply T.
Qed.

(** the count of calls is that of the recursion *)
Lemma calls_count s i : valid s -> i < ds_len s -> 1 <= calls_in i s <= S (Nat.log2 (ds_len s)) /\
  forall fuel, (snd (ds_find fuel (ds_data s) i) = NoFuel <-> fuel < calls_in i s).
Proof.
  intros V Li. pose proof V as (W & Ld & Le & P & F & H). unfold ds_len in *.
  destruct (@root_exists (ds_data s) i F) as [r R]; [lia|].
  pose proof (find_fuel F H R) as X.
  destruct (@find_flat (S (Nat.log2 (length (ds_data s)))) (ds_data s) i r F R) as (v & Hf & _); [lia|].
  assert (Lg : Nat.log2 (length (ds_data s)) < length (ds_data s)) by (apply Nat.log2_lt_lin; lia).
  unfold calls_in.
  assert (C : forall n, ds_find n (ds_data s) i = (v, Ret r) -> forall m, find_calls m (ds_data s) i <= n).
  { clear. intros n. revert v i. induction n as [|n IH]; intros v i H m; [discriminate|].
    destruct m as [|m]; simpl; [lia|]. simpl in H. destruct (vec_at (ds_data s) i) as [d| | | |]; try lia.
    destruct (parent d =? i); [lia|]. destruct (ds_find n (ds_data s) (parent d)) as [v1 [p| | | |]] eqn:Q; try discriminate.
    assert (p = r) as -> by (destruct (vec_at v1 i); inversion H; auto).
    specialize (IH v1 (parent d) Q m). lia. }
  pose proof (C _ Hf (S (length (ds_data s)))) as B. rewrite Ld in *.
  assert (B2 : find_calls (S (length (ds_ids s))) (ds_data s) i < S (length (ds_ids s))) by lia.
  split; [|intros fuel; now apply calls_least].
  split; [|exact B]. simpl. destruct (vec_at (ds_data s) i) as [d| | | |]; try lia. destruct (parent d =? i); lia.
Qed.

Lemma group_flat l s v m s' o : valid s -> same (ds_data s) v ->
  (forall k i, In (k, i) l -> In (k, i) (ds_ids s)) ->
  ds_group E l (DSet (ds_ids s) v) m = (s', o) ->
  ds_ids s' = ds_ids s /\ same (ds_data s) (ds_data s') /\ flatter v (ds_data s') /\
  ((exists m', o = Ret m') -> forall k i n, In (k, i) l -> find_calls n (ds_data s') i <= 2).
Proof.
  intros V. revert v m. induction l as [|[k i] l IH]; intros v m S I H; simpl in H.
  - inversion H; subst. simpl. split; auto. split; auto. split; [apply flatter_refl|]. intros _ k i n [].
  - pose proof (same_valid V S) as Vv.
    destruct (root_of k i V) as [r R]; [apply I; simpl; auto|].
    assert (Rv : root (ds_data (DSet (ds_ids s) v)) i r) by (apply S; exact R).
    destruct (find_in_flat Vv Rv) as (v1 & H1 & S1 & F1 & C1). rewrite H1 in H.
    cbn [ds_ids ds_data] in *.
    assert (S3 : same (ds_data s) v1) by (eapply same_trans; eauto).
    destruct (ds_group_push E r k m) as [m1 [u| | | |]] eqn:Q;
      try (inversion H; subst; cbn [ds_ids ds_data]; split; auto; split; auto; split; auto; intros [? X]; discriminate).
    destruct (IH v1 m1) as (G1 & G2 & G3 & G4); auto.
    + intros k' i' J. apply I. simpl; auto.
    + split; auto. split; auto. split; [eapply flatter_trans; eauto|].
      intros X k' i' n [Y|Y]; [inversion Y; subst; specialize (G3 n i'); specialize (C1 n); lia|].
      eapply G4; eauto.
Qed.

(** the calls that only ask *)
Lemma query_flatter o s s' (r : outcome (out K)) : valid s -> op_ok o -> is_query o = true ->
  ds_step eqb E o s = (s', r) -> flatter (ds_data s) (ds_data s') /\ ds_ids s' = ds_ids s /\
  length (ds_data s') = length (ds_data s).
Proof.
  intros V Ok Q H. destruct o as [x|a b|h xs|h xs| |n|x|a b| | |order pick]; try discriminate; simpl in H;
    try (inversion H; subst; split; [apply flatter_refl|auto]; fail).
  - unfold ds_in_union in H. unfold hm_get in *.
    destruct (hm_entry_of eqb a (ds_ids s)) as [[ka ia]|] eqn:Qa; simpl in *; [|inversion H; subst; split; [apply flatter_refl|auto]].
    destruct (hm_entry_of eqb b (ds_ids s)) as [[kb ib]|] eqn:Qb; simpl in *; [|inversion H; subst; split; [apply flatter_refl|auto]].
    pose proof (entry_of_some _ _ _ Qa) as [Ia _]. pose proof (entry_of_some _ _ _ Qb) as [Ib _].
    destruct (root_of _ _ V Ia) as [ra Ra]. destruct (root_of _ _ V Ib) as [rb Rb].
    destruct (find_in_flat V Ra) as (v1 & H1 & S1 & F1 & C1). rewrite H1 in H.
    pose proof (same_valid V S1) as V1.
    assert (Rb1 : root (ds_data (DSet (ds_ids s) v1)) ib rb) by (apply S1; exact Rb).
    destruct (find_in_flat V1 Rb1) as (v2 & H2 & S2 & F2 & C2). rewrite H2 in H.
    inversion H; subst. cbn [ds_ids ds_data] in *. split; [eapply flatter_trans; eauto|]. split; auto.
    destruct S1 as [S1 _], S2 as [S2 _]. congruence.
  - destruct Ok as [Po Pp]. unfold ds_into_iter, ds_build_sets in *.
    assert (Id : s = DSet (ds_ids s) (ds_data s)) by now destruct s.
    destruct (ds_group E (order (ds_ids s)) s []) as [s1 o1] eqn:G.
    rewrite Id in G at 2.
    destruct (@group_flat (order (ds_ids s)) s (ds_data s) [] s1 o1) as (G1 & G2 & G3 & G4); auto.
    + apply same_refl, V.
    + intros k i I. eapply Permutation_in; [apply Permutation_sym, Po|exact I].
    + inversion H; subst. split; auto. split; auto. apply G2.
Qed.

Lemma query_shorter o s s' (r : outcome (out K)) i : valid s -> op_ok o -> is_query o = true ->
  ds_step eqb E o s = (s', r) -> calls_in i s' <= calls_in i s.
Proof.
  intros V Ok Q H. destruct (query_flatter o V Ok Q H) as (F & _ & Ln). unfold calls_in. rewrite Ln. apply F.
Qed.

Lemma iter_flat order pick s s' ss : valid s -> (forall l, Permutation l (order l)) ->
  ds_step eqb E (OIter order pick) s = (s', Ret (RSets ss)) -> forall i, i < ds_len s' -> calls_in i s' <= 2.
Proof.
  intros V Po H i Li. simpl in H. unfold ds_into_iter, ds_build_sets in H.
  assert (Id : s = DSet (ds_ids s) (ds_data s)) by now destruct s.
  destruct (ds_group E (order (ds_ids s)) s []) as [s1 o1] eqn:G.
  rewrite Id in G at 2.
  destruct (@group_flat (order (ds_ids s)) s (ds_data s) [] s1 o1) as (G1 & G2 & G3 & G4); auto.
  { apply same_refl, V. }
  { intros k j I. eapply Permutation_in; [apply Permutation_sym, Po|exact I]. }
  destruct o1 as [m'| | | |]; simpl in H; try discriminate. inversion H; subst s'.
  unfold ds_len in Li. rewrite G1 in Li.
  pose proof V as (W & Ld & Le & P & F & Hh).
  assert (I : In i (map snd (ds_ids s))).
  { eapply Permutation_in; [apply Permutation_sym, P|]. apply in_seq. lia. }
  apply in_map_iff in I. destruct I as ([k j] & Ej & I). simpl in Ej. subst j.
  unfold calls_in. apply (G4 ltac:(eauto) k). eapply Permutation_in; [apply Po|exact I].
Qed.

Lemma in_union_again a b s s' x : valid s -> ds_in_union eqb a b s = (s', x) ->
  op_calls eqb E (OInUnion a b) s' <= 4.
Proof.
  intros V H. cbn [op_calls]. unfold ds_in_union in H. unfold hm_get in *.
  destruct (hm_entry_of eqb a (ds_ids s)) as [[ka ia]|] eqn:Qa; simpl in *;
    [|inversion H; subst; rewrite Qa; simpl; lia].
  destruct (hm_entry_of eqb b (ds_ids s)) as [[kb ib]|] eqn:Qb; simpl in *;
    [|inversion H; subst; rewrite Qa, Qb; simpl; lia].
  pose proof (entry_of_some _ _ _ Qa) as [Ia _]. pose proof (entry_of_some _ _ _ Qb) as [Ib _].
  destruct (root_of _ _ V Ia) as [ra Ra]. destruct (root_of _ _ V Ib) as [rb Rb].
  destruct (find_in_flat V Ra) as (v1 & H1 & S1 & F1 & C1). rewrite H1 in H.
  pose proof (same_valid V S1) as V1.
  assert (Rb1 : root (ds_data (DSet (ds_ids s) v1)) ib rb) by (apply S1; exact Rb).
  destruct (find_in_flat V1 Rb1) as (v2 & H2 & S2 & F2 & C2). rewrite H2 in H.
  inversion H; subst. cbn [ds_ids ds_data] in *. rewrite Qa, Qb. cbn [option_map snd].
  pose proof (same_valid V1 S2) as V2. cbn [ds_ids] in V2.
  assert (Ra2 : root (ds_data (DSet (ds_ids s) v2)) ia ra) by (apply S2, S1; exact Ra).
  destruct (find_in_flat V2 Ra2) as (v3 & H3 & S3 & F3 & C3). cbn [ds_ids ds_data] in *.
  unfold calls_two. rewrite H3. unfold calls_in. cbn [ds_data].
  pose proof (C1 (S (length v2))). pose proof (F2 (S (length v2)) ia).
  pose proof (C2 (S (length v3))). pose proof (F3 (S (length v3)) ib). lia.
Qed.
End Flat.
