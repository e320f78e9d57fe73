(** Proofs about the counter: when the operations return, histories, sizes. *)
From Coq Require Import Permutation.
From Verif Require Import Base HMModel HMProofs CTModel CTSpec CTRun CTProofs.
Set Implicit Arguments.

Section Proofs.
Variable K : Type.
Variable eqb : K -> K -> bool.
Hypothesis L : eq_laws eqb.
Implicit Types (c a b : counter K) (m : hmap K nat) (f g : fm K) (x k : K) (l : list (K * nat)).

(** ** Removing repeated keys *)
Definition covered x (ks : list K) := exists k, In k ks /\ eqb x k = true.

Lemma covered_cong x y ks : eqb x y = true -> covered x ks -> covered y ks.
Proof.
  intros H (k & A & B). exists k. split; auto.
  rewrite <- (eqb_cong L k H). exact B.
Qed.

Lemma covered_dec x ks : covered x ks \/ ~ covered x ks.
Proof.
  destruct (existsb (eqb x) ks) eqn:H.
  - left. apply existsb_exists in H. exact H.
  - right. intros (k & A & B). assert (existsb (eqb x) ks = true); [|congruence].
    apply existsb_exists. eauto.
Qed.

Lemma dedupe (ks : list K) : exists ds, distinct eqb ds /\ (forall x, covered x ds <-> covered x ks)
  /\ length ds <= length ks.
Proof.
  induction ks as [|k ks (ds & D & H & N)].
  - exists []. split; [constructor|]. split; auto. intros; tauto.
  - destruct (covered_dec k ds) as [C|C].
    + exists ds. split; auto. split; [|simpl; lia]. intros x. rewrite H. split.
      * intros (k' & A & B). exists k'. simpl; auto.
      * intros (k' & [<-|A] & B); [|exists k'; auto].
        apply H. apply covered_cong with (x := k); auto. apply (eq_sym' L); auto.
    + exists (k :: ds). split; [|split; [|simpl; lia]].
      * constructor; auto. rewrite Forall_forall. intros y Y.
        destruct (eqb k y) eqn:Q; auto. exfalso; apply C. exists y; auto.
      * intros x. split.
        -- intros (k' & [<-|A] & B); [exists k; simpl; auto|].
           assert (Z : covered x ds) by (exists k'; auto).
           apply H in Z. destruct Z as (k2 & A2 & B2). exists k2; simpl; auto.
        -- intros (k' & [<-|A] & B); [exists k; simpl; auto|].
           assert (Z : covered x ks) by (exists k'; auto).
           apply H in Z. destruct Z as (k2 & A2 & B2). exists k2; simpl; auto.
Qed.

Lemma distinct_count_le (ks qs : list K) : distinct eqb ks -> (forall k, In k ks -> covered k qs) ->
  length ks <= length qs.
Proof.
  intros D H. rewrite <- (map_length (fun k => (k, tt)) qs).
  apply (distinct_incl_length L); auto.
  intros k X N. rewrite entry_of_none in N. destruct (H _ X) as (q & A & B).
  specialize (N (q, tt)). simpl in N. rewrite N in B; [discriminate|].
  apply in_map_iff; eauto.
Qed.

(** a finite map and a key missing from it *)
Lemma size_grows f g n1 n2 x : has_size eqb f n1 -> has_size eqb g n2 ->
  (forall y, f y <> None -> g y <> None) ->
  (forall y z, eqb y z = true -> f y = None -> f z = None) ->
  f x = None -> g x <> None -> n1 < n2.
Proof.
  intros (ks & D & <- & H) (qs & D2 & <- & H2) I Cg Nx Gx.
  enough (length (x :: ks) <= length qs) by (simpl in *; lia).
  apply distinct_count_le.
  - constructor; auto. rewrite Forall_forall. intros y Y.
    destruct (eqb x y) eqn:Q; auto. exfalso.
    assert (f y <> None) as Z by (apply H; exists y; split; auto; apply (eq_refl' L)).
    apply Z. eapply Cg; eauto.
  - intros k [<-|X].
    + apply H2; auto.
    + apply H2. apply I. apply H. exists k; split; auto. apply (eq_refl' L).
Qed.

Lemma size_mono f g n1 n2 : has_size eqb f n1 -> has_size eqb g n2 ->
  (forall y, f y <> None -> g y <> None) -> n1 <= n2.
Proof.
  intros (ks & D & <- & H) (qs & D2 & <- & H2) I.
  apply distinct_count_le; auto.
  intros k X. apply H2. apply I. apply H. exists k; split; auto. apply (eq_refl' L).
Qed.

Lemma size_dom f g n : (forall y, f y <> None <-> g y <> None) -> has_size eqb f n -> has_size eqb g n.
Proof.
  intros D (ks & A & B & H). exists ks. split; auto. split; auto.
  intros x. rewrite <- D. apply H.
Qed.

Variable E : machine.
Notation sh := (shown eqb).
Notation valid := (ct_valid eqb E).
Notation pl := (plus eqb E).
Notation mi := (minus eqb).
Notation amt := (amount eqb).
Notation bumps := (bumps eqb E).
Notation lowers := (lowers eqb E).

(** ** Domains *)
Lemma plus_dom f l x : pl f l x <> None <-> f x <> None \/ covered x (map fst l).
Proof.
  unfold plus. destruct (f x) as [[k n]|].
  - split; [left|]; congruence.
  - destruct (entry_in eqb l x) as [[k n]|] eqn:H.
    + split; [intros _|congruence]. right. rewrite entry_in_model in H. apply entry_of_some in H.
      destruct H as [A B]. exists k. split; auto. apply in_map_iff. exists (k, n); auto.
    + split; [congruence|]. intros [N|(k & A & B)]; [congruence|].
      rewrite entry_in_model, entry_of_none in H. apply in_map_iff in A.
      destruct A as (e & <- & A). rewrite (H _ A) in B. discriminate.
Qed.

Lemma plus_has_size c l : valid c -> exists n, has_size eqb (pl (sh c) l) n.
Proof.
  intros V. destruct (dedupe (map fst (ct_map c) ++ map fst l)) as (ds & D & H & _).
  exists (length ds), ds. split; auto. split; auto. intros x.
  rewrite plus_dom. fold (covered x ds). rewrite H.
  assert (Q := shown_size V). destruct Q as (ks & Dk & Nk & Hk).
  unfold shown, ct_get_key_value.
  split.
  - intros [X|(k & A & B)].
    + destruct (hm_entry_of eqb x (ct_map c)) as [[k n]|] eqn:Y; [|congruence].
      apply entry_of_some in Y. destruct Y as [A B]. exists k. split; auto.
      apply in_or_app; left. apply in_map_iff; exists (k, n); auto.
    + exists k; split; auto. apply in_or_app; auto.
  - intros (k & A & B). apply in_app_or in A. destruct A as [A|A].
    + left. intros N. rewrite entry_of_none in N. apply in_map_iff in A.
      destruct A as (e & <- & A). rewrite (N _ A) in B. discriminate.
    + right. exists k; auto.
Qed.

Lemma amount_le x l1 l2 : amt x l1 <= amt x (l1 ++ l2).
Proof. rewrite amount_app. lia. Qed.

Definition fits f l := debug_build E = true -> forall x, count f x + amt x l <= usize_max E.

(** ** Additions return iff nothing overflows *)
Lemma bumps_ret c l n : valid c -> Forall (fun e : K * nat => snd e <= usize_max E) l ->
  has_size eqb (pl (sh c) l) n -> n <= alloc_max E -> fits (sh c) l ->
  exists c', bumps l c = (c', Ret tt) /\ valid c' /\ same (sh c') (pl (sh c) l).
Proof.
  intros V F S N G.
  destruct (bumps_cases L V F) as [(c' & H & V' & S' & _)|(c' & l1 & e & l2 & H & V' & -> & H1 & S' & P)]; eauto.
  exfalso. destruct P as [[D P]|[P Q]].
  - specialize (G D (fst e)).
    replace (l1 ++ e :: l2) with ((l1 ++ [e]) ++ l2) in G by (rewrite <- app_assoc; auto).
    pose proof (amount_le (fst e) (l1 ++ [e]) l2). lia.
  - assert (X : ct_len c' < n); [|lia].
    apply (@size_grows (sh c') (pl (sh c) (l1 ++ e :: l2)) (ct_len c') n (fst e)); auto.
    + eapply shown_size; eauto.
    + intros y Y. rewrite (S' y) in Y. apply plus_dom in Y. apply plus_dom.
      destruct Y as [Y|(k & A & B)]; auto. right. exists k. split; auto.
      rewrite map_app. apply in_or_app; auto.
    + intros y z Y Z. rewrite <- (shown_cong L c' _ _ Y). exact Z.
    + apply plus_dom. right. exists (fst e). split; [|apply (eq_refl' L)].
      rewrite map_app. apply in_or_app; right; simpl; auto.
Qed.

Lemma bumps_ret_inv c l c' r : valid c -> Forall (fun e : K * nat => snd e <= usize_max E) l ->
  bumps l c = (c', Ret r) ->
  valid c' /\ same (sh c') (pl (sh c) l) /\ fits (sh c) l /\
  (forall n, has_size eqb (pl (sh c) l) n -> n <= alloc_max E).
Proof.
  intros V F H.
  destruct (bumps_cases L V F) as [(c2 & H2 & V' & S' & D)|(c2 & l1 & e & l2 & H2 & V' & -> & H1 & S' & P)];
    rewrite H2 in H; inversion H; subst.
  split; auto. split; auto. split; auto.
  intros n N. apply (size_same (same_sym S')) in N.
  rewrite <- (len_shown L V' N). apply V'.
Qed.

Lemma bumps_outcome c l : valid c -> Forall (fun e : K * nat => snd e <= usize_max E) l ->
  snd (bumps l c) = Ret tt \/ snd (bumps l c) = Panic.
Proof.
  intros V F.
  destruct (bumps_cases L V F) as [(c2 & H2 & _)|(c2 & l1 & e & l2 & H2 & _)]; rewrite H2; auto.
Qed.

(** counters with the same keys and counts, additions with the same keys and amounts *)
Lemma bumps_same_outcome c1 c2 l1 l2 : valid c1 -> valid c2 ->
  Forall (fun e : K * nat => snd e <= usize_max E) l1 -> Forall (fun e => snd e <= usize_max E) l2 ->
  (forall x, count (sh c1) x + amt x l1 = count (sh c2) x + amt x l2) ->
  (forall x, pl (sh c1) l1 x <> None <-> pl (sh c2) l2 x <> None) ->
  snd (bumps l1 c1) = snd (bumps l2 c2).
Proof.
  intros V1 V2 F1 F2 A D.
  assert (Q : forall c1 c2 l1 l2, valid c1 -> valid c2 ->
    Forall (fun e : K * nat => snd e <= usize_max E) l1 -> Forall (fun e => snd e <= usize_max E) l2 ->
    (forall x, count (sh c1) x + amt x l1 = count (sh c2) x + amt x l2) ->
    (forall x, pl (sh c1) l1 x <> None <-> pl (sh c2) l2 x <> None) ->
    snd (bumps l1 c1) = Ret tt -> snd (bumps l2 c2) = Ret tt).
  { clear V1 V2 F1 F2 A D c1 c2 l1 l2. intros c1 c2 l1 l2 V1 V2 F1 F2 A D H.
    destruct (bumps l1 c1) as [c' r] eqn:B. simpl in H; subst.
    destruct (bumps_ret_inv V1 F1 B) as (V' & S & G & N).
    destruct (plus_has_size l1 V1) as (n & Sn).
    assert (Sn2 : has_size eqb (pl (sh c2) l2) n) by (eapply size_dom; eauto).
    destruct (bumps_ret V2 F2 Sn2 (N _ Sn)) as (c3 & -> & _); auto.
    intros Dg x. rewrite <- A. now apply G. }
  destruct (bumps_outcome V1 F1) as [H1|H1], (bumps_outcome V2 F2) as [H2|H2]; try congruence.
  - rewrite (Q _ _ _ _ V1 V2 F1 F2 A D H1) in H2. congruence.
  - rewrite (Q _ _ _ _ V2 V1 F2 F1) in H1; try congruence; auto.
    intros x; symmetry; auto.
Qed.

Variable cl : K -> K.
Hypothesis CL : forall k, eqb (cl k) k = true.
Hypothesis U : 1 <= usize_max E.

(** ** The methods as additions and subtractions *)
Lemma push_bumps xs c : for_each (ct_push eqb E) xs c = bumps (unitl xs) c.
Proof. unfold unitl, CTProofs.bumps. rewrite for_each_map. reflexivity. Qed.

Lemma add_assign_ref_bumps l c : ct_add_assign_ref eqb cl E l c = bumps (clonel cl l) c.
Proof. unfold clonel, CTProofs.bumps. rewrite for_each_map. reflexivity. Qed.

Lemma sub_assign_ref_lowers l c : ct_sub_assign_ref eqb cl E l c = lowers (clonel cl l) c.
Proof. unfold clonel, CTProofs.lowers. rewrite for_each_map. reflexivity. Qed.

Lemma unitl_small (xs : list K) : Forall (fun e : K * nat => snd e <= usize_max E) (unitl xs).
Proof. unfold unitl. rewrite Forall_map, Forall_forall. simpl. auto. Qed.

Lemma amount_unitl x xs : amt x (unitl xs) = occ eqb x xs.
Proof.
  unfold unitl, occ. induction xs as [|y xs IH]; auto. cbn [map].
  rewrite amount_cons, IH. simpl. destruct (eqb x y); auto.
Qed.

Lemma unitl_keys (xs : list K) : map fst (unitl xs) = xs.
Proof. unfold unitl. rewrite map_map. simpl. apply map_id. Qed.

Lemma clonel_distinct l : distinct eqb (map fst l) -> distinct eqb (map fst (clonel cl l)).
Proof.
  unfold clonel. rewrite map_map; simpl. unfold distinct. induction l as [|e l IH]; simpl; auto.
  intros D. inversion D as [|? ? F D2]; subst. constructor; auto.
  rewrite Forall_map in *. rewrite Forall_forall in *. intros e2 X. simpl.
  rewrite (eqb_cong L _ (CL (fst e))), (eqb_cong_r L _ (CL (fst e2))). auto.
Qed.

Lemma clonel_small l : Forall (fun e : K * nat => snd e <= usize_max E) l ->
  Forall (fun e : K * nat => snd e <= usize_max E) (clonel cl l).
Proof. unfold clonel. rewrite Forall_map. auto. Qed.

Lemma clonel_content l : map_content eqb E l -> map_content eqb E (clonel cl l).
Proof. intros [A B]. split; [now apply clonel_distinct|now apply clonel_small]. Qed.

Lemma amount_clonel x l : amt x (clonel cl l) = amt x l.
Proof.
  unfold clonel. induction l as [|e l IH]; auto. cbn [map].
  rewrite !amount_cons, IH. cbn [fst snd]. now rewrite (eqb_cong_r L x (CL (fst e))).
Qed.

Lemma covered_clonel x l : covered x (map fst (clonel cl l)) <-> covered x (map fst l).
Proof.
  unfold covered, clonel. rewrite map_map. cbn [fst]. split.
  - intros (k & A & B). apply in_map_iff in A. destruct A as (e & <- & A).
    exists (fst e). rewrite <- (eqb_cong_r L x (CL (fst e))). split; auto. now apply in_map.
  - intros (k & A & B). apply in_map_iff in A. destruct A as (e & <- & A).
    exists (cl (fst e)). rewrite (eqb_cong_r L x (CL (fst e))). split; auto.
    apply in_map_iff. eauto.
Qed.

Lemma entry_clonel x l : option_map snd (entry_in eqb (clonel cl l) x) = option_map snd (entry_in eqb l x).
Proof.
  unfold entry_in, clonel. induction l as [|e l IH]; simpl; auto.
  rewrite (eqb_cong_r L x (CL (fst e))). destruct (eqb x (fst e)); auto.
Qed.

(** ** Each call refines the finite map *)
Lemma adds_ok c l c' r : valid c -> Forall (fun e : K * nat => snd e <= usize_max E) l ->
  bumps l c = (c', r) ->
  valid c' /\ adds eqb E l (sh c) (sh c') (omap (fun _ => RUnit) r).
Proof.
  intros V F H.
  destruct (bumps_cases L V F) as [(c2 & H2 & V' & S' & D)|(c2 & l1 & e & l2 & H2 & V' & -> & H1 & S' & P)];
    rewrite H2 in H; inversion H; subst; split; auto.
  - left. split; auto. split; auto. split; auto. exists (ct_len c'). split; [eapply shown_size; eauto|apply V'].
  - right. split; auto. exists l1, e, l2. split; auto. split; auto.
    split; [exists (ct_len c'); split; [eapply shown_size; eauto|apply V']|].
    split; [apply Forall_app in F; destruct F as [F _]; exact (proj1 (proj2 (proj2 (bumps_ret_inv V F H1))))|].
    destruct P as [P|[P Q]]; auto. right. split; auto. unfold full. rewrite <- Q. eapply shown_size; eauto.
Qed.

Lemma lowers_first l c c' : valid c -> distinct eqb (map fst l) -> lowers l c = (c', Panic) ->
  exists l1 e l2, l = l1 ++ e :: l2 /\ lowers l1 c = (c', Ret tt) /\ sh c' (fst e) = None /\ ct_len c' = alloc_max E.
Proof.
  revert c. unfold CTProofs.lowers. induction l as [|[k v] l IH]; cbn; intros c V D H; [discriminate|].
  destruct (@lower_cases K eqb L E k v c V) as [(c1 & H1 & V1 & _)|(H1 & P1 & N1)]; rewrite H1 in H.
  - destruct (IH c1 V1) as (l1 & e & l2 & -> & X & Y); [inversion D; auto|exact H|].
    exists ((k, v) :: l1), e, l2. split; auto. cbn. now rewrite H1.
  - injection H as <-. exists [], (k, v), l. auto.
Qed.
Lemma distinct_prefix (l1 l2 : list (K * nat)) : distinct eqb (map fst (l1 ++ l2)) -> distinct eqb (map fst l1).
Proof.
  rewrite map_app. unfold distinct. induction (map fst l1) as [|a q IH]; cbn; [constructor|].
  intros D. inversion D as [|? ? F D2]; subst. constructor; auto. apply Forall_app in F; tauto.
Qed.
Lemma lowers_app l1 l2 c : lowers (l1 ++ l2) c = match lowers l1 c with (c1, Ret _) => lowers l2 c1 | r => r end.
Proof.
  revert c. unfold CTProofs.lowers. induction l1 as [|e l1 IH]; intros c; cbn; auto.
  destruct (ct_lower eqb E (fst e) (snd e) c) as [c1 [[]| | | |]]; auto.
Qed.
Lemma full_same f g : same f g -> full eqb E f -> full eqb E g.
Proof. intros S. apply size_dom. intros x. now rewrite (S x). Qed.
Lemma lowers_unblocked l c c' : valid c -> distinct eqb (map fst l) -> lowers l c = (c', Ret tt) -> ~ blocked eqb E l (sh c).
Proof.
  intros V D H (l1 & e & l2 & -> & N & Fu). rewrite lowers_app in H.
  destruct (lowers_cases L _ V (distinct_prefix _ _ D)) as [(c2 & H2 & V' & S' & _)|(c2 & m1 & e1 & m2 & H2 & _)]; rewrite H2 in H; [|discriminate].
  unfold CTProofs.lowers in H. cbn in H. destruct e as [k v]. cbn in *.
  assert (Fc : full eqb E (sh c2)) by (eapply full_same; [apply same_sym; exact S'|exact Fu]).
  assert (Q : ct_len c2 = alloc_max E) by (exact (size_unique L (shown_size V') Fc)).
  assert (X : ct_lower eqb E k v c2 = (c2, Panic)).
  { unfold ct_lower, hm_entry, hm_get. rewrite <- (S' k) in N. unfold shown, ct_get_key_value in N.
    unfold hm_get. rewrite N. cbn. unfold hm_reserve. unfold ct_len in Q.
    rewrite (proj2 (Nat.leb_gt _ _)) by lia. reflexivity. }
  rewrite X in H. discriminate.
Qed.
Lemma subtracts_ok c l c' r : valid c -> distinct eqb (map fst l) ->
  lowers l c = (c', r) ->
  valid c' /\ subtracts eqb E l (sh c) (sh c') (omap (fun _ => RUnit) r).
Proof.
  intros V F H.
  destruct (lowers_cases L _ V F) as [(c2 & H2 & V' & S' & D)|(c2 & m1 & u & m2 & H2 & V' & _)].
  - rewrite H2 in H; inversion H; subst; split; auto. left. split; auto. split; auto. eapply lowers_unblocked; eauto.
  - rewrite H2 in H; inversion H; subst; split; auto.
    destruct (lowers_first _ V F H2) as (l1 & e & l2 & -> & H1 & P & Q).
    destruct (lowers_cases L _ V (distinct_prefix _ _ F)) as [(c3 & H3 & _ & S3 & _)|(c3 & ? & ? & ? & H3 & _)];
      rewrite H3 in H1; inversion H1; subst.
    right. split; auto. exists l1, e, l2. split; auto. split; auto. split; auto.
    split; [unfold full; rewrite <- Q; eapply shown_size; eauto|].
    eapply lowers_unblocked; [exact V|exact (distinct_prefix _ _ F)|exact H3].
Qed.

Lemma reserve_cases n c : valid c ->
  (hm_reserve E n (ct_map c) = Ret tt /\ reserves eqb E n (sh c)) \/
  (hm_reserve E n (ct_map c) = Panic /\ cannot_reserve eqb E n (sh c)).
Proof.
  intros V. pose proof (shown_size V) as S. unfold hm_reserve.
  destruct (length (ct_map c) + n <=? alloc_max E) eqn:H.
  - apply Nat.leb_le in H. left; split; auto. exists (ct_len c). auto.
  - apply Nat.leb_gt in H. right; split; auto. exists (ct_len c). auto.
Qed.

Lemma extends_ok hint c xs c' r : valid c ->
  ct_extend eqb E hint xs c = (c', r) ->
  valid c' /\ extends eqb E hint xs (sh c) (sh c') (omap (fun _ => RUnit) r).
Proof.
  intros V. unfold ct_extend. rewrite push_bumps.
  destruct (reserve_cases hint V) as [[-> R]|[-> R]]; intros H.
  - destruct (adds_ok V (unitl_small xs) H). split; auto. left; auto.
  - inversion H; subst. split; auto. right. split; auto. split; auto. apply same_refl.
Qed.

Lemma insert_valid k n c : valid c -> n <= usize_max E -> valid (fst (ct_insert eqb E k n c)).
Proof.
  intros V Hn. pose proof (valid_wf V) as W. destruct c as [m].
  unfold ct_insert, hm_insert, hm_entry, hm_get. simpl.
  destruct (hm_entry_of eqb k m) as [[k' old]|] eqn:H; simpl.
  - destruct V as [[D F] N]. unfold ct_valid, map_content, ct_len in *; simpl in *.
    rewrite set_keys, length_set. split; [split|]; auto.
    rewrite Forall_forall in *. intros [k2 n2] X.
    assert (W2 : hm_wf eqb (hm_set eqb k n m)) by now apply wf_set.
    assert (Y := proj2 (wf_iff L k2 (k2, n2) W2) (conj X (eq_refl' L k2))).
    rewrite (entry_of_set L) in Y. destruct (eqb k2 k).
    + rewrite H in Y; simpl in Y; inversion Y; subst; auto.
    + apply (entry_of_some) in Y. apply (F (k2, n2)). tauto.
  - unfold hm_reserve. destruct (length m + 1 <=? alloc_max E) eqn:Q; simpl; auto.
    apply Nat.leb_le in Q. destruct V as [[D F] N].
    unfold ct_valid, map_content, ct_len in *; simpl in *. split; [split|].
    + constructor; auto. rewrite Forall_map, Forall_forall. intros e X.
      rewrite entry_of_none in H. auto.
    + constructor; auto.
    + lia.
Qed.

Lemma step_ok o c c' r : valid c -> op_ok eqb E o -> ct_step eqb cl E o c = (c', r) ->
  valid c' /\ allowed eqb E cl o (sh c) (sh c') r.
Proof.
  intros V Ok. pose proof (valid_wf V) as W.
  destruct o as [k|h xs|h xs|l|l|l|l|k|k|k|k| | |pick|k n|k|k g| |p|g|n];
    cbn [ct_step allowed op_ok] in *; intros H.
  - destruct (ct_push eqb E k c) as [c1 r1] eqn:B. inversion H; subst; cbn [fst snd] in *.
    apply adds_ok; auto. unfold CTProofs.bumps; simpl. fold (ct_push eqb E k c). rewrite B.
    destruct r1 as [[]| | | |]; auto.
  - destruct (ct_extend eqb E h xs c) as [c1 r1] eqn:B. inversion H; subst; cbn [fst snd] in *.
    now apply extends_ok.
  - unfold ct_extend_ref in H. rewrite map_id in H. fold (ct_extend eqb E h xs c) in H.
    destruct (ct_extend eqb E h xs c) as [c1 r1] eqn:B. inversion H; subst; cbn [fst snd] in *.
    now apply extends_ok.
  - destruct (ct_add_assign eqb E l c) as [c1 r1] eqn:B. inversion H; subst; cbn [fst snd] in *.
    apply adds_ok; auto. apply Ok.
  - rewrite add_assign_ref_bumps in H.
    destruct (bumps (clonel cl l) c) as [c1 r1] eqn:B. inversion H; subst; cbn [fst snd] in *.
    apply adds_ok; auto. apply clonel_small, Ok.
  - destruct (ct_sub_assign eqb E l c) as [c1 r1] eqn:B. inversion H; subst; cbn [fst snd] in *.
    apply subtracts_ok; auto. apply Ok.
  - rewrite sub_assign_ref_lowers in H.
    destruct (lowers (clonel cl l) c) as [c1 r1] eqn:B. inversion H; subst; cbn [fst snd] in *.
    apply subtracts_ok; auto. apply clonel_distinct, Ok.
  - inversion H; subst. split; auto. split; [apply same_refl|reflexivity].
  - inversion H; subst. split; auto. split; [apply same_refl|reflexivity].
  - inversion H; subst. split; auto. split; [apply same_refl|].
    unfold ct_index, ct_get, hm_get, shown, ct_get_key_value.
    destruct (hm_entry_of eqb k (ct_map c')) as [[k' n']|]; reflexivity.
  - inversion H; subst. split; auto. split; [apply same_refl|].
    unfold ct_contains_key, shown, ct_get_key_value. now rewrite contains_entry.
  - inversion H; subst. split; auto. split; [apply same_refl|].
    exists (ct_len c'). split; auto. eapply shown_size; eauto.
  - inversion H; subst. split; auto. split; [apply same_refl|].
    eexists; split; [|reflexivity]. unfold ct_is_empty, ct_len, shown, ct_get_key_value, same, empty.
    rewrite Nat.eqb_eq. destruct c' as [[|[k n] m]]; simpl; split; intros X; auto; try discriminate.
    specialize (X k). rewrite (eq_refl' L) in X. discriminate.
  - inversion H; subst. split; auto. split; [apply same_refl|].
    exists (pick (ct_map c')). split; auto. specialize (Ok (ct_map c')).
    split.
    + apply wf_keys. eapply (wf_perm L); eauto.
    + intros x e. unfold shown, ct_get_key_value.
      rewrite <- (entry_of_perm L _ W Ok). apply wf_iff; auto. eapply (wf_perm L); eauto.
  - pose proof (insert_valid k V Ok) as Vi.
    unfold ct_insert, hm_insert, hm_entry, hm_get in *.
    unfold shown at 1 2, ct_get_key_value. destruct c as [m]; simpl in *.
    destruct (hm_entry_of eqb k m) as [[k' old]|] eqn:Q; simpl in *.
    + inversion H; subst. split; auto. split; auto. intros x.
      unfold shown, ct_get_key_value; simpl. rewrite (entry_of_set L), Q. reflexivity.
    + destruct (reserve_cases 1 V) as [[R1 R]|[R1 R]]; simpl in R1; rewrite R1 in *; simpl in *;
        inversion H; subst; split; auto.
      * left. split; auto.
        split; auto. intros x. unfold shown, ct_get_key_value; simpl. reflexivity.
      * right. split; [|split; [apply same_refl|reflexivity]].
        destruct R as (s & R2 & R3).
        pose proof (len_shown L V R2). destruct V as [_ V].
        unfold full. replace (alloc_max E) with s by lia. exact R2.
  - unfold ct_remove in H. inversion H; subst. split.
    + destruct V as [[D F] N]. unfold ct_valid, map_content, ct_len in *; simpl in *.
      pose proof (length_remove_le eqb k (ct_map c)).
      split; [split|].
      * apply wf_keys. now apply wf_remove.
      * rewrite Forall_forall in *. intros e X. apply F. now apply remove_in in X.
      * lia.
    + split; [|reflexivity]. intros x. unfold shown, ct_get_key_value; simpl.
      now rewrite (entry_of_remove L).
  - unfold ct_get_mut, ct_get, hm_get in H. unfold shown at 1 2, ct_get_key_value.
    destruct (hm_entry_of eqb k (ct_map c)) as [[k' old]|] eqn:Q; simpl in H; inversion H; subst.
    + split.
      * pose proof (insert_valid k V (Ok old)) as Vi.
        unfold ct_insert, hm_insert, hm_entry, hm_get in Vi. rewrite Q in Vi. exact Vi.
      * split; auto. intros x.
        unfold shown, ct_get_key_value; simpl. rewrite (entry_of_set L), Q. reflexivity.
    + split; auto. split; [apply same_refl|reflexivity].
  - inversion H; subst. split.
    + split; [split; constructor|]. unfold ct_len; simpl. lia.
    + split; auto. intros x; reflexivity.
  - inversion H; subst. split.
    + destruct V as [[D F] N]. unfold ct_valid, map_content, ct_len in *; simpl in *.
      unfold hm_retain. split; [split|].
      * apply wf_keys. now apply wf_filter.
      * rewrite Forall_forall in *. intros e X. apply filter_In in X. apply F; tauto.
      * etransitivity; [|exact N]. clear.
        induction (ct_map c) as [|e m IH]; simpl; auto.
        destruct (p (fst e) (snd e)); simpl; lia.
    + split; auto. intros x. unfold shown, ct_get_key_value, ct_retain, hm_retain; simpl.
      rewrite (entry_of_filter L) by auto.
      destruct (hm_entry_of eqb x (ct_map c)) as [[k n]|]; auto.
  - inversion H; subst. split.
    + destruct V as [[D F] N]. unfold ct_valid, map_content, ct_len in *; simpl in *.
      rewrite map_values_keys. split; [split|]; auto.
      * unfold hm_map_values. rewrite Forall_map, Forall_forall. simpl. auto.
      * unfold hm_map_values. now rewrite map_length.
    + split; auto. intros x. unfold shown, ct_get_key_value, ct_iter_mut; simpl.
      rewrite entry_of_map. now destruct (hm_entry_of eqb x (ct_map c)) as [[k n]|].
  - unfold ct_reserve, unit_out in H; cbn [fst snd] in H. inversion H; subst. split; auto.
    split; [apply same_refl|].
    destruct (reserve_cases n V) as [[-> R]|[-> R]]; auto.
Qed.

Lemma run_ok ops c c' tr : valid c -> Forall (op_ok eqb E) ops -> ct_run eqb cl E ops c = (c', tr) ->
  valid c' /\ history eqb E cl ops (sh c) (sh c') tr.
Proof.
  revert c c' tr. induction ops as [|o ops IH]; intros c c' tr V Ok H; simpl in H.
  - inversion H; subst. split; auto. constructor. apply same_refl.
  - inversion Ok as [|? ? O1 O2]; subst.
    destruct (ct_step eqb cl E o c) as [c1 r] eqn:S1.
    destruct (ct_run eqb cl E ops c1) as [c2 tr2] eqn:S2. inversion H; subst.
    destruct (step_ok _ V O1 S1) as [V1 A].
    destruct (IH _ _ _ V1 O2 S2) as [V2 Hi]. split; auto.
    econstructor; eauto.
Qed.

Lemma new_valid : valid (ct_new K).
Proof. split; [split; constructor|]. apply Nat.le_0_l. Qed.

End Proofs.
