(** Facts about the map model. *)
From Coq Require Import Permutation.
From Verif Require Import Base HMModel.
Set Implicit Arguments.

Section Facts.
Variables K V : Type.
Variable eqb : K -> K -> bool.
Hypothesis L : eq_laws eqb.
Implicit Types (m : hmap K V) (k x : K) (v : V).

Lemma eqb_sym a b : eqb a b = eqb b a.
Proof.
  destruct (eqb a b) eqn:H1, (eqb b a) eqn:H2; auto.
  - apply (eq_sym' L) in H1; congruence.
  - apply (eq_sym' L) in H2; congruence.
Qed.

Lemma eqb_cong a b c : eqb a b = true -> eqb a c = eqb b c.
Proof.
  intros H. destruct (eqb b c) eqn:H2.
  - exact (eq_trans' L _ _ _ H H2).
  - destruct (eqb a c) eqn:H3; auto.
    apply (eq_sym' L) in H. rewrite (eq_trans' L _ _ _ H H3) in H2; discriminate.
Qed.

Lemma eqb_cong_r a b c : eqb a b = true -> eqb c a = eqb c b.
Proof. intros H. rewrite (eqb_sym c a), (eqb_sym c b). now apply eqb_cong. Qed.

Lemma entry_of_cong a b m : eqb a b = true -> hm_entry_of eqb a m = hm_entry_of eqb b m.
Proof.
  intros H; induction m as [|[k v] m IH]; simpl; auto.
  rewrite (eqb_cong k H), IH. reflexivity.
Qed.

Lemma entry_of_find k m : hm_entry_of eqb k m = find (fun e => eqb k (fst e)) m.
Proof. induction m as [|[k' v] m IH]; simpl; auto. destruct (eqb k k'); auto. Qed.

Lemma entry_of_some k m k' v : hm_entry_of eqb k m = Some (k', v) ->
  In (k', v) m /\ eqb k k' = true.
Proof.
  induction m as [|[k2 v2] m IH]; simpl; [discriminate|].
  destruct (eqb k k2) eqn:H; intros X.
  - inversion X; subst; auto.
  - destruct (IH X); auto.
Qed.

Lemma entry_of_none k m : hm_entry_of eqb k m = None <-> forall e, In e m -> eqb k (fst e) = false.
Proof.
  induction m as [|[k2 v2] m IH]; simpl.
  - split; auto; contradiction.
  - destruct (eqb k k2) eqn:H.
    + split; [discriminate|]. intros X. specialize (X (k2, v2) (or_introl eq_refl)).
      simpl in X; congruence.
    + rewrite IH. split; intros X e.
      * intros [<-|Y]; auto.
      * auto.
Qed.

Lemma wf_in k m k' v : hm_wf eqb m -> In (k', v) m -> eqb k k' = true ->
  hm_entry_of eqb k m = Some (k', v).
Proof.
  intros W; induction W as [|[k2 v2] m F W IH]; simpl; [contradiction|].
  intros [X|X] H.
  - inversion X; subst. now rewrite H.
  - rewrite Forall_forall in F. specialize (F _ X). simpl in F.
    destruct (eqb k k2) eqn:H2; auto.
    rewrite <- (eqb_cong k' H2) in F. congruence.
Qed.

Lemma wf_iff k m e : hm_wf eqb m ->
  hm_entry_of eqb k m = Some e <-> In e m /\ eqb k (fst e) = true.
Proof.
  destruct e as [k' v]. intros W; split.
  - apply entry_of_some.
  - intros [A B]. now apply wf_in.
Qed.

Lemma wf_perm m l : Permutation m l -> hm_wf eqb m -> hm_wf eqb l.
Proof.
  unfold hm_wf. induction 1 as [|a m l P IH|a b m|m l l2 P1 IH1 P2 IH2]; intros W; auto.
  - inversion W as [|? ? F W2]; subst. constructor; auto.
    rewrite Forall_forall in *. intros y Y. apply F.
    eapply Permutation_in; [apply Permutation_sym; exact P|exact Y].
  - inversion W as [|? ? F W2]; subst. inversion W2 as [|? ? F2 W3]; subst.
    inversion F as [|? ? X F3]; subst.
    constructor; [|constructor; auto].
    constructor; auto. rewrite eqb_sym. exact X.
Qed.

Lemma entry_of_perm k m l : hm_wf eqb m -> Permutation m l ->
  hm_entry_of eqb k l = hm_entry_of eqb k m.
Proof.
  intros W P. pose proof (wf_perm P W) as W2.
  destruct (hm_entry_of eqb k m) as [e|] eqn:H.
  - apply wf_iff; auto. apply wf_iff in H; auto. destruct H as [A B]. split; auto.
    eapply Permutation_in; eauto.
  - rewrite entry_of_none in *. intros e X. apply H.
    eapply Permutation_in; [apply Permutation_sym; exact P|exact X].
Qed.

Lemma set_keys k v m : map fst (hm_set eqb k v m) = map fst m.
Proof. induction m as [|[k2 v2] m IH]; simpl; auto. destruct (eqb k k2); simpl; congruence. Qed.

Lemma wf_keys m : hm_wf eqb m <-> ForallOrdPairs (fun a b => eqb a b = false) (map fst m).
Proof.
  unfold hm_wf. induction m as [|a m IH]; simpl.
  - split; constructor.
  - split; intros W; inversion W as [|? ? F W2]; subst; constructor; try (apply IH; auto).
    + rewrite Forall_map. exact F.
    + rewrite Forall_map in F. exact F.
Qed.

Lemma wf_set k v m : hm_wf eqb m -> hm_wf eqb (hm_set eqb k v m).
Proof. rewrite !wf_keys, set_keys. auto. Qed.

Lemma length_set k v m : length (hm_set eqb k v m) = length m.
Proof. induction m as [|[k2 v2] m IH]; simpl; auto. destruct (eqb k k2); simpl; auto. Qed.

Lemma entry_of_set x k v m :
  hm_entry_of eqb x (hm_set eqb k v m) =
  if eqb x k then option_map (fun e => (fst e, v)) (hm_entry_of eqb k m)
  else hm_entry_of eqb x m.
Proof.
  induction m as [|[k2 v2] m IH]; simpl.
  - now destruct (eqb x k).
  - destruct (eqb k k2) eqn:H; simpl.
    + destruct (eqb x k) eqn:H2.
      * rewrite (eqb_cong k2 H2), H. reflexivity.
      * rewrite <- (eqb_cong_r x H), H2. reflexivity.
    + rewrite IH. destruct (eqb x k) eqn:H2; auto.
      rewrite (eqb_cong k2 H2), H. reflexivity.
Qed.

Lemma remove_in k m e : In e (hm_remove eqb k m) -> In e m.
Proof.
  induction m as [|[k2 v2] m IH]; simpl; auto.
  destruct (eqb k k2); simpl; auto. intros [X|X]; auto.
Qed.

Lemma wf_remove k m : hm_wf eqb m -> hm_wf eqb (hm_remove eqb k m).
Proof.
  unfold hm_wf. induction 1 as [|[k2 v2] m F W IH]; simpl; [constructor|].
  destruct (eqb k k2); auto. constructor; auto.
  rewrite Forall_forall in *. intros e X. apply F. now apply remove_in in X.
Qed.

Lemma entry_of_remove x k m : hm_wf eqb m ->
  hm_entry_of eqb x (hm_remove eqb k m) = if eqb x k then None else hm_entry_of eqb x m.
Proof.
  induction 1 as [|[k2 v2] m F W IH]; simpl.
  - now destruct (eqb x k).
  - destruct (eqb k k2) eqn:H.
    + destruct (eqb x k) eqn:H2.
      * apply entry_of_none. intros e X. rewrite Forall_forall in F.
        specialize (F _ X). simpl in F.
        rewrite (eqb_cong (fst e) H2), (eqb_cong (fst e) H). exact F.
      * rewrite <- (eqb_cong_r x H), H2. reflexivity.
    + simpl. rewrite IH. destruct (eqb x k) eqn:H2; auto.
      rewrite (eqb_cong k2 H2), H. reflexivity.
Qed.

Lemma length_remove k m :
  length (hm_remove eqb k m) + (if hm_contains eqb k m then 1 else 0) = length m.
Proof.
  unfold hm_contains, hm_get. induction m as [|[k2 v2] m IH]; simpl; auto.
  destruct (eqb k k2) eqn:H; simpl; lia.
Qed.

Lemma length_remove_le k m : length (hm_remove eqb k m) <= length m.
Proof. pose proof (length_remove k m). lia. Qed.

Lemma wf_filter (p : K * V -> bool) m : hm_wf eqb m -> hm_wf eqb (filter p m).
Proof.
  unfold hm_wf. induction 1 as [|e m F W IH]; simpl; [constructor|].
  destruct (p e); auto. constructor; auto.
  rewrite Forall_forall in *. intros y Y. apply filter_In in Y. now apply F.
Qed.

Lemma entry_of_filter x (p : K * V -> bool) m : hm_wf eqb m ->
  hm_entry_of eqb x (filter p m) =
  match hm_entry_of eqb x m with Some e => if p e then Some e else None | None => None end.
Proof.
  intros W. pose proof (wf_filter p W) as W2.
  destruct (hm_entry_of eqb x m) as [e|] eqn:H.
  - apply wf_iff in H; auto. destruct H as [A B].
    destruct (p e) eqn:Pe.
    + apply wf_iff; auto. split; auto. apply filter_In; auto.
    + apply entry_of_none. intros e2 X. apply filter_In in X. destruct X as [X Y].
      destruct (eqb x (fst e2)) eqn:H2; auto.
      pose proof (proj2 (wf_iff x e W) (conj A B)) as Q1.
      pose proof (proj2 (wf_iff x e2 W) (conj X H2)) as Q2. congruence.
  - rewrite entry_of_none in *. intros e X. apply H. apply filter_In in X; tauto.
Qed.

Lemma entry_of_map x (f : K -> V -> V) m :
  hm_entry_of eqb x (hm_map_values f m) =
  option_map (fun e => (fst e, f (fst e) (snd e))) (hm_entry_of eqb x m).
Proof.
  unfold hm_map_values. induction m as [|[k2 v2] m IH]; simpl; auto.
  destruct (eqb x k2); auto.
Qed.

Lemma map_values_keys (f : K -> V -> V) m : map fst (hm_map_values f m) = map fst m.
Proof. unfold hm_map_values. rewrite map_map. reflexivity. Qed.

Lemma get_entry k m : hm_get eqb k m = option_map snd (hm_entry_of eqb k m).
Proof. reflexivity. Qed.

Lemma contains_entry k m :
  hm_contains eqb k m = match hm_entry_of eqb k m with Some _ => true | None => false end.
Proof. unfold hm_contains, hm_get. now destruct (hm_entry_of eqb k m). Qed.

Lemma wf_cons k v m : hm_entry_of eqb k m = None -> hm_wf eqb m -> hm_wf eqb ((k, v) :: m).
Proof.
  intros H W. constructor; auto. rewrite entry_of_none in H.
  rewrite Forall_forall. intros e X. simpl. auto.
Qed.

(** ** Key-set inclusion bounds the size *)
Lemma distinct_incl_length (ks : list K) m :
  ForallOrdPairs (fun a b => eqb a b = false) ks ->
  (forall k, In k ks -> hm_entry_of eqb k m <> None) -> length ks <= length m.
Proof.
  revert m. induction ks as [|k ks IH]; simpl; intros m D H; [lia|].
  inversion D as [|? ? F D2]; subst.
  specialize (IH (hm_remove eqb k m) D2).
  pose proof (length_remove k m) as Q.
  assert (C : hm_contains eqb k m = true).
  { rewrite contains_entry. specialize (H k (or_introl eq_refl)).
    now destruct (hm_entry_of eqb k m). }
  rewrite C in Q. enough (length ks <= length (hm_remove eqb k m)) by lia.
  apply IH. intros k2 X. rewrite Forall_forall in F. specialize (F _ X).
  specialize (H _ (or_intror X)). revert H. clear - F L.
  assert (F' : eqb k2 k = false) by now rewrite eqb_sym.
  induction m as [|[k3 v3] m IHm]; simpl; auto.
  destruct (eqb k k3) eqn:A; destruct (eqb k2 k3) eqn:B; simpl; rewrite ?B; auto.
  - rewrite <- (eqb_cong_r k2 A) in B. congruence.
Qed.

End Facts.
Arguments eqb_cong [K eqb] L [a b] c _.
Arguments eqb_cong_r [K eqb] L [a b] c _.
Arguments entry_of_cong [K V eqb] L [a b] m _.
Arguments wf_iff [K V eqb] L k [m] e _.

Lemma for_each_map {S A B} (g : B -> A) (f : A -> S -> S * outcome unit) l s :
  for_each f (map g l) s = for_each (fun b => f (g b)) l s.
Proof.
  revert s. induction l as [|a l IH]; simpl; auto.
  intros s. destruct (f (g a) s) as [s' [ | | | | ]]; auto.
Qed.

