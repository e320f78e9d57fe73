(** The hash table of [HTModel] behaves as the list of entries of [HMModel]. *)
From Coq Require Import Permutation NArith.
From Verif Require Import Base HMModel HMProofs HTModel.
Local Open Scope outcome_scope.
Set Implicit Arguments.

(** What is asked of the running of a table: the probe sequence meets every
    slot, arrays are kept only if they are large enough, and new ones are. *)
Record scheme_laws (P : scheme) : Prop := SchemeLaws {
  probe_all : forall h n p, p < n -> exists i, i < n /\ probe P h n i = p;
  probe_in : forall h n i, i < n -> probe P h n i < n;
  roomy_enough : forall w d n, roomy P w d n = true -> w <= n;
  slots_enough : forall w, w <= slots_for P w
}.

Lemma write_split {A} (t : list A) p x : nth_error t p = Some x ->
  exists l1 l2, t = l1 ++ x :: l2 /\ length l1 = p /\ forall s, write t p s = l1 ++ s :: l2.
Proof.
  revert p; induction t as [|a t IH]; intros [|p] H; simpl in *; try discriminate.
  - injection H as <-. exists [], t. auto.
  - destruct (IH _ H) as (l1 & l2 & -> & <- & W). exists (a :: l1), l2. repeat split.
    intros s. simpl. now rewrite W.
Qed.

Lemma length_write {A} (t : list A) p s : length (write t p s) = length t.
Proof. revert p; induction t as [|a t IH]; intros [|p]; simpl; auto. Qed.

Lemma nth_write {A} (t : list A) p s q x : nth_error (write t p s) q = Some x ->
  (q = p /\ x = s) \/ (q <> p /\ nth_error t q = Some x).
Proof.
  revert p q; induction t as [|a t IH]; intros [|p] [|q] H; simpl in *; try discriminate.
  - injection H as <-. auto.
  - right. split; [lia|auto].
  - injection H as <-. right. split; [lia|auto].
  - destruct (IH _ _ H) as [[-> ->]|[N ->]]; auto.
Qed.

Section HT.
Variables K V : Type.
Variable eqb : K -> K -> bool.
Variable hash : K -> N.
Variable P : scheme.
Variable E : machine.
Hypothesis L : eq_laws eqb.
Hypothesis HH : forall a b, eqb a b = true -> hash a = hash b.
Hypothesis PL : scheme_laws P.
Notation table := (table K V).
Implicit Types (t : table) (m : hmap K V) (k : K).
Notation pos k t := (probe P (hash k) (length t)).
Notation entries := (@ht_entries K V).

(** every entry can be reached: no empty slot comes before it *)
Definition paths (t : table) : Prop := forall p k v, nth_error t p = Some (Full k v) ->
  exists i, i < length t /\ pos k t i = p /\ forall j, j < i -> nth_error t (pos k t j) <> Some Empty.

Definition ok (t : table) : Prop := hm_wf eqb (entries t) /\ paths t.

Lemma entries_app a b : entries (a ++ b) = entries a ++ entries b.
Proof. apply flat_map_app. Qed.

Lemma entries_in t k v : In (k, v) (entries t) <-> exists p, nth_error t p = Some (Full k v).
Proof.
  unfold ht_entries. rewrite in_flat_map. split.
  - intros (s & S & H). destruct s; simpl in H; try contradiction. destruct H as [H|[]]. injection H as -> ->.
    now apply In_nth_error.
  - intros (p & H). exists (Full k v). split; [eapply nth_error_In; eauto|simpl; auto].
Qed.

Lemma seek_some k t i n p : ht_seek eqb hash P k t i n = Some p ->
  exists k' v, nth_error t p = Some (Full k' v) /\ eqb k k' = true.
Proof.
  revert i; induction n as [|n IH]; simpl; intros i H; [discriminate|].
  destruct (nth_error t (pos k t i)) as [[| |k' v]|] eqn:N; try discriminate; eauto.
  destruct (eqb k k') eqn:Q; eauto. injection H as <-. eauto.
Qed.

Lemma seek_none k t i n q k' v : ht_seek eqb hash P k t i n = None ->
  i <= q -> q < i + n -> (forall j, i <= j -> j < q -> nth_error t (pos k t j) <> Some Empty) ->
  (forall j, j < length t -> pos k t j < length t) -> i + n <= length t ->
  nth_error t (pos k t q) = Some (Full k' v) -> eqb k k' = true -> False.
Proof.
  revert i; induction n as [|n IH]; simpl; intros i H I1 I2 F B Le N Q; [lia|].
  destruct (Nat.eq_dec i q) as [->|D].
  - rewrite N, Q in H. discriminate.
  - destruct (nth_error t (pos k t i)) as [[| |k2 v2]|] eqn:N2.
    + apply (F i); auto; lia.
    + apply (IH (S i)); auto; try lia. intros j J1 J2. apply F; lia.
    + destruct (eqb k k2); [discriminate|]. apply (IH (S i)); auto; try lia. intros j J1 J2. apply F; lia.
    + apply nth_error_None in N2. specialize (B i). lia.
Qed.

Lemma find_none k t : ok t -> ht_find eqb hash P k t = None -> hm_entry_of eqb k (entries t) = None.
Proof.
  intros [W Pa] H. apply entry_of_none. intros [k' v] I. simpl.
  destruct (eqb k k') eqn:Q; auto. exfalso. apply entries_in in I. destruct I as [p N].
  destruct (Pa _ _ _ N) as (i & I1 & I2 & I3). rewrite <- (HH Q) in I2, I3.
  apply (@seek_none k t 0 (length t) i k' v); auto; try lia.
  - intros j J. now apply probe_in.
  - now rewrite I2.
Qed.

Lemma entry_of_entries k t : ok t -> ht_entry_of eqb hash P k t = hm_entry_of eqb k (entries t).
Proof.
  intros O. unfold ht_entry_of. destruct (ht_find eqb hash P k t) as [p|] eqn:F.
  - destruct (seek_some _ _ _ _ F) as (k' & v & N & Q). rewrite N. symmetry.
    apply wf_iff; auto; [apply O|]. split; auto. apply entries_in. eauto.
  - symmetry. now apply find_none.
Qed.

(** ** the relation to the list *)
Definition Rm (t : table) (m : hmap K V) : Prop := ok t /\ Permutation (entries t) m.

Lemma Rm_wf t m : Rm t m -> hm_wf eqb m.
Proof. intros [[W _] Q]. exact (wf_perm L Q W). Qed.

Lemma Rm_entry_of t m k : Rm t m -> ht_entry_of eqb hash P k t = hm_entry_of eqb k m.
Proof. intros [O Q]. rewrite entry_of_entries; auto. symmetry. apply entry_of_perm; auto. apply O. Qed.

Lemma Rm_get t m k : Rm t m -> ht_get eqb hash P k t = hm_get eqb k m.
Proof. intros R. unfold ht_get, hm_get. now rewrite (Rm_entry_of k R). Qed.

Lemma Rm_len t m : Rm t m -> ht_len t = length m.
Proof. intros [_ Q]. now apply Permutation_length. Qed.

Lemma Rm_perm t m m' : Rm t m -> Permutation m m' -> Rm t m'.
Proof. intros [O Q] Q'. split; auto. eapply Permutation_trans; eauto. Qed.

Lemma set_is_map k v m : hm_wf eqb m ->
  hm_set eqb k v m = map (fun e => if eqb k (fst e) then (fst e, v) else e) m.
Proof.
  induction 1 as [|[k2 v2] m F W IH]; simpl; auto. destruct (eqb k k2) eqn:Q; [|now rewrite IH].
  f_equal. rewrite <- (map_id m) at 1. apply map_ext_in. intros e I.
  rewrite Forall_forall in F. specialize (F e I). simpl in F. now rewrite (eqb_cong L (fst e) Q), F.
Qed.

Lemma remove_is_filter k m : hm_wf eqb m ->
  hm_remove eqb k m = filter (fun e => negb (eqb k (fst e))) m.
Proof.
  induction 1 as [|[k2 v2] m F W IH]; simpl; auto. destruct (eqb k k2) eqn:Q; simpl; [|now rewrite IH].
  symmetry. rewrite Forall_forall in F.
  clear IH W. induction m as [|e m IH]; simpl; auto. pose proof (F e (or_introl eq_refl)) as X. simpl in X.
  rewrite (eqb_cong L (fst e) Q), X. simpl. f_equal. apply IH. intros x I. apply F. now right.
Qed.

Lemma set_perm k v m m' : hm_wf eqb m -> Permutation m m' -> Permutation (hm_set eqb k v m) (hm_set eqb k v m').
Proof.
  intros W Q. rewrite !set_is_map; auto; [now apply Permutation_map|exact (wf_perm L Q W)].
Qed.

Lemma filter_perm {A} (p : A -> bool) (m m' : list A) : Permutation m m' -> Permutation (filter p m) (filter p m').
Proof.
  induction 1; simpl; auto.
  - destruct (p x); auto.
  - destruct (p x), (p y); auto. apply perm_swap.
  - eapply Permutation_trans; eauto.
Qed.

Lemma remove_perm k m m' : hm_wf eqb m -> Permutation m m' -> Permutation (hm_remove eqb k m) (hm_remove eqb k m').
Proof.
  intros W Q. rewrite !remove_is_filter; auto; [now apply filter_perm|exact (wf_perm L Q W)].
Qed.

Lemma set_mid k v k' v' (a b : hmap K V) : hm_wf eqb (a ++ (k', v') :: b) -> eqb k k' = true ->
  hm_set eqb k v (a ++ (k', v') :: b) = a ++ (k', v) :: b.
Proof.
  induction a as [|[k2 v2] a IH]; simpl; intros W Q.
  - now rewrite Q.
  - inversion W as [|? ? F W2]; subst. rewrite Forall_forall in F.
    assert (X : eqb k k2 = false).
    { specialize (F (k', v')). simpl in F. rewrite (eqb_sym L k k2), (eqb_cong_r L k2 Q). apply F.
      apply in_or_app. simpl. auto. }
    rewrite X. f_equal. auto.
Qed.

Lemma remove_mid k k' v' (a b : hmap K V) : hm_wf eqb (a ++ (k', v') :: b) -> eqb k k' = true ->
  hm_remove eqb k (a ++ (k', v') :: b) = a ++ b.
Proof.
  induction a as [|[k2 v2] a IH]; simpl; intros W Q.
  - now rewrite Q.
  - inversion W as [|? ? F W2]; subst. rewrite Forall_forall in F.
    assert (X : eqb k k2 = false).
    { specialize (F (k', v')). simpl in F. rewrite (eqb_sym L k k2), (eqb_cong_r L k2 Q). apply F.
      apply in_or_app. simpl. auto. }
    rewrite X. f_equal. auto.
Qed.

(** fewer entries, no more empty slots *)
Lemma paths_less t t' : length t' = length t ->
  (forall p k v, nth_error t' p = Some (Full k v) -> exists v', nth_error t p = Some (Full k v')) ->
  (forall p, nth_error t' p = Some Empty -> nth_error t p = Some Empty) -> paths t -> paths t'.
Proof.
  intros Le F Em Pa p k v N. destruct (F _ _ _ N) as [v' N'].
  destruct (Pa _ _ _ N') as (i & I1 & I2 & I3). exists i. rewrite Le. repeat split; auto.
  intros j J X. apply (I3 j J). auto.
Qed.

Lemma Rm_set t m k v : Rm t m -> Rm (ht_set eqb hash P k v t) (hm_set eqb k v m).
Proof.
  intros R. pose proof R as [[W Pa] Q].
  assert (X : Rm (ht_set eqb hash P k v t) (hm_set eqb k v (entries t))).
  2:{ eapply Rm_perm; eauto. now apply set_perm. }
  unfold ht_set. destruct (ht_find eqb hash P k t) as [p|] eqn:F.
  - destruct (seek_some _ _ _ _ F) as (k' & v' & N & Q'). rewrite N.
    destruct (write_split _ _ N) as (l1 & l2 & Ht & _ & Wr).
    assert (En : entries t = entries l1 ++ (k', v') :: entries l2) by (rewrite Ht, entries_app; reflexivity).
    assert (En' : entries (write t p (Full k' v)) = entries l1 ++ (k', v) :: entries l2)
      by (rewrite Wr, entries_app; reflexivity).
    assert (S : hm_set eqb k v (entries t) = entries (write t p (Full k' v))).
    { rewrite En, En'. apply set_mid; auto. now rewrite <- En. }
    rewrite S. split; auto. split.
    + rewrite <- S. now apply wf_set.
    + apply (@paths_less t); auto.
      * apply length_write.
      * intros q k2 v2 H. apply nth_write in H. destruct H as [[-> H]|[_ H]]; eauto. injection H as -> ->. eauto.
      * intros q H. apply nth_write in H. destruct H as [[-> H]|[_ H]]; auto. discriminate.
  - assert (S : hm_set eqb k v (entries t) = entries t).
    { rewrite set_is_map by auto. rewrite <- (map_id (entries t)) at 2. apply map_ext_in. intros e I.
      apply find_none in F; [|split; auto]. rewrite entry_of_none in F. now rewrite (F e I). }
    rewrite S. split; auto. split; auto.
Qed.

Lemma Rm_remove t m k : Rm t m -> Rm (ht_remove eqb hash P k t) (hm_remove eqb k m).
Proof.
  intros R. pose proof R as [[W Pa] Q].
  assert (X : Rm (ht_remove eqb hash P k t) (hm_remove eqb k (entries t))).
  2:{ eapply Rm_perm; eauto. now apply remove_perm. }
  unfold ht_remove. destruct (ht_find eqb hash P k t) as [p|] eqn:F.
  - destruct (seek_some _ _ _ _ F) as (k' & v' & N & Q').
    destruct (write_split _ _ N) as (l1 & l2 & Ht & _ & Wr).
    assert (En : entries t = entries l1 ++ (k', v') :: entries l2) by (rewrite Ht, entries_app; reflexivity).
    assert (En' : entries (write t p Deleted) = entries l1 ++ entries l2)
      by (rewrite Wr, entries_app; reflexivity).
    assert (S : hm_remove eqb k (entries t) = entries (write t p Deleted)).
    { rewrite En, En'. apply remove_mid; auto. now rewrite <- En. }
    rewrite S. split; auto. split.
    + rewrite <- S. now apply wf_remove.
    + apply (@paths_less t); auto.
      * apply length_write.
      * intros q k2 v2 H. apply nth_write in H. destruct H as [[-> H]|[_ H]]; eauto. discriminate.
      * intros q H. apply nth_write in H. destruct H as [[-> H]|[_ H]]; auto. discriminate.
  - assert (S : hm_remove eqb k (entries t) = entries t).
    { rewrite remove_is_filter by auto. apply find_none in F; [|split; auto]. rewrite entry_of_none in F. revert F.
      generalize (entries t). induction l as [|e l IH]; simpl; auto. intros F.
      rewrite (F e (or_introl eq_refl)). simpl. f_equal. auto. }
    rewrite S. split; auto. split; auto.
Qed.

(** ** putting a new entry *)
Lemma free_some h t i n p : ht_free P h t i n = Some p ->
  exists q, i <= q /\ q < i + n /\ probe P h (length t) q = p /\
    (exists s, nth_error t p = Some s /\ ht_slot s = []) /\
    (forall j, i <= j -> j < q -> nth_error t (probe P h (length t) j) <> Some Empty).
Proof.
  revert i; induction n as [|n IH]; simpl; intros i H; [discriminate|].
  destruct (nth_error t (probe P h (length t) i)) as [[| |k' v]|] eqn:N; try discriminate.
  - injection H as <-. exists i. repeat split; auto; try lia. eauto.
  - injection H as <-. exists i. repeat split; auto; try lia. eauto.
  - destruct (IH _ H) as (q & Q1 & Q2 & Q3 & Q4 & Q5). exists q. repeat split; auto; try lia.
    intros j J1 J2. destruct (Nat.eq_dec j i) as [->|D]; [rewrite N; discriminate|]. apply Q5; lia.
Qed.

Lemma free_none h t i n : ht_free P h t i n = None ->
  (forall j, j < length t -> probe P h (length t) j < length t) -> i + n <= length t ->
  forall j, i <= j -> j < i + n -> exists k v, nth_error t (probe P h (length t) j) = Some (Full k v).
Proof.
  revert i; induction n as [|n IH]; simpl; intros i H B Le j J1 J2; [lia|].
  destruct (nth_error t (probe P h (length t) i)) as [[| |k' v]|] eqn:N; try discriminate.
  - destruct (Nat.eq_dec j i) as [->|D]; [eauto|]. apply (IH (S i)); auto; lia.
  - apply nth_error_None in N. specialize (B i). lia.
Qed.

Lemma all_full t : (forall p, p < length t -> exists k v, nth_error t p = Some (Full k v)) ->
  length (entries t) = length t.
Proof.
  induction t as [|s t IH]; simpl; intros H; auto.
  destruct (H 0 ltac:(lia)) as (k & v & S). injection S as ->. simpl. f_equal. apply IH.
  intros p Hp. apply (H (S p)). lia.
Qed.

Lemma free_exists h t : length (entries t) < length t -> exists p, ht_free P h t 0 (length t) = Some p.
Proof.
  intros Lt. destruct (ht_free P h t 0 (length t)) as [p|] eqn:F; [eauto|]. exfalso.
  assert (X : length (entries t) = length t); [|lia]. apply all_full. intros p Hp.
  destruct (probe_all PL h Hp) as (i & I & <-).
  apply (@free_none _ _ _ _ F); auto; try lia. intros j J. now apply probe_in.
Qed.

Lemma length_put k v t : length (ht_put hash P k v t) = length t.
Proof. unfold ht_put. destruct (ht_free _ _ _ _ _); auto. apply length_write. Qed.

Lemma Rm_put t m k v : Rm t m -> length m < length t -> hm_entry_of eqb k m = None ->
  Rm (ht_put hash P k v t) (hm_insert_vacant k v m).
Proof.
  intros R Lt Ab. pose proof R as [[W Pa] Q]. unfold hm_insert_vacant.
  rewrite <- (Permutation_length Q) in Lt.
  assert (Ab' : hm_entry_of eqb k (entries t) = None).
  { rewrite <- Ab. symmetry. apply entry_of_perm; auto. }
  destruct (free_exists (hash k) t Lt) as [p F]. unfold ht_put. rewrite F.
  destruct (free_some _ _ _ _ F) as (q & _ & Q2 & Q3 & (s & N & S0) & Q5). simpl in Q2.
  destruct (write_split _ _ N) as (l1 & l2 & Ht & _ & Wr).
  assert (En : entries t = entries l1 ++ entries l2).
  { rewrite Ht, entries_app. f_equal. change (ht_slot s ++ entries l2 = entries l2). now rewrite S0. }
  assert (En' : entries (write t p (Full k v)) = entries l1 ++ (k, v) :: entries l2)
    by (rewrite Wr, entries_app; reflexivity).
  assert (Pe : Permutation ((k, v) :: entries t) (entries (write t p (Full k v)))).
  { rewrite En, En'. apply Permutation_middle. }
  split; [split|].
  - eapply wf_perm; [exact L|exact Pe|]. now apply wf_cons.
  - assert (NE : forall p', nth_error (write t p (Full k v)) p' = Some Empty -> nth_error t p' = Some Empty).
    { intros p' H. apply nth_write in H. destruct H as [[_ H]|[_ H]]; auto. discriminate. }
    intros p' k2 v2 H. rewrite !length_write. apply nth_write in H. destruct H as [[-> H]|[_ H]].
    + injection H as -> ->. exists q. repeat split; auto. intros j J X. apply NE in X. apply (Q5 j); auto. lia.
    + destruct (Pa _ _ _ H) as (i & I1 & I2 & I3). exists i. repeat split; auto.
      intros j J X. apply NE in X. apply (I3 j); auto.
  - eapply Permutation_trans; [apply Permutation_sym; exact Pe|]. now constructor.
Qed.

(** ** new arrays *)
Lemma blank_entries n : entries (repeat Empty n) = [].
Proof. induction n; simpl; auto. Qed.

Lemma Rm_blank n : Rm (repeat Empty n) [].
Proof.
  split; [split|].
  - rewrite blank_entries. constructor.
  - intros p k v H. apply nth_error_In, repeat_spec in H. discriminate.
  - rewrite blank_entries. constructor.
Qed.

Lemma Rm_fold l t m : Rm t m -> hm_wf eqb (l ++ m) -> length l + length m <= length t ->
  Rm (fold_left (fun t' e => ht_put hash P (fst e) (snd e) t') l t) (rev l ++ m) /\
  length (fold_left (fun t' e => ht_put hash P (fst e) (snd e) t') l t) = length t.
Proof.
  revert t m; induction l as [|[k v] l IH]; simpl; intros t m R W Le; auto.
  inversion W as [|? ? F W2]; subst. rewrite Forall_forall in F.
  assert (Ab : hm_entry_of eqb k m = None).
  { apply entry_of_none. intros e I. apply (F e). apply in_or_app. auto. }
  pose proof (@Rm_put t m k v R ltac:(lia) Ab) as R1. unfold hm_insert_vacant in R1.
  destruct (IH _ _ R1) as [R2 Le2].
  - eapply wf_perm; [exact L| |exact W]. simpl. apply Permutation_middle.
  - rewrite length_put. simpl. lia.
  - rewrite <- app_assoc. simpl. split; auto. now rewrite Le2, length_put.
Qed.

Lemma Rm_rehash n t m : Rm t m -> length m <= n ->
  Rm (ht_rehash hash P n t) m /\ length (ht_rehash hash P n t) = n.
Proof.
  intros R Le. pose proof R as [[W Pa] Q]. unfold ht_rehash.
  destruct (@Rm_fold (entries t) (repeat Empty n) [] (Rm_blank n)) as [R1 L1].
  - now rewrite app_nil_r.
  - simpl. rewrite repeat_length, (Permutation_length Q). lia.
  - rewrite repeat_length in L1. split; auto. eapply Rm_perm; [exact R1|]. rewrite app_nil_r.
    eapply Permutation_trans; [apply Permutation_sym, Permutation_rev|exact Q].
Qed.

Lemma Rm_reserve n t m t' o : Rm t m -> ht_reserve hash P E n t = (t', o) ->
  Rm t' m /\ o = hm_reserve E n m /\ (o = Ret tt -> length m + n <= length t').
Proof.
  unfold ht_reserve, hm_reserve. intros R. rewrite (Rm_len R). destruct (length m + n <=? alloc_max E) eqn:A; intros H.
  - injection H as H <-. destruct (roomy P (length m + n) (ht_marks t) (length t)) eqn:Ro; subst t'.
    + repeat split; auto; try apply R. intros _. exact (roomy_enough PL _ _ _ Ro).
    + pose proof (slots_enough PL (length m + n)) as S.
      destruct (@Rm_rehash (slots_for P (length m + n)) t m R ltac:(lia)) as [R1 L1].
      repeat split; auto; try apply R1. intros _. now rewrite L1.
  - injection H as <- <-. repeat split; auto; try apply R. discriminate.
Qed.

Lemma Rm_entry k t m t' o : Rm t m -> ht_entry eqb hash P E k t = (t', o) ->
  Rm t' m /\ o = hm_entry eqb E k m /\ (o = Ret Vacant -> length m < length t' /\ hm_entry_of eqb k m = None).
Proof.
  unfold ht_entry, hm_entry. intros R. rewrite (Rm_get k R). unfold hm_get.
  destruct (hm_entry_of eqb k m) as [[k' v]|] eqn:F; simpl; intros H.
  - injection H as <- <-. repeat split; try apply R; discriminate.
  - destruct (ht_reserve hash P E 1 t) as [t1 o1] eqn:S. injection H as <- <-.
    destruct (Rm_reserve _ R S) as (R1 & -> & Le). split; auto. split.
    + unfold omap, obind. destruct (hm_reserve E 1 m); auto.
    + intros X. split; auto. unfold omap, obind in X. destruct (hm_reserve E 1 m) as [[]| | | |] eqn:Y; try discriminate.
      specialize (Le eq_refl). lia.
Qed.

Lemma Rm_insert k v t m t' o : Rm t m -> ht_insert eqb hash P E k v t = (t', o) ->
  exists m', hm_insert eqb E k v m = (m', o) /\ Rm t' m'.
Proof.
  unfold ht_insert, hm_insert. intros R. destruct (ht_entry eqb hash P E k t) as [t1 o1] eqn:S.
  destruct (Rm_entry _ R S) as (R1 & Ho & Le). rewrite <- Ho.
  destruct o1 as [[old|]| | | |]; intros H; injection H as <- <-; eauto.
  - eexists; split; eauto. now apply Rm_set.
  - destruct (Le eq_refl). eexists; split; eauto. now apply Rm_put.
Qed.

Lemma Rm_retain p t m : Rm t m -> Rm (ht_retain p t) (hm_retain p m).
Proof.
  intros [[W Pa] Q].
  assert (En : entries (ht_retain p t) = filter (fun e => p (fst e) (snd e)) (entries t)).
  { clear. induction t as [|[| |k v] t IH]; simpl; auto. rewrite <- IH. destruct (p k v); reflexivity. }
  split; [split|].
  - rewrite En. now apply wf_filter.
  - unfold ht_retain. apply (@paths_less t); auto.
    + apply map_length.
    + intros q k v H. rewrite nth_error_map in H. destruct (nth_error t q) as [[| |k1 v1]|]; simpl in H; try discriminate.
      destruct (p k1 v1); try discriminate. injection H as -> ->. eauto.
    + intros q H. rewrite nth_error_map in H. destruct (nth_error t q) as [[| |k1 v1]|]; simpl in H; try discriminate; auto.
      destruct (p k1 v1); discriminate.
  - rewrite En. now apply filter_perm.
Qed.

Lemma Rm_map_values f t m : Rm t m -> Rm (ht_map_values f t) (hm_map_values f m).
Proof.
  intros [[W Pa] Q].
  assert (En : entries (ht_map_values f t) = hm_map_values f (entries t)).
  { clear. induction t as [|[| |k v] t IH]; simpl; auto. now rewrite <- IH. }
  split; [split|].
  - rewrite En. rewrite wf_keys, map_values_keys, <- wf_keys. exact W.
  - unfold ht_map_values. apply (@paths_less t); auto.
    + apply map_length.
    + intros q k v H. rewrite nth_error_map in H. destruct (nth_error t q) as [[| |k1 v1]|]; simpl in H; try discriminate.
      injection H as -> _. eauto.
    + intros q H. rewrite nth_error_map in H. destruct (nth_error t q) as [[| |k1 v1]|]; simpl in H; try discriminate; auto.
  - rewrite En. now apply Permutation_map.
Qed.

Lemma Rm_clear t : Rm (ht_clear t) [].
Proof.
  assert (X : ht_clear t = repeat Empty (length t)) by (induction t; simpl; congruence).
  rewrite X. apply Rm_blank.
Qed.

Lemma Rm_with_capacity n : match @ht_with_capacity K V hash P E n with
  | Ret t => Rm t [] /\ @hm_reserve K V E n [] = Ret tt
  | Panic => @hm_reserve K V E n [] = Panic
  | _ => False end.
Proof.
  unfold ht_with_capacity. destruct (@ht_reserve K V hash P E n []) as [t o] eqn:S.
  destruct (Rm_reserve _ (Rm_blank 0) S) as (R & -> & _). unfold hm_reserve in *. simpl in *.
  destruct (n <=? alloc_max E); simpl; auto.
Qed.
End HT.
