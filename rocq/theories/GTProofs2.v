(** hashbrown's table follows the list of its entries. *)
From Coq Require Import Permutation NArith.
From Verif Require Import Base HMModel HMProofs HTModel HTProofs GTModel GTProofs.
Set Implicit Arguments.

Lemma run_prefix {A} (f : A -> bool) l k d : k <= length l -> (forall j, j < k -> f (nth j l d) = true) -> k <= run f l.
Proof.
  revert k. induction l as [|x l IH]; cbn; intros k Le H; [lia|]. destruct k as [|k]; [lia|].
  rewrite (H 0) by lia. apply le_n_S, IH; [lia|]. intros j J. apply (H (S j)). lia.
Qed.

Section GT.
Variables K V : Type.
Variable eqb : K -> K -> bool.
Variable hash : K -> N.
Variable W : nat.
Variable E : machine.
Hypothesis L : eq_laws eqb.
Hypothesis HH : forall a b, eqb a b = true -> hash a = hash b.
Hypothesis W2 : pow2 W.
Notation table := (table K V).
Implicit Types (t : table) (m : hmap K V) (k : K).
Notation entries := (@ht_entries K V).
Notation group := (g_group W).
Notation pos k t := (gpos W (hash k) (length t)).

Definition gpaths t : Prop := forall p k v, nth_error t p = Some (Full k v) ->
  exists i, i < length t /\ In (Some p) (group (length t) (pos k t i)) /\
    forall j b, j < i -> In b (group (length t) (pos k t j)) -> g_is_empty t b = false.

(** entries and marks leave an empty slot *)
Definition spare t : Prop := ht_len t + ht_marks t <= g_cap (length t).

Definition gok t : Prop := hm_wf eqb (entries t) /\ gpaths t /\ pow2 (length t) /\ spare t.

Definition Rg t m : Prop := gok t /\ Permutation (entries t) m.

Lemma nth_full t p k v : nth p t Empty = Full k v <-> nth_error t p = Some (Full k v).
Proof.
  split; [|apply nth_error_nth]. intros H. destruct (Nat.lt_ge_cases p (length t)).
  - rewrite (nth_error_nth' t Empty) by auto. now rewrite H.
  - rewrite nth_overflow in H by auto. discriminate.
Qed.

Lemma pow2_pos n : pow2 n -> 0 < n.
Proof. intros [a ->]. pose proof (Nat.pow_nonzero 2 a). lia. Qed.

(** ** lookups *)
Lemma seek_some k t q s f p : g_seek eqb hash W k t q s f = Some p ->
  exists k' v, nth_error t p = Some (Full k' v) /\ eqb k k' = true.
Proof.
  revert q s; induction f as [|f IH]; cbn; intros q s H; [discriminate|].
  destruct (find (g_matches eqb hash k t) (group (length t) q)) as [[p'|]|] eqn:F.
  - injection H as ->. apply find_some in F. destruct F as [_ F]. unfold g_matches, g_at in F.
    destruct (nth p t Empty) as [| |k' v] eqn:N; try discriminate. apply nth_full in N. apply andb_true_iff in F.
    exists k', v. tauto.
  - destruct (existsb _ _); [discriminate|]. eauto.
  - destruct (existsb _ _); [discriminate|]. eauto.
Qed.

Lemma seek_none k t i f q p k' v : g_seek eqb hash W k t (pos k t i) (W * i) f = None ->
  i <= q -> q < i + f -> (forall j b, j < q -> In b (group (length t) (pos k t j)) -> g_is_empty t b = false) ->
  In (Some p) (group (length t) (pos k t q)) -> nth_error t p = Some (Full k' v) -> eqb k k' = true -> False.
Proof.
  revert i; induction f as [|f IH]; cbn [g_seek]; intros i H I1 I2 F In1 N Q; [lia|].
  destruct (Nat.eq_dec i q) as [->|D].
  - assert (M : g_matches eqb hash k t (Some p) = true).
    { unfold g_matches, g_at. apply nth_full in N. rewrite N, Q, (HH Q), N.eqb_refl. reflexivity. }
    destruct (find (g_matches eqb hash k t) (group (length t) (pos k t q))) as [[p'|]|] eqn:Fi; try discriminate.
    + apply find_some in Fi. destruct Fi as [_ Fi]. discriminate.
    + apply (List.find_none _ _ Fi) in In1. congruence.
  - assert (Ne : existsb (g_is_empty t) (group (length t) (pos k t i)) = false).
    { destruct (existsb _ _) eqn:X; auto. apply existsb_exists in X. destruct X as (b & B1 & B2).
      rewrite (F i b) in B2; [discriminate|lia|auto]. }
    rewrite Ne in H. change ((pos k t i + (W * i + W)) mod length t) with (pos k t (S i)) in H.
    rewrite <- Nat.mul_succ_r in H.
    destruct (find (g_matches eqb hash k t) (group (length t) (pos k t i))) as [[p'|]|]; try discriminate;
      apply (IH (S i)); auto; lia.
Qed.

Lemma gfind_none k t : gok t -> g_find eqb hash W k t = None -> hm_entry_of eqb k (entries t) = None.
Proof.
  intros (Wf & Pa & _) H. apply entry_of_none. intros [k' v] I. cbn [fst].
  destruct (eqb k k') eqn:Q; auto. exfalso. apply entries_in in I. destruct I as [p N].
  destruct (Pa _ _ _ N) as (i & I1 & I2 & I3). rewrite <- (HH Q) in I2, I3.
  unfold g_find in H. change (g_start (hash k) (length t)) with (pos k t 0) in H.
  pose proof (@seek_none k t 0 (length t) i p k' v) as X. rewrite Nat.mul_0_r in X. apply X; auto; lia.
Qed.

Lemma gentry_of_entries k t : gok t -> g_entry_of eqb hash W k t = hm_entry_of eqb k (entries t).
Proof.
  intros O. unfold g_entry_of. destruct (g_find eqb hash W k t) as [p|] eqn:F.
  - destruct (seek_some _ _ _ _ _ F) as (k' & v & N & Q). apply nth_full in N as N'. rewrite N'. symmetry.
    apply wf_iff; auto; [apply O|]. split; auto. apply entries_in. eauto.
  - symmetry. now apply gfind_none.
Qed.

Lemma Rg_wf t m : Rg t m -> hm_wf eqb m.
Proof. intros [[Wf _] Q]. exact (wf_perm L Q Wf). Qed.

Lemma Rg_entry_of t m k : Rg t m -> g_entry_of eqb hash W k t = hm_entry_of eqb k m.
Proof. intros [O Q]. rewrite gentry_of_entries; auto. symmetry. apply entry_of_perm; auto. apply O. Qed.

Lemma Rg_get t m k : Rg t m -> g_get eqb hash W k t = hm_get eqb k m.
Proof. intros R. unfold g_get, hm_get. now rewrite (Rg_entry_of k R). Qed.

Lemma Rg_len t m : Rg t m -> ht_len t = length m.
Proof. intros [_ Q]. now apply Permutation_length. Qed.

Lemma Rg_perm t m m' : Rg t m -> Permutation m m' -> Rg t m'.
Proof. intros [O Q] Q'. split; auto. eapply Permutation_trans; eauto. Qed.

(** ** writing one slot *)
Definition slot_marks (s : slot K V) : nat := match s with Deleted => 1 | _ => 0 end.

Lemma marks_app a b : ht_marks (a ++ b) = ht_marks a + @ht_marks K V b.
Proof. unfold ht_marks. rewrite filter_app, app_length. reflexivity. Qed.

Lemma len_app a b : ht_len (a ++ b) = ht_len a + @ht_len K V b.
Proof. unfold ht_len. rewrite entries_app, app_length. reflexivity. Qed.

Lemma one_mark s (l : table) : ht_marks (s :: l) = slot_marks s + ht_marks l.
Proof. destruct s; reflexivity. Qed.

Lemma one_len s (l : table) : ht_len (s :: l) = length (ht_slot s) + ht_len l.
Proof. unfold ht_len. destruct s; reflexivity. Qed.

Lemma write_counts t p s s' : nth_error t p = Some s ->
  ht_len (write t p s') + length (ht_slot s) = ht_len t + length (ht_slot s') /\
  ht_marks (write t p s') + slot_marks s = ht_marks t + slot_marks s'.
Proof.
  intros N. destruct (write_split _ _ N) as (l1 & l2 & Ht & _ & Wr). rewrite Wr. clear Wr N. subst t.
  rewrite !len_app, !marks_app, !one_len, !one_mark. lia.
Qed.

Lemma is_empty_write t p s b : p < length t -> g_is_empty (write t p s) b = true ->
  (b = Some p /\ s = Empty) \/ g_is_empty t b = true.
Proof.
  intros Lt. unfold g_is_empty, g_at. destruct b as [q|]; auto. destruct (Nat.lt_ge_cases q (length t)) as [Lq|Ge].
  - pose proof (nth_error_nth' (write t p s) Empty (n := q)) as X. rewrite length_write in X. specialize (X Lq).
    destruct (nth q (write t p s) Empty) eqn:N; try discriminate. intros _. apply nth_write in X.
    destruct X as [[-> <-]|[_ X]]; [auto|]. right. now rewrite (nth_error_nth _ _ _ X).
  - intros _. right. now rewrite nth_overflow.
Qed.

(** fewer entries; new empty slots only where every group with them has one already *)
Lemma gpaths_less t t' : length t' = length t ->
  (forall p k v, nth_error t' p = Some (Full k v) -> exists v', nth_error t p = Some (Full k v')) ->
  (forall q b, q < length t -> In b (group (length t) q) -> g_is_empty t' b = true ->
     exists b', In b' (group (length t) q) /\ g_is_empty t b' = true) -> gpaths t -> gpaths t'.
Proof.
  intros Le F Em Pa p k v N. destruct (F _ _ _ N) as [v' N'].
  destruct (Pa _ _ _ N') as (i & I1 & I2 & I3). exists i. rewrite Le. repeat split; auto.
  intros j b J Ib. destruct (g_is_empty t' b) eqn:X; auto.
  destruct (Em _ _ (gpos_in W (hash k) j (Nat.le_lt_trans 0 i _ (Nat.le_0_l i) I1)) Ib X) as (b' & B1 & B2).
  rewrite (I3 j b') in B2; auto.
Qed.

Lemma Rg_set t m k v : Rg t m -> Rg (g_set eqb hash W k v t) (hm_set eqb k v m).
Proof.
  intros R. pose proof R as [(Wf & Pa & P2 & Sp) Q].
  assert (X : Rg (g_set eqb hash W k v t) (hm_set eqb k v (entries t))).
  2:{ eapply Rg_perm; eauto. now apply set_perm. }
  unfold g_set. destruct (g_find eqb hash W k t) as [p|] eqn:F.
  - destruct (seek_some _ _ _ _ _ F) as (k' & v' & N & Q'). apply nth_full in N as N'. rewrite N'.
    destruct (write_split _ _ N) as (l1 & l2 & Ht & _ & Wr).
    assert (En : entries t = entries l1 ++ (k', v') :: entries l2) by (rewrite Ht, entries_app; reflexivity).
    assert (En' : entries (write t p (Full k' v)) = entries l1 ++ (k', v) :: entries l2)
      by (rewrite Wr, entries_app; reflexivity).
    assert (S : hm_set eqb k v (entries t) = entries (write t p (Full k' v))).
    { rewrite En, En'. apply set_mid; auto. now rewrite <- En. }
    rewrite S. split; auto. split; [|split; [|split]].
    + rewrite <- S. now apply wf_set.
    + apply (@gpaths_less t); auto.
      * apply length_write.
      * intros q k2 v2 H. apply nth_write in H. destruct H as [[-> H]|[_ H]]; eauto. injection H as -> ->. eauto.
      * intros q b Hq Ib H. apply is_empty_write in H; [|apply nth_error_Some; congruence].
        destruct H as [[_ H]|H]; [discriminate|eauto].
    + now rewrite length_write.
    + unfold spare in *. rewrite length_write. destruct (write_counts _ _ (Full k' v) N) as [C1 C2]. cbn in C1, C2. lia.
  - assert (S : hm_set eqb k v (entries t) = entries t).
    { rewrite set_is_map by auto. apply gfind_none in F; [|apply R]. rewrite entry_of_none in F. revert F.
      generalize (entries t). induction l as [|e l IH]; simpl; auto. intros F.
      rewrite (F e (or_introl eq_refl)). f_equal. auto. }
    rewrite S. split; auto. apply R.
Qed.

(** ** erasing *)
Lemma group_len n q : length (group n q) = W.
Proof. unfold g_group. now rewrite map_length, seq_length. Qed.

Lemma nth_group n q j : j < W -> nth j (group n q) None = g_byte W n (q + j).
Proof.
  intros J. unfold g_group. rewrite (nth_indep _ None (g_byte W n (q + 0))) by now rewrite map_length, seq_length.
  rewrite (map_nth (fun j => g_byte W n (q + j)) (seq 0 W) 0 j), seq_nth; auto.
Qed.

(** the slot may become EMPTY: every group with it has an EMPTY byte *)
Lemma erase_safe t p q : p < length t -> q < length t ->
  (W <=? run (fun b => negb (g_is_empty t b)) (rev (group (length t) ((p + W * (length t - 1)) mod length t))) +
         run (fun b => negb (g_is_empty t b)) (group (length t) p)) = false ->
  In (Some p) (group (length t) q) -> exists b, In b (group (length t) q) /\ g_is_empty t b = true.
Proof.
  intros Hp Hq Lt I. apply Nat.leb_gt in Lt. pose proof (W_pos W2) as WP. destruct (Nat.lt_ge_cases (length t) W) as [Sm|La].
  { exists None. split; [now apply group_small_spare|reflexivity]. }
  set (n := length t) in *. destruct (existsb (g_is_empty t) (group n q)) eqn:X.
  { apply existsb_exists in X. exact X. }
  exfalso. assert (NE : forall j, j < W -> g_is_empty t (Some ((q + j) mod n)) = false).
  { intros j J. destruct (g_is_empty t (Some ((q + j) mod n))) eqn:Y; auto.
    assert (Z : existsb (g_is_empty t) (group n q) = true); [|congruence].
    apply existsb_exists. exists (Some ((q + j) mod n)). split; auto. apply group_large; auto; [lia|]. exists j. auto. }
  apply group_large in I; auto; [|lia]. destruct I as (d & D & Ep).
  assert (By : forall x, g_byte W n x = Some (x mod n)).
  { intros x. unfold g_byte. destruct (Nat.ltb_spec n W); [lia|auto]. }
  assert (A : W - d <= run (fun b => negb (g_is_empty t b)) (group n p)).
  { apply run_prefix with None; [rewrite group_len; lia|]. intros j J. rewrite nth_group by lia. rewrite By.
    rewrite Ep, Nat.add_mod_idemp_l by lia. rewrite <- Nat.add_assoc, NE by lia. reflexivity. }
  assert (B : d <= run (fun b => negb (g_is_empty t b)) (rev (group n ((p + W * (n - 1)) mod n)))).
  { apply run_prefix with None; [rewrite rev_length, group_len; lia|]. intros j J.
    rewrite rev_nth by (rewrite group_len; lia). rewrite group_len, nth_group by lia. rewrite By.
    rewrite Nat.add_mod_idemp_l by lia. rewrite Ep.
    replace ((q + d) mod n + W * (n - 1) + (W - S j)) with ((q + d) mod n + (W * (n - 1) + (W - S j))) by lia.
    rewrite Nat.add_mod_idemp_l by lia.
    replace (q + d + (W * (n - 1) + (W - S j))) with (q + (d - S j) + W * n) by nia.
    rewrite Nat.mod_add, NE by lia. reflexivity. }
  lia.
Qed.

Lemma erase_ok t p k v : gok t -> nth_error t p = Some (Full k v) -> gok (g_erase W p t) /\
  length (g_erase W p t) = length t /\
  exists l1 l2, t = l1 ++ Full k v :: l2 /\ length l1 = p /\ exists s, ht_slot s = [] /\ g_erase W p t = l1 ++ s :: l2.
Proof.
  intros (Wf & Pa & P2 & Sp) N. destruct (write_split _ _ N) as (l1 & l2 & Ht & Lp & Wr).
  assert (Hp : p < length t) by (apply nth_error_Some; congruence).
  unfold g_erase. set (c := W <=? _). set (s := if c then Deleted else Empty).
  assert (S0 : ht_slot s = []) by (unfold s; destruct c; reflexivity).
  split; [|split; [apply length_write|]].
  2:{ exists l1, l2. split; auto. split; auto. exists s. auto. }
  assert (En : entries t = entries l1 ++ (k, v) :: entries l2) by (rewrite Ht, entries_app; reflexivity).
  assert (En' : entries (write t p s) = entries l1 ++ entries l2).
  { rewrite Wr, entries_app. f_equal. change (ht_slot s ++ entries l2 = entries l2). now rewrite S0. }
  split; [|split; [|split]].
  - rewrite En'. rewrite En in Wf. apply (wf_perm L (Permutation_sym (Permutation_middle _ _ _))) in Wf.
    now inversion Wf.
  - apply (@gpaths_less t); auto.
    + apply length_write.
    + intros q k2 v2 H. apply nth_write in H. destruct H as [[-> H]|[_ H]]; eauto. unfold s in H. destruct c; discriminate.
    + intros q b Hq Ib H. apply is_empty_write in H; auto. destruct H as [[-> H]|H]; [|eauto].
      unfold s in H. destruct c eqn:C; [discriminate|]. exact (@erase_safe t p q Hp Hq C Ib).
  - now rewrite length_write.
  - unfold spare in *. rewrite length_write. destruct (write_counts _ _ s N) as [C1 C2]. rewrite S0 in C1. cbn in C1, C2.
    assert (slot_marks s <= 1) by (unfold s; destruct c; cbn; lia). lia.
Qed.
End GT.
