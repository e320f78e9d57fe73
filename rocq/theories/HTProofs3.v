(** Comparisons made by lookups in hash tables. *)
From Coq Require Import Permutation NArith.
From Verif Require Import Base HMModel HMProofs HTModel HTModel2 HTProofs.
Set Implicit Arguments.

Section Asks.
Variables K V : Type.
Variable eqb : K -> K -> bool.
Variable hash : K -> N.
Variable P : scheme.
Hypothesis L : eq_laws eqb.
Hypothesis HH : forall a b, eqb a b = true -> hash a = hash b.
Hypothesis PL : scheme_laws P.
Implicit Types (t : table K V) (k : K).

(** the keys in slot [p] *)
Definition at_slot t (p : nat) : list K := match nth_error t p with Some (Full k _) => [k] | _ => [] end.

(** the keys met by the probe sequence of a hash value *)
Definition met (h : N) t (i n : nat) : list K := flat_map (fun j => at_slot t (probe P h (length t) j)) (seq i n).

Lemma at_all t : flat_map (at_slot t) (seq 0 (length t)) = map fst (ht_entries t).
Proof.
  assert (G : forall t2 t1, flat_map (at_slot (t1 ++ t2)) (seq (length t1) (length t2)) = map fst (ht_entries t2)).
  { induction t2 as [|s t2 IH]; intros t1; cbn [length seq]; [reflexivity|]. cbn [flat_map].
    change (ht_entries (s :: t2)) with (ht_slot s ++ ht_entries t2). rewrite map_app. f_equal.
    - unfold at_slot. rewrite nth_error_app2 by lia. rewrite Nat.sub_diag. cbn. now destruct s.
    - rewrite <- (IH (t1 ++ [s])). rewrite app_length, <- app_assoc. cbn. now rewrite Nat.add_1_r. }
  exact (G t []).
Qed.

Lemma probe_perm h n : Permutation (map (probe P h n) (seq 0 n)) (seq 0 n).
Proof.
  apply Permutation_sym. apply NoDup_Permutation_bis.
  - apply seq_NoDup.
  - now rewrite map_length.
  - intros p H. apply in_seq in H. destruct (probe_all PL h (proj2 H)) as (i & I & <-). apply in_map, in_seq. lia.
Qed.

Lemma flat_map_perm {A B} (f : A -> list B) l l' : Permutation l l' -> Permutation (flat_map f l) (flat_map f l').
Proof.
  induction 1; cbn; auto.
  - now apply Permutation_app_head.
  - rewrite !app_assoc. apply Permutation_app_tail, Permutation_app_comm.
  - eapply Permutation_trans; eauto.
Qed.

Lemma met_all h t : Permutation (met h t 0 (length t)) (map fst (ht_entries t)).
Proof.
  rewrite <- at_all. unfold met.
  assert (X : flat_map (fun j => at_slot t (probe P h (length t) j)) (seq 0 (length t)) =
    flat_map (at_slot t) (map (probe P h (length t)) (seq 0 (length t)))).
  { generalize (seq 0 (length t)). induction l; cbn; congruence. }
  rewrite X. apply flat_map_perm, probe_perm.
Qed.

Lemma probe_inj h n i j : i < n -> j < n -> probe P h n i = probe P h n j -> i = j.
Proof.
  intros I J Q.
  assert (N : NoDup (map (probe P h n) (seq 0 n))).
  { eapply Permutation_NoDup; [apply Permutation_sym, probe_perm|apply seq_NoDup]. }
  assert (X : forall i, i < n -> nth i (map (probe P h n) (seq 0 n)) (probe P h n 0) = probe P h n i).
  { intros k Hk. rewrite (map_nth (probe P h n)). now rewrite seq_nth. }
  apply (proj1 (NoDup_nth _ (probe P h n 0)) N); try (rewrite map_length, seq_length; auto; fail).
  now rewrite !X.
Qed.

(** a lookup compares keys in the order they are met *)
Lemma asks_prefix k t i n : exists l, met (hash k) t i n = ht_asks_from eqb hash P k t i n ++ l.
Proof.
  revert i. induction n as [|n IH]; intros i; [exists []; reflexivity|]. unfold met. cbn [seq flat_map ht_asks_from].
  destruct (IH (S i)) as [l H]. unfold met in H. rewrite H. unfold at_slot at 1.
  destruct (nth_error t (probe P (hash k) (length t) i)) as [[| |k' v]|]; cbn; eauto.
  destruct (eqb k k'); cbn; eauto.
Qed.

Lemma asks_le k t : length (ht_asks eqb hash P k t) <= ht_len t.
Proof.
  destruct (asks_prefix k t 0 (length t)) as [l H]. pose proof (Permutation_length (met_all (hash k) t)) as Q.
  rewrite H, app_length, map_length in Q. unfold ht_asks, ht_len. lia.
Qed.

(** no key is compared twice and all are stored ones *)
Lemma asks_sub k t : exists l, Permutation (ht_asks eqb hash P k t ++ l) (map fst (ht_entries t)).
Proof.
  destruct (asks_prefix k t 0 (length t)) as [l H]. exists l. unfold ht_asks. rewrite <- H. apply met_all.
Qed.

(** an absent key is compared with all keys of its hash value *)
Lemma asks_same k t : ok eqb hash P t -> hm_entry_of eqb k (ht_entries t) = None ->
  Permutation (filter (fun k' => N.eqb (hash k') (hash k)) (ht_asks eqb hash P k t))
              (filter (fun k' => N.eqb (hash k') (hash k)) (map fst (ht_entries t))).
Proof.
  intros [W Pa] Ab. eapply Permutation_trans; [|apply filter_perm, (met_all (hash k))].
  assert (G : forall n i, i + n = length t ->
    filter (fun k' => N.eqb (hash k') (hash k)) (ht_asks_from eqb hash P k t i n) =
    filter (fun k' => N.eqb (hash k') (hash k)) (met (hash k) t i n)).
  2:{ unfold ht_asks. rewrite (G (length t) 0) by lia. apply Permutation_refl. }
  induction n as [|n IH]; intros i Hi; [reflexivity|]. unfold met. cbn [seq flat_map ht_asks_from].
  rewrite filter_app. fold (met (hash k) t (S i) n). rewrite <- (IH (S i)) by lia.
  unfold at_slot. destruct (nth_error t (probe P (hash k) (length t) i)) as [[| |k' v]|] eqn:N.
  - cbn. rewrite (IH (S i)) by lia. symmetry.
    assert (Z : forall l, (forall a, In a l -> hash a <> hash k) -> filter (fun k' => N.eqb (hash k') (hash k)) l = []).
    { induction l as [|a l IHl]; cbn; intros H; auto. destruct (N.eqb_spec (hash a) (hash k)) as [X|X].
      - exfalso. eapply H; eauto.
      - apply IHl. auto. }
    apply Z. intros a Ha Q. unfold met in Ha. apply in_flat_map in Ha. destruct Ha as (j & Hj & Ha). apply in_seq in Hj.
    unfold at_slot in Ha. destruct (nth_error t (probe P (hash k) (length t) j)) as [[| |k2 v2]|] eqn:N2; try contradiction.
    destruct Ha as [->|[]]. destruct (Pa _ _ _ N2) as (j' & J1 & J2 & J3). rewrite Q in J2, J3.
    apply probe_inj in J2; try lia. subst j'. apply (J3 i); [lia|exact N].
  - reflexivity.
  - assert (X : eqb k k' = false).
    { rewrite entry_of_none in Ab. apply (Ab (k', v)). apply entries_in. eauto. }
    rewrite X. cbn. destruct (N.eqb (hash k') (hash k)); reflexivity.
  - exfalso. apply nth_error_None in N. pose proof (probe_in PL (hash k) (n := length t) (i := i) ltac:(lia)). lia.
Qed.
(** A lookup that finds its key ends with it. *)
Lemma asks_from_found k t i n p : ht_seek eqb hash P k t i n = Some p ->
  exists k' v l, nth_error t p = Some (Full k' v) /\ ht_asks_from eqb hash P k t i n = l ++ [k'] /\
    eqb k k' = true /\ Forall (fun x => eqb k x = false) l.
Proof.
  revert i. induction n as [|n IH]; cbn; intros i; [discriminate|].
  destruct (nth_error t (probe P (hash k) (length t) i)) as [[| |k' v]|] eqn:F; try discriminate.
  - apply IH.
  - destruct (eqb k k') eqn:Q.
    + intros [= <-]. exists k', v, []. auto.
    + intros H. destruct (IH _ H) as (k2 & v2 & l & A & B & C & D). exists k2, v2, (k' :: l). rewrite B. auto.
Qed.

Lemma asks_found k t k' v : ht_entry_of eqb hash P k t = Some (k', v) ->
  exists l, ht_asks eqb hash P k t = l ++ [k'] /\ Forall (fun x => eqb k x = false) l.
Proof.
  unfold ht_entry_of, ht_find, ht_asks. destruct (ht_seek eqb hash P k t 0 (length t)) as [p|] eqn:S; [|discriminate].
  destruct (asks_from_found _ _ _ _ S) as (k2 & v2 & l & A & B & _ & D). rewrite A. intros [= -> ->]. eauto.
Qed.
End Asks.
