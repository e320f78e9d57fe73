(** Every call of hashbrown's table does what the specification says. *)
From Coq Require Import Permutation NArith.
From Verif Require Import Base HMModel HMProofs HTModel HTProofs GTModel GTSpec GTRun GTProofs GTProofs2 GTProofs3.
Set Implicit Arguments.

(** ** Consequences of the specification *)
Section Spec.
Variables K V : Type.
Variable eqb : K -> K -> bool.
Variable E : machine.
Hypothesis L : eq_laws eqb.
Implicit Types (f g : fmap K V) (l : list (K * V)).

Lemma lists_nodup f l : lists eqb f l -> NoDup l.
Proof.
  intros [D _]. induction D as [|e l F D IH]; constructor; auto. intros I. rewrite Forall_forall in F.
  specialize (F _ I). rewrite (eq_refl' L) in F. discriminate.
Qed.

Lemma lists_perm f g l l' : same f g -> lists eqb f l -> lists eqb g l' -> Permutation l l'.
Proof.
  intros S H H'. apply NoDup_Permutation; [eapply lists_nodup; eauto|eapply lists_nodup; eauto|].
  destruct H as [_ H], H' as [_ H']. intros e. split; intros I.
  - assert (X : f (fst e) = Some e) by (apply H; split; auto; apply (eq_refl' L)). rewrite S in X. now apply H' in X.
  - assert (X : g (fst e) = Some e) by (apply H'; split; auto; apply (eq_refl' L)). rewrite <- S in X. now apply H in X.
Qed.

Lemma lists_same f g l : same f g -> lists eqb f l -> lists eqb g l.
Proof. intros S [D H]. split; auto. intros k e. rewrite <- S. apply H. Qed.

Lemma fits_same f g n : same f g -> fits eqb E f n -> fits eqb E g n.
Proof. intros S (l & H & Le). exists l. split; auto. eapply lists_same; eauto. Qed.

Lemma fits_iff f l n : lists eqb f l -> fits eqb E f n <-> length l + n <= alloc_max E.
Proof.
  intros H. split; [|now exists l]. intros (l' & H' & Le).
  assert (Pe : Permutation l l') by (eapply lists_perm; eauto; now intros k). apply Permutation_length in Pe. lia.
Qed.

Lemma same_sym f g : same f g -> same g f.
Proof. intros S k. symmetry. apply S. Qed.

Lemma same_trans f g h : same f g -> same g h -> same f h.
Proof. intros S S' k. rewrite S. apply S'. Qed.

(** the specification allows one result *)
Lemma allowed_det c f g f' g' r r' : same f g -> allowed eqb E c f f' r -> allowed eqb E c g g' r' -> alike r r' /\ same f' g'.
Proof.
  intros S. pose proof (same_sym S) as S'.
  assert (Fi : forall n, fits eqb E f n <-> fits eqb E g n) by (split; apply fits_same; auto).
  assert (Up : forall k e, same (upd eqb f k e) (upd eqb g k e)).
  { intros k e x. unfold upd. destruct (eqb x k); auto. }
  destruct c; cbn [allowed]; try rewrite <- !S.
  - intros [A ->] [B ->]. split; [reflexivity|]. eauto using same_trans, same_sym.
  - intros (A & l & Hl & ->) (B & l' & Hl' & ->). split; [|eauto using same_trans, same_sym]. cbn.
    now rewrite (Permutation_length (lists_perm S Hl Hl')).
  - intros (A & l & Hl & ->) (B & l' & Hl' & ->). split; [|eauto using same_trans, same_sym]. cbn. exact (lists_perm S Hl Hl').
  - destruct (f k) as [[k' old]|].
    + intros [A ->] [B ->]. split; [reflexivity|]. eauto using same_trans, same_sym.
    + rewrite <- Fi. intros [(X & A & ->)|(X & A & ->)] [(Y & B & ->)|(Y & B & ->)]; try tauto;
        (split; [reflexivity|eauto using same_trans, same_sym]).
  - destruct (f k) as [[k' old]|].
    + intros [A ->] [B ->]. split; [reflexivity|]. eauto using same_trans, same_sym.
    + rewrite <- Fi. intros [(X & A & ->)|(X & A & ->)] [(Y & B & ->)|(Y & B & ->)]; try tauto;
        (split; [reflexivity|eauto using same_trans, same_sym]).
  - destruct (f k) as [[k' old]|]; intros [A ->] [B ->]; (split; [reflexivity|eauto using same_trans, same_sym]).
  - intros [A ->] [B ->]. split; [reflexivity|]. intros x. rewrite A, B. unfold without. destruct (eqb x k); auto.
  - intros [A ->] [B ->]. split; [reflexivity|]. intros x. rewrite A, B. unfold keep. now rewrite S.
  - intros (A & X) (B & Y). rewrite <- Fi in Y. split; [|eauto using same_trans, same_sym].
    destruct X as [(X & ->)|(X & ->)], Y as [(Y & ->)|(Y & ->)]; try tauto; reflexivity.
  - intros [A ->] [B ->]. split; [reflexivity|]. eauto using same_trans, same_sym.
Qed.

Lemma history_det cs f g f' g' rs rs' : same f g -> history eqb E cs f f' rs -> history eqb E cs g g' rs' ->
  Forall2 (@alike K V) rs rs' /\ same f' g'.
Proof.
  intros S H. revert g g' rs' S. induction H as [f f' A|c cs f f1 f2 r rs A H IH]; intros g g' rs' S H'.
  - inversion H'; subst. split; [constructor|]. eauto using same_trans, same_sym.
  - inversion H' as [|c' cs' g0 g1 g2 r' rs2 A' H2]; subst.
    destruct (@allowed_det c f g f1 g1 r r' S A A') as [A1 A2]. destruct (IH _ _ _ A2 H2) as [B1 B2]. split; [constructor|]; auto.
Qed.
End Spec.

Section Step.
Variables K V : Type.
Variable eqb : K -> K -> bool.
Variable hash : K -> N.
Variable W : nat.
Variable E : machine.
Hypothesis L : eq_laws eqb.
Hypothesis HH : forall a b, eqb a b = true -> hash a = hash b.
Hypothesis W2 : pow2 W.
Notation Rg := (@Rg K V eqb hash W).
Notation gok := (@gok K V eqb hash W).
Implicit Types (t : table K V) (m : hmap K V).
Notation sh m := (fun k => hm_entry_of eqb k m).

Lemma wf_lists m : hm_wf eqb m -> lists eqb (sh m) m.
Proof. intros Wf. split; auto. intros k e. now apply wf_iff. Qed.

Lemma fits_model m n : hm_wf eqb m -> fits eqb E (sh m) n <-> length m + n <= alloc_max E.
Proof. intros Wf. apply (fits_iff _ L), wf_lists, Wf. Qed.

Lemma set_upd m k k' v v' : hm_entry_of eqb k m = Some (k', v) -> same (sh (hm_set eqb k v' m)) (upd eqb (sh m) k (k', v')).
Proof. intros H x. rewrite (entry_of_set L). unfold upd. destruct (eqb x k); auto. now rewrite H. Qed.

Lemma vacant_upd m k v : same (sh (hm_insert_vacant k v m)) (upd eqb (sh m) k (k, v)).
Proof. intros x. unfold upd, hm_insert_vacant. cbn. now destruct (eqb x k). Qed.

(** on the list of entries *)
Lemma rel_step c t m t' r : Rg t m -> g_step eqb hash W E c t = (t', r) ->
  exists m', Rg t' m' /\ allowed eqb E c (sh m) (sh m') r.
Proof.
  intros R. pose proof (Rg_wf L R) as Wf. assert (Sa : same (sh m) (sh m)) by now intros k.
  destruct c; cbn [g_step allowed].
  - intros [= <- <-]. exists m. split; auto. split; auto. now rewrite (Rg_entry_of L HH k R).
  - intros [= <- <-]. exists m. split; auto. split; auto. exists m. split; [now apply wf_lists|]. now rewrite (Rg_len R).
  - intros [= <- <-]. exists m. split; auto. split; auto. exists (ht_entries t). split; auto.
    eapply lists_same; [|apply wf_lists; apply R]. destruct R as [_ Q]. intros k. symmetry. apply entry_of_perm; auto. 
    eapply wf_perm; [exact L|apply Permutation_sym; exact Q|exact Wf].
  - destruct (g_insert eqb hash W E k v t) as [t1 o] eqn:G. intros [= <- <-].
    destruct (Rg_insert E L HH W2 _ _ R G) as (m' & H & R'). exists m'. split; auto. revert H. unfold hm_insert, hm_entry, hm_get.
    destruct (hm_entry_of eqb k m) as [[k' old]|] eqn:F; cbn [option_map snd].
    + intros [= <- <-]. split; [now apply set_upd with old|reflexivity].
    + rewrite (fits_model _ Wf). unfold hm_reserve. destruct (Nat.leb_spec (length m + 1) (alloc_max E)); cbn; intros [= <- <-].
      * left. split; auto. split; [apply vacant_upd|reflexivity].
      * right. split; [lia|]. split; auto.
  - unfold g_upsert. destruct (g_entry eqb hash W E k t) as [t1 o] eqn:G.
    destruct (Rg_entry E L HH W2 _ R G) as (R1 & Eo & Le). revert Eo Le. unfold hm_entry, hm_get.
    destruct (hm_entry_of eqb k m) as [[k' old]|] eqn:F; cbn [option_map snd].
    + intros -> _ [= <- <-]. exists (hm_set eqb k (up old) m). split; [now apply Rg_set|]. split; [now apply set_upd with old|reflexivity].
    + pose proof (fits_model 1 Wf) as FM. unfold hm_reserve.
      destruct (Nat.leb_spec (length m + 1) (alloc_max E)); cbn [omap obind]; intros -> Le [= <- <-].
      * destruct (Le eq_refl) as [Lt _]. exists (hm_insert_vacant k (up d) m). split; [now apply Rg_put|].
        left. split; [now apply FM|]. split; [apply vacant_upd|reflexivity].
      * exists m. split; auto. right. split; [rewrite FM; lia|]. split; auto.
  - intros [= <- <-]. rewrite (Rg_get L HH k R). unfold hm_get.
    destruct (hm_entry_of eqb k m) as [[k' old]|] eqn:F; cbn [option_map snd].
    + exists (hm_set eqb k (up old) m). split; [now apply Rg_set|]. split; [now apply set_upd with old|reflexivity].
    + exists m. auto.
  - intros [= <- <-]. exists (hm_remove eqb k m). split; [now apply Rg_remove|]. split.
    + intros x. rewrite (entry_of_remove L); auto.
    + now rewrite (Rg_get L HH k R).
  - intros [= <- <-]. exists (hm_retain p m). split; [now apply Rg_retain|]. split; auto.
    intros x. unfold hm_retain. rewrite (entry_of_filter L); auto. unfold keep. destruct (hm_entry_of eqb x m) as [[k' v']|]; auto.
  - destruct (g_reserve hash W E n t) as [t1 o] eqn:G. intros [= <- <-].
    destruct (Rg_reserve E L W2 _ R G) as (R1 & -> & _). exists m. split; auto. split; auto. rewrite (fits_model _ Wf). unfold hm_reserve.
    destruct (Nat.leb_spec (length m + n) (alloc_max E)); cbn; [left|right]; split; auto. lia.
  - intros [= <- <-]. exists []. destruct R as [(_ & _ & P2 & _) _]. split; [now apply Rg_clear|]. split; auto. now intros x.
Qed.

Lemma rel_run cs t m t' rs : Rg t m -> g_run eqb hash W E cs t = (t', rs) ->
  exists m', Rg t' m' /\ history eqb E cs (sh m) (sh m') rs.
Proof.
  revert t m rs. induction cs as [|c cs IH]; cbn; intros t m rs R.
  - intros [= <- <-]. exists m. split; auto. constructor. now intros k.
  - destruct (g_step eqb hash W E c t) as [t1 r] eqn:S. destruct (g_run eqb hash W E cs t1) as [t2 rs2] eqn:T.
    intros [= <- <-]. destruct (rel_step _ R S) as (m1 & R1 & A). destruct (IH _ _ _ R1 T) as (m2 & R2 & H).
    exists m2. split; auto. econstructor; eauto.
Qed.
End Step.
