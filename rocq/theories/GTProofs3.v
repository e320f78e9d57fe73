(** hashbrown's table follows the list of its entries: putting, growing, erasing. *)
From Coq Require Import Permutation NArith.
From Verif Require Import Base HMModel HMProofs HTModel HTProofs GTModel GTProofs GTProofs2.
Set Implicit Arguments.

(** ** numbers of slots *)
Lemma cap_lt n : 0 < n -> g_cap n < n.
Proof.
  unfold g_cap. destruct (Nat.leb_spec n 8); [lia|]. intros _. pose proof (Nat.mul_div_le n 8 ltac:(lia)).
  pose proof (Nat.div_str_pos n 8 ltac:(lia)). lia.
Qed.

Lemma pow_pow2 p x f : pow2 p -> pow2 (g_pow p x f).
Proof.
  revert p. induction f as [|f IH]; cbn [g_pow]; intros p P; auto. destruct (x <=? p); auto. apply IH.
  destruct P as [a ->]. now exists (S a).
Qed.

Lemma pow_ge p x f : 0 < p -> x <= p + f -> x <= g_pow p x f.
Proof.
  revert p. induction f as [|f IH]; cbn [g_pow]; intros p P H; [lia|].
  destruct (Nat.leb_spec x p); auto. apply IH; lia.
Qed.

Lemma buckets_pow2 w : pow2 (g_buckets w).
Proof.
  unfold g_buckets. destruct (w <? 4); [now exists 2|]. destruct (w <? 8); [now exists 3|]. apply pow_pow2. now exists 0.
Qed.

Lemma pow2_eighth n : pow2 n -> 8 < n -> n = 8 * (n / 8).
Proof.
  intros [a ->] H. destruct (Nat.lt_ge_cases a 3) as [A|A].
  - assert (2 ^ a <= 2 ^ 3) by (apply Nat.pow_le_mono_r; lia). cbn in *. lia.
  - replace a with (3 + (a - 3)) by lia. rewrite Nat.pow_add_r. change (2 ^ 3) with 8.
    rewrite (Nat.mul_comm 8 (2 ^ (a - 3))) at 2. now rewrite Nat.div_mul by lia.
Qed.

Lemma buckets_enough w : w <= g_cap (g_buckets w).
Proof.
  pose proof (buckets_pow2 w) as P2. unfold g_buckets in *. destruct (Nat.ltb_spec w 4); [cbn; lia|].
  destruct (Nat.ltb_spec w 8); [cbn; lia|]. set (n := g_pow 1 (w * 8 / 7) (w * 8 / 7)) in *.
  assert (Ge : w * 8 / 7 <= n) by (apply pow_ge; lia).
  pose proof (Nat.div_mod (w * 8) 7 ltac:(lia)) as D. pose proof (Nat.mod_upper_bound (w * 8) 7 ltac:(lia)) as M.
  assert (8 < n) by lia. pose proof (pow2_eighth P2 ltac:(lia)) as E8. unfold g_cap.
  destruct (Nat.leb_spec n 8); [lia|]. lia.
Qed.

Section GT.
Variables K V : Type.
Variable eqb : K -> K -> bool.
Variable hash : K -> N.
Variable W : nat.
Variable E : machine.
Hypothesis L : eq_laws eqb.
Hypothesis HH : forall a b, eqb a b = true -> hash a = hash b.
Hypothesis W2 : pow2 W.
Notation table := (table K V).
Implicit Types (t : table) (m : hmap K V) (k : K).
Notation entries := (@ht_entries K V).
Notation group := (g_group W).
Notation gok := (@gok K V eqb hash W).
Notation Rg := (@Rg K V eqb hash W).

(** ** putting a new entry *)
Lemma special_at t p : p < length t -> g_is_special t (Some p) = true ->
  exists s, nth_error t p = Some s /\ ht_slot s = [].
Proof.
  intros Lt H. exists (nth p t Empty). split; [now apply nth_error_nth'|]. unfold g_is_special, g_at in H.
  destruct (nth p t Empty); auto. discriminate.
Qed.

Lemma gfree_some h t i f p : 0 < length t -> g_free W t (gpos W h (length t) i) (W * i) f = Some p ->
  (forall j b, j < i -> In b (group (length t) (gpos W h (length t) j)) -> g_is_empty t b = false) -> i + f <= length t ->
  exists q, q < length t /\ In (Some p) (group (length t) (gpos W h (length t) q)) /\
    (exists s, nth_error t p = Some s /\ ht_slot s = []) /\
    (forall j b, j < q -> In b (group (length t) (gpos W h (length t) j)) -> g_is_empty t b = false).
Proof.
  intros Hn. revert i. induction f as [|f IH]; cbn [g_free]; intros i H Bef Le; [discriminate|].
  destruct (find (g_is_special t) (group (length t) (gpos W h (length t) i))) as [[p'|]|] eqn:F.
  - injection H as ->. apply find_some in F. destruct F as [F1 F2]. exists i. repeat split; auto; [lia|].
    apply special_at; auto. eapply group_in; [|exact F1]. now apply gpos_in.
  - apply find_some in F. destruct F as [F1 _]. apply find_some in H. destruct H as [H1 H2]. apply in_seq in H1.
    destruct (Nat.lt_ge_cases (length t) W) as [Sm|La]; [|now apply group_large_real in F1].
    exists i. repeat split; auto; [lia| |].
    + apply group_small; auto; [now apply gpos_in|lia].
    + apply special_at; auto. lia.
  - change ((gpos W h (length t) i + (W * i + W)) mod length t) with (gpos W h (length t) (S i)) in H.
    rewrite <- Nat.mul_succ_r in H. apply (IH (S i)); auto; [|lia]. intros j b J B.
    destruct (Nat.eq_dec j i) as [->|D]; [|apply (Bef j); auto; lia].
    pose proof (List.find_none _ _ F _ B) as X. unfold g_is_special, g_is_empty in *. destruct (g_at t b); auto; discriminate.
Qed.

Lemma gfree_none h t i f : 0 < length t -> g_free W t (gpos W h (length t) i) (W * i) f = None ->
  forall j p, i <= j -> j < i + f -> In (Some p) (group (length t) (gpos W h (length t) j)) ->
  exists k v, nth_error t p = Some (Full k v).
Proof.
  intros Hn. revert i. induction f as [|f IH]; cbn [g_free]; intros i H j p J1 J2 Ip; [lia|].
  destruct (find (g_is_special t) (group (length t) (gpos W h (length t) i))) as [[p'|]|] eqn:F; [discriminate| |].
  - assert (Lt : p < length t) by (eapply group_in; [|exact Ip]; now apply gpos_in).
    pose proof (List.find_none _ _ H p ltac:(apply in_seq; lia)) as X. unfold g_is_special, g_at in X.
    destruct (nth p t Empty) as [| |k v] eqn:N; try discriminate. apply nth_full in N. eauto.
  - destruct (Nat.eq_dec j i) as [->|D].
    + pose proof (List.find_none _ _ F _ Ip) as X. unfold g_is_special, g_at in X.
      destruct (nth p t Empty) as [| |k v] eqn:N; try discriminate. apply nth_full in N. eauto.
    + change ((gpos W h (length t) i + (W * i + W)) mod length t) with (gpos W h (length t) (S i)) in H.
      rewrite <- Nat.mul_succ_r in H. apply (IH (S i) H j); auto; lia.
Qed.

Lemma gfree_exists h t : pow2 (length t) -> length (entries t) < length t ->
  exists p, g_free W t (g_start h (length t)) 0 (length t) = Some p.
Proof.
  intros P2 Lt. destruct (g_free W t (g_start h (length t)) 0 (length t)) as [p|] eqn:F; [eauto|]. exfalso.
  assert (X : length (entries t) = length t); [|lia]. apply all_full. intros p Hp.
  destruct (cover W2 h P2 Hp) as (i & I & Ip).
  pose proof (@gfree_none h t 0 (length t) ltac:(lia)) as G. rewrite Nat.mul_0_r in G. apply (G F i); auto; lia.
Qed.

Lemma length_gput k v t : length (g_put hash W k v t) = length t.
Proof. unfold g_put. destruct (g_free _ _ _ _ _); auto. apply length_write. Qed.

(** entries and marks after a put: at most one more *)
Lemma Rg_put t m k v : Rg t m -> length m + ht_marks t < g_cap (length t) -> hm_entry_of eqb k m = None ->
  Rg (g_put hash W k v t) (hm_insert_vacant k v m) /\ ht_marks (g_put hash W k v t) <= ht_marks t.
Proof.
  intros R Lt Ab. pose proof R as [(Wf & Pa & P2 & Sp) Q]. unfold hm_insert_vacant.
  pose proof (pow2_pos P2) as Hn. pose proof (cap_lt Hn) as CL.
  assert (Ab' : hm_entry_of eqb k (entries t) = None).
  { rewrite <- Ab. symmetry. apply entry_of_perm; auto. }
  assert (Lt' : length (entries t) < length t) by (rewrite (Permutation_length Q); lia).
  destruct (gfree_exists (hash k) t P2 Lt') as [p F]. unfold g_put. rewrite F.
  pose proof (@gfree_some (hash k) t 0 (length t) p Hn) as G. rewrite Nat.mul_0_r in G.
  destruct (G F ltac:(intros; lia) ltac:(lia)) as (q & Q2 & Q3 & (s & N & S0) & Q5). clear G.
  destruct (write_split _ _ N) as (l1 & l2 & Ht & _ & Wr).
  assert (En : entries t = entries l1 ++ entries l2).
  { rewrite Ht, entries_app. f_equal. change (ht_slot s ++ entries l2 = entries l2). now rewrite S0. }
  assert (En' : entries (write t p (Full k v)) = entries l1 ++ (k, v) :: entries l2)
    by (rewrite Wr, entries_app; reflexivity).
  assert (Pe : Permutation ((k, v) :: entries t) (entries (write t p (Full k v)))).
  { rewrite En, En'. apply Permutation_middle. }
  destruct (write_counts _ _ (Full k v) N) as [C1 C2]. rewrite S0 in C1. cbn in C1, C2.
  assert (Hp : p < length t) by (apply nth_error_Some; congruence).
  assert (NE : forall b, g_is_empty t b = false -> g_is_empty (write t p (Full k v)) b = false).
  { intros b B. destruct (g_is_empty (write t p (Full k v)) b) eqn:X; auto. apply is_empty_write in X; auto.
    destruct X as [[_ X]|X]; [discriminate|congruence]. }
  split; [|lia]. split; [split; [|split; [|split]]|].
  - eapply wf_perm; [exact L|exact Pe|]. now apply wf_cons.
  - intros p' k2 v2 H. rewrite !length_write. apply nth_write in H. destruct H as [[-> H]|[_ H]].
    + injection H as -> ->. exists q. repeat split; auto. intros j b J B. apply NE. eauto.
    + destruct (Pa _ _ _ H) as (i & I1 & I2 & I3). exists i. repeat split; auto.
      intros j b J B. apply NE. eauto.
  - now rewrite length_write.
  - unfold spare in *. rewrite length_write. rewrite (Rg_len R) in C1. lia.
  - eapply Permutation_trans; [apply Permutation_sym; exact Pe|]. now constructor.
Qed.

(** ** new arrays *)
Lemma blank_marks n : ht_marks (repeat (@Empty K V) n) = 0.
Proof. unfold ht_marks. induction n; simpl; auto. Qed.

Lemma Rg_blank n : pow2 n -> Rg (repeat Empty n) [].
Proof.
  intros P2. split; [split; [|split; [|split]]|].
  - rewrite blank_entries. constructor.
  - intros p k v H. apply nth_error_In, repeat_spec in H. discriminate.
  - now rewrite repeat_length.
  - unfold spare, ht_len. rewrite blank_entries, blank_marks. cbn. lia.
  - rewrite blank_entries. constructor.
Qed.

Lemma Rg_fold l t m : Rg t m -> hm_wf eqb (l ++ m) -> length l + length m + ht_marks t <= g_cap (length t) ->
  let t' := fold_left (fun t' e => g_put hash W (fst e) (snd e) t') l t in
  Rg t' (rev l ++ m) /\ length t' = length t /\ ht_marks t' <= ht_marks t.
Proof.
  revert t m; induction l as [|[k v] l IH]; cbn [fold_left length app rev fst snd]; intros t m R Wf Le; auto.
  inversion Wf as [|? ? F Wf2]; subst. rewrite Forall_forall in F.
  assert (Ab : hm_entry_of eqb k m = None).
  { apply entry_of_none. intros e I. apply (F e). apply in_or_app. auto. }
  destruct (@Rg_put t m k v R ltac:(lia) Ab) as [R1 M1]. unfold hm_insert_vacant in R1.
  destruct (IH _ _ R1) as (R2 & Le2 & M2).
  - eapply wf_perm; [exact L| |exact Wf]. simpl. apply Permutation_middle.
  - rewrite length_gput. cbn [length]. lia.
  - rewrite <- app_assoc. cbn [app]. split; auto. split; [now rewrite Le2, length_gput|lia].
Qed.

Lemma Rg_rehash n t m : Rg t m -> pow2 n -> length m <= g_cap n ->
  Rg (g_rehash hash W n t) m /\ length (g_rehash hash W n t) = n /\ ht_marks (g_rehash hash W n t) = 0.
Proof.
  intros R P2 Le. pose proof R as [(Wf & Pa & _) Q]. unfold g_rehash.
  destruct (@Rg_fold (entries t) (repeat Empty n) [] (Rg_blank P2)) as (R1 & L1 & M1).
  - now rewrite app_nil_r.
  - rewrite repeat_length, blank_marks, (Permutation_length Q). cbn [length]. lia.
  - rewrite repeat_length in L1. rewrite blank_marks in M1. split; [|split; [auto|lia]].
    eapply Rg_perm; [exact R1|]. rewrite app_nil_r.
    eapply Permutation_trans; [apply Permutation_sym, Permutation_rev|exact Q].
Qed.

Lemma Rg_reserve n t m t' o : Rg t m -> g_reserve hash W E n t = (t', o) ->
  Rg t' m /\ o = hm_reserve E n m /\ (o = Ret tt -> length m + n + ht_marks t' <= g_cap (length t')).
Proof.
  unfold g_reserve, hm_reserve. intros R. rewrite (Rg_len R). destruct (length m + n <=? alloc_max E) eqn:A; intros H.
  - apply pair_equal_spec in H. destruct H as [H <-]. pose proof R as [(_ & _ & P2 & Sp) _]. unfold spare in Sp. rewrite (Rg_len R) in Sp.
    destruct (Nat.leb_spec n (g_cap (length t) - (length m + ht_marks t))) as [Ro|Ro]; [|destruct (Nat.leb_spec (length m + n) (g_cap (length t) / 2)) as [Ha|Ha]]; subst t'.
    + split; auto. split; auto. intros _. lia.
    + assert (length m + n <= g_cap (length t)) by (pose proof (Nat.div_le_upper_bound (g_cap (length t)) 2 (g_cap (length t)) ltac:(lia) ltac:(lia)); lia).
      destruct (@Rg_rehash (length t) t m R P2 ltac:(lia)) as (R1 & L1 & M1). rewrite L1, M1. split; auto. split; auto. intros _. lia.
    + set (w := Nat.max (length m + n) (g_cap (length t) + 1)). pose proof (buckets_enough w) as B.
      destruct (@Rg_rehash (g_buckets w) t m R (buckets_pow2 w) ltac:(lia)) as (R1 & L1 & M1). rewrite L1, M1.
      split; auto. split; auto. intros _. lia.
  - injection H as <- <-. split; auto. split; auto. discriminate.
Qed.

Lemma Rg_entry k t m t' o : Rg t m -> g_entry eqb hash W E k t = (t', o) ->
  Rg t' m /\ o = hm_entry eqb E k m /\ (o = Ret Vacant -> length m + ht_marks t' < g_cap (length t') /\ hm_entry_of eqb k m = None).
Proof.
  unfold g_entry, hm_entry. intros R. rewrite (Rg_get L HH k R). unfold hm_get.
  destruct (hm_entry_of eqb k m) as [[k' v]|] eqn:F; cbn [option_map snd]; intros H.
  - injection H as <- <-. split; auto. split; auto. discriminate.
  - destruct (g_reserve hash W E 1 t) as [t1 o1] eqn:S. injection H as <- <-.
    destruct (Rg_reserve _ R S) as (R1 & -> & Le). split; auto. unfold hm_reserve in *.
    destruct (length m + 1 <=? alloc_max E); cbn; split; auto; [|discriminate]. intros _. specialize (Le eq_refl). split; auto. lia.
Qed.

(** ** erasing *)
Lemma Rg_remove t m k : Rg t m -> Rg (g_remove eqb hash W k t) (hm_remove eqb k m).
Proof.
  intros R. pose proof R as [O Q]. pose proof O as [Wf _].
  assert (X : Rg (g_remove eqb hash W k t) (hm_remove eqb k (entries t))).
  2:{ eapply Rg_perm; eauto. now apply remove_perm. }
  unfold g_remove. destruct (g_find eqb hash W k t) as [p|] eqn:F.
  - destruct (seek_some _ _ _ _ _ _ _ _ F) as (k' & v' & N & Q').
    destruct (erase_ok L W2 _ O N) as (O' & _ & l1 & l2 & Ht & _ & s & S0 & Er). split; auto. rewrite Er.
    assert (En : entries t = entries l1 ++ (k', v') :: entries l2) by (rewrite Ht, entries_app; reflexivity).
    rewrite En in *. rewrite entries_app. rewrite remove_mid; auto.
    change (entries (s :: l2)) with (ht_slot s ++ entries l2). rewrite S0. apply Permutation_refl.
  - assert (S : hm_remove eqb k (entries t) = entries t).
    { rewrite remove_is_filter by auto. apply gfind_none in F; auto. rewrite entry_of_none in F. revert F.
      generalize (entries t). induction l as [|e l IH]; simpl; auto. intros F.
      rewrite (F e (or_introl eq_refl)). simpl. f_equal. auto. }
    rewrite S. split; auto.
Qed.

(** retain: the slots from [s] on are still to be looked at *)
Lemma retain_fold (f : K -> V -> bool) n s t l1 l2 : t = l1 ++ l2 -> length l1 = s -> length l2 = n -> gok t ->
  Forall (fun e => f (fst e) (snd e) = true) (entries l1) ->
  let t' := fold_left (fun t' p => match nth p t' Empty with Full k v => if f k v then t' else g_erase W p t' | _ => t' end) (seq s n) t in
  gok t' /\ entries t' = entries l1 ++ filter (fun e => f (fst e) (snd e)) (entries l2).
Proof.
  revert s t l1 l2. induction n as [|n IH]; intros s t l1 l2 Ht L1 L2 O F; cbn [seq fold_left].
  - destruct l2; [|discriminate]. rewrite app_nil_r in *. subst. auto.
  - destruct l2 as [|x l2]; [discriminate|]. injection L2 as L2.
    assert (N : nth_error t s = Some x) by (rewrite Ht, nth_error_app2, L1, Nat.sub_diag; [reflexivity|lia]).
    rewrite (nth_error_nth _ _ Empty N).
    assert (Step : forall y t2, t2 = l1 ++ y :: l2 -> gok t2 -> Forall (fun e => f (fst e) (snd e) = true) (ht_slot y) ->
      ht_slot y = filter (fun e => f (fst e) (snd e)) (ht_slot x) ->
      gok (fold_left (fun t' p => match nth p t' Empty with Full k v => if f k v then t' else g_erase W p t' | _ => t' end) (seq (S s) n) t2) /\
      entries (fold_left (fun t' p => match nth p t' Empty with Full k v => if f k v then t' else g_erase W p t' | _ => t' end) (seq (S s) n) t2) =
        entries l1 ++ filter (fun e => f (fst e) (snd e)) (entries (x :: l2))).
    { intros y t2 H2 O2 Fy Sy. destruct (IH (S s) t2 (l1 ++ [y]) l2) as [A B]; auto.
      - now rewrite <- app_assoc.
      - rewrite app_length. cbn. lia.
      - rewrite entries_app. apply Forall_app. split; auto. unfold ht_entries. cbn. now rewrite app_nil_r.
      - split; auto. rewrite B, entries_app, <- app_assoc. f_equal.
        change (entries (x :: l2)) with (ht_slot x ++ entries l2). rewrite filter_app, <- Sy. f_equal.
        unfold ht_entries. cbn. apply app_nil_r. }
    destruct x as [| |k v].
    + apply Step with Empty; auto. constructor.
    + apply Step with Deleted; auto. constructor.
    + destruct (f k v) eqn:Fk.
      * apply Step with (Full k v); auto; cbn; [constructor; auto|now rewrite Fk].
      * destruct (erase_ok L W2 _ O N) as (O' & _ & a & b & Hab & La & y & Sy & Er).
        rewrite Ht in Hab. apply app_inj_tail_iff in Hab || idtac.
        assert (Ab : l1 = a /\ Full k v :: l2 = Full k v :: b).
        { clear - Hab L1 La. revert a La Hab. revert s L1. induction l1 as [|z l1 IHl]; intros s L1 [|z' a] La H; cbn in *; try lia.
          - auto.
          - injection H as -> H. destruct (IHl (length l1) eq_refl a ltac:(lia) H) as [-> ?]. auto. }
        destruct Ab as [<- [= <-]]. apply Step with y; auto; [rewrite Sy; constructor|]. rewrite Sy. cbn. now rewrite Fk.
Qed.

Lemma Rg_retain f t m : Rg t m -> Rg (g_retain W f t) (hm_retain f m).
Proof.
  intros [O Q]. unfold g_retain. destruct (@retain_fold f (length t) 0 t [] t) as [A B]; auto; [constructor|].
  split; auto. refine (eq_ind_r (fun l => Permutation l _) _ B). cbn. unfold hm_retain. now apply filter_perm.
Qed.

Lemma Rg_clear t : pow2 (length t) -> Rg (g_clear t) [].
Proof.
  intros P2. replace (g_clear t) with (repeat (@Empty K V) (length t)); [now apply Rg_blank|].
  clear P2. unfold g_clear. induction t; cbn; auto. now f_equal.
Qed.

Lemma pow2_1 : pow2 1.
Proof. now exists 0. Qed.

Lemma Rg_with_capacity n : match @g_with_capacity K V hash W E n with
  | Ret t => Rg t [] /\ n <= alloc_max E
  | Panic => alloc_max E < n
  | _ => False end.
Proof.
  unfold g_with_capacity. destruct (@g_reserve K V hash W E n [Empty]) as [t o] eqn:S.
  destruct (Rg_reserve _ (Rg_blank pow2_1) S) as (R & -> & _). unfold hm_reserve. cbn [length Nat.add].
  destruct (Nat.leb_spec n (alloc_max E)); cbn; auto.
Qed.

Lemma Rg_insert k v t m t' o : Rg t m -> g_insert eqb hash W E k v t = (t', o) ->
  exists m', hm_insert eqb E k v m = (m', o) /\ Rg t' m'.
Proof.
  unfold g_insert, hm_insert. intros R. destruct (g_entry eqb hash W E k t) as [t1 o1] eqn:S.
  destruct (Rg_entry _ R S) as (R1 & <- & Le).
  destruct o1 as [[old|]| | | |]; intros [= <- <-]; eexists; split; try reflexivity; auto.
  - now apply Rg_set.
  - destruct (Le eq_refl). now apply Rg_put.
Qed.

(** ** lookups end *)
Lemma has_empty t : gok t -> exists p, p < length t /\ g_is_empty t (Some p) = true.
Proof.
  intros (_ & _ & P2 & Sp). pose proof (cap_lt (pow2_pos P2)) as C. unfold spare in Sp.
  assert (Lt : ht_len t + ht_marks t < length t) by lia. clear - Lt.
  induction t as [|s t IH]; [cbn in Lt; lia|]. rewrite one_len, one_mark in Lt. destruct s.
  - exists 0. cbn. split; [lia|reflexivity].
  - cbn in Lt. destruct IH as (p & A & B); [lia|]. exists (S p). cbn. split; [lia|exact B].
  - cbn in Lt. destruct IH as (p & A & B); [lia|]. exists (S p). cbn. split; [lia|exact B].
Qed.

Lemma seek_fuel k t i f f' q b : i <= q -> q < i + f -> f <= f' ->
  In b (group (length t) (gpos W (hash k) (length t) q)) -> g_is_empty t b = true ->
  g_seek eqb hash W k t (gpos W (hash k) (length t) i) (W * i) f' = g_seek eqb hash W k t (gpos W (hash k) (length t) i) (W * i) f.
Proof.
  revert i f'. induction f as [|f IH]; intros i f' I1 I2 Le Ib Em; [lia|]. destruct f' as [|f']; [lia|]. cbn [g_seek].
  change ((gpos W (hash k) (length t) i + (W * i + W)) mod length t) with (gpos W (hash k) (length t) (S i)).
  rewrite <- Nat.mul_succ_r. destruct (Nat.eq_dec i q) as [->|D].
  - assert (X : existsb (g_is_empty t) (group (length t) (gpos W (hash k) (length t) q)) = true) by (apply existsb_exists; eauto).
    rewrite X. reflexivity.
  - rewrite (IH (S i) f'); auto; lia.
Qed.

Lemma find_fuel k t f : gok t -> length t <= f ->
  g_seek eqb hash W k t (g_start (hash k) (length t)) 0 f = g_find eqb hash W k t.
Proof.
  intros O Le. destruct (has_empty O) as (p & Hp & Em). pose proof O as (_ & _ & P2 & _).
  destruct (cover W2 (hash k) P2 Hp) as (i & I & Ib).
  pose proof (@seek_fuel k t 0 (length t) f i (Some p)) as X. rewrite Nat.mul_0_r in X. apply X; auto; lia.
Qed.
End GT.
