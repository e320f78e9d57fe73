(** hashbrown's table with an [Eq] and a [Hash] without laws. *)
From Coq Require Import Permutation NArith.
From Verif Require Import Base HMModel HTModel HTProofs GTModel GTProofs GTProofs2 GTProofs3 GTSpec GTSpec2 GTRun GTRun3.
Local Open Scope outcome_scope.
Set Implicit Arguments.

Section Any.
Variables K V : Type.
Variable W : nat.
Variable E : machine.
Hypothesis W2 : pow2 W.
Notation table := (table K V).
Implicit Types (t : table) (k : K) (v : V).
Notation entries := (@ht_entries K V).

Definition safe t : Prop := pow2 (length t) /\ ht_len t + ht_marks t <= g_cap (length t).

Lemma write_perm t p s : nth_error t p = Some s -> exists rest, Permutation (entries t) (ht_slot s ++ rest) /\
  forall s', Permutation (entries (write t p s')) (ht_slot s' ++ rest).
Proof.
  intros N. destruct (write_split _ _ N) as (l1 & l2 & Ht & _ & Wr). exists (entries l1 ++ entries l2).
  assert (X : forall s', Permutation (entries (l1 ++ s' :: l2)) (ht_slot s' ++ entries l1 ++ entries l2)).
  { intros s'. rewrite entries_app. change (entries (s' :: l2)) with (ht_slot s' ++ entries l2).
    rewrite !app_assoc. apply Permutation_app_tail, Permutation_app_comm. }
  split; [rewrite Ht; apply X|]. intros s'. rewrite Wr. apply X.
Qed.

Lemma safe_write t p s s' : nth_error t p = Some s -> safe t ->
  length (ht_slot s') + slot_marks s' <= length (ht_slot s) + slot_marks s -> safe (write t p s').
Proof.
  intros N [P2 Sp] Le. split; rewrite length_write; auto. destruct (write_counts _ _ s' N). lia.
Qed.

Section One.
Variable eqb : K -> K -> bool.
Variable hash : K -> N.

Lemma find_any k t p : g_find eqb hash W k t = Some p ->
  exists k' v, nth_error t p = Some (Full k' v) /\ eqb k k' = true.
Proof. apply GTProofs2.seek_some. Qed.

Lemma put_any k v t : safe t -> ht_len t + ht_marks t < g_cap (length t) ->
  safe (g_put hash W k v t) /\ Permutation (entries (g_put hash W k v t)) ((k, v) :: entries t) /\
  ht_marks (g_put hash W k v t) <= ht_marks t.
Proof.
  intros S Lt. pose proof S as [P2 Sp]. pose proof (pow2_pos P2) as Hn. pose proof (cap_lt Hn) as CL. unfold g_put.
  destruct (gfree_exists W2 (hash k) t P2) as [p F]; [unfold ht_len in Lt; lia|]. rewrite F.
  pose proof (@gfree_some K V W (hash k) t 0 (length t) p Hn) as G. rewrite Nat.mul_0_r in G.
  destruct (G F ltac:(intros; lia) ltac:(lia)) as (_ & _ & _ & (s & N & S0) & _).
  destruct (write_perm _ _ N) as (rest & P1 & P3). rewrite S0 in P1.
  destruct (write_counts _ _ (Full k v) N) as [C1 C2]. rewrite S0 in C1. cbn in C1, C2.
  split; [|split; [|lia]].
  - split; rewrite length_write; auto. lia.
  - eapply Permutation_trans; [apply P3|]. cbn. constructor. now apply Permutation_sym.
Qed.

Lemma blank_safe n : pow2 n -> safe (repeat Empty n).
Proof.
  intros P2. split; rewrite repeat_length; auto. unfold ht_len. rewrite blank_entries, blank_marks. cbn. lia.
Qed.

Lemma fold_any l t : safe t -> length l + ht_len t + ht_marks t <= g_cap (length t) ->
  let t' := fold_left (fun t' e => g_put hash W (fst e) (snd e) t') l t in
  safe t' /\ Permutation (entries t') (l ++ entries t) /\ length t' = length t /\ ht_marks t' <= ht_marks t.
Proof.
  revert t; induction l as [|[k v] l IH]; cbn [fold_left length app fst snd]; intros t S Le; auto.
  destruct (@put_any k v t S ltac:(lia)) as (S1 & P1 & M1).
  assert (L1 : ht_len (g_put hash W k v t) = 1 + ht_len t) by (unfold ht_len; now rewrite (Permutation_length P1)).
  destruct (IH _ S1) as (S2 & P3 & L2 & M2).
  - rewrite length_gput, L1. lia.
  - rewrite length_gput in L2. split; auto. split; [|split; [auto|lia]].
    eapply Permutation_trans; [exact P3|]. eapply Permutation_trans; [apply Permutation_app_head; exact P1|].
    apply Permutation_sym. apply Permutation_middle.
Qed.

Lemma rehash_any n t : pow2 n -> ht_len t <= g_cap n ->
  safe (g_rehash hash W n t) /\ Permutation (entries (g_rehash hash W n t)) (entries t) /\
  length (g_rehash hash W n t) = n /\ ht_marks (g_rehash hash W n t) = 0.
Proof.
  intros P2 Le. unfold g_rehash. destruct (@fold_any (entries t) (repeat Empty n) (blank_safe P2)) as (S1 & P1 & L1 & M1).
  - rewrite repeat_length, blank_marks. unfold ht_len at 1. rewrite blank_entries. unfold ht_len in Le. cbn. lia.
  - rewrite repeat_length in L1. rewrite blank_marks in M1. rewrite blank_entries, app_nil_r in P1.
    split; auto. split; auto. split; auto. lia.
Qed.

Lemma reserve_any n t t' o : safe t -> g_reserve hash W E n t = (t', o) ->
  safe t' /\ Permutation (entries t') (entries t) /\ o = (if ht_len t + n <=? alloc_max E then Ret tt else Panic) /\
  (o = Ret tt -> ht_len t' + n + ht_marks t' <= g_cap (length t')).
Proof.
  unfold g_reserve. intros S H. destruct (ht_len t + n <=? alloc_max E).
  - apply pair_equal_spec in H. destruct H as [H <-]. pose proof S as [P2 Sp].
    destruct (Nat.leb_spec n (g_cap (length t) - (ht_len t + ht_marks t))) as [Ro|Ro];
      [|destruct (Nat.leb_spec (ht_len t + n) (g_cap (length t) / 2)) as [Ha|Ha]]; subst t'.
    + split; auto. split; auto. split; auto. intros _. lia.
    + assert (ht_len t + n <= g_cap (length t)) by (pose proof (Nat.div_le_upper_bound (g_cap (length t)) 2 (g_cap (length t)) ltac:(lia) ltac:(lia)); lia).
      destruct (@rehash_any (length t) t P2 ltac:(lia)) as (S1 & P1 & L1 & M1). split; auto. split; auto. split; auto.
      intros _. rewrite L1, M1. unfold ht_len at 1. rewrite (Permutation_length P1). fold (ht_len t). lia.
    + set (w := Nat.max (ht_len t + n) (g_cap (length t) + 1)). pose proof (buckets_enough w) as B.
      destruct (@rehash_any (g_buckets w) t (buckets_pow2 w) ltac:(lia)) as (S1 & P1 & L1 & M1). split; auto. split; auto. split; auto.
      intros _. rewrite L1, M1. unfold ht_len at 1. rewrite (Permutation_length P1). fold (ht_len t). lia.
  - injection H as <- <-. split; auto. split; auto. split; auto. discriminate.
Qed.

Lemma get_any k t v : g_get eqb hash W k t = Some v -> exists p k', g_find eqb hash W k t = Some p /\
  nth_error t p = Some (Full k' v) /\ eqb k k' = true.
Proof.
  unfold g_get, g_entry_of. destruct (g_find eqb hash W k t) as [p|] eqn:F; [|discriminate].
  destruct (find_any _ _ F) as (k' & v' & N & Q). rewrite (proj2 (nth_full t p k' v') N). intros [= ->]. eauto.
Qed.

Lemma entry_any k t t' o : safe t -> g_entry eqb hash W E k t = (t', o) ->
  safe t' /\
  ((exists old, o = Ret (Occupied old) /\ t' = t /\ g_get eqb hash W k t = Some old) \/
   (o = Ret Vacant /\ Permutation (entries t') (entries t) /\ ht_len t < alloc_max E /\ ht_len t' + ht_marks t' < g_cap (length t')) \/
   (o = Panic /\ Permutation (entries t') (entries t) /\ alloc_max E <= ht_len t)).
Proof.
  unfold g_entry. intros S. destruct (g_get eqb hash W k t) as [v|] eqn:G; intros H.
  - injection H as <- <-. split; auto. left. eauto.
  - destruct (g_reserve hash W E 1 t) as [t1 o1] eqn:R. injection H as <- <-.
    destruct (reserve_any _ S R) as (S1 & P1 & -> & Le). split; auto. right.
    destruct (Nat.leb_spec (ht_len t + 1) (alloc_max E)); cbn; [left|right]; split; auto; split; auto; try lia.
    split; [lia|]. specialize (Le eq_refl). lia.
Qed.

Lemma set_any k v t : safe t -> safe (g_set eqb hash W k v t) /\ forall old, g_get eqb hash W k t = Some old ->
  exists k' rest, picks eqb k (k', old) (entries t) rest /\ Permutation (entries (g_set eqb hash W k v t)) ((k', v) :: rest).
Proof.
  intros S. unfold g_set, g_get, g_entry_of. destruct (g_find eqb hash W k t) as [p|] eqn:F; [|split; auto; discriminate].
  destruct (find_any _ _ F) as (k' & v' & N & Q). rewrite (proj2 (nth_full t p k' v') N). split.
  - eapply safe_write; eauto.
  - intros old [= <-]. destruct (write_perm _ _ N) as (rest & P1 & P2). exists k', rest. split; [split; auto|]. apply (P2 (Full k' v)).
Qed.
End One.

(** an erased slot holds no entry *)
Lemma erase_any t p k v : nth_error t p = Some (Full k v) -> safe t ->
  safe (g_erase W p t) /\ exists rest, Permutation (entries t) ((k, v) :: rest) /\ Permutation (entries (g_erase W p t)) rest.
Proof.
  intros N S. unfold g_erase. set (c := W <=? _). split.
  - eapply safe_write; eauto. destruct c; cbn; lia.
  - destruct (write_perm _ _ N) as (rest & P1 & P2). exists rest. split; auto.
    eapply Permutation_trans; [apply P2|]. destruct c; apply Permutation_refl.
Qed.

Lemma retain_any (f : K -> V -> bool) n s t l1 l2 : t = l1 ++ l2 -> length l1 = s -> length l2 = n -> safe t ->
  let t' := fold_left (fun t' p => match nth p t' Empty with Full k v => if f k v then t' else g_erase W p t' | _ => t' end) (seq s n) t in
  safe t' /\ entries t' = entries l1 ++ filter (fun e => f (fst e) (snd e)) (entries l2).
Proof.
  revert s t l1 l2. induction n as [|n IH]; intros s t l1 l2 Ht L1 L2 S; cbn [seq fold_left].
  - destruct l2; [|discriminate]. rewrite app_nil_r in *. subst. auto.
  - destruct l2 as [|x l2]; [discriminate|]. injection L2 as L2.
    assert (N : nth_error t s = Some x) by (rewrite Ht, nth_error_app2, L1, Nat.sub_diag; [reflexivity|lia]).
    rewrite (nth_error_nth _ _ Empty N).
    assert (Step : forall y t2, t2 = l1 ++ y :: l2 -> safe t2 -> ht_slot y = filter (fun e => f (fst e) (snd e)) (ht_slot x) ->
      let t' := fold_left (fun t' p => match nth p t' Empty with Full k v => if f k v then t' else g_erase W p t' | _ => t' end) (seq (Datatypes.S s) n) t2 in
      safe t' /\ entries t' = entries l1 ++ filter (fun e => f (fst e) (snd e)) (entries (x :: l2))).
    { intros y t2 H2 O2 Sy. destruct (IH (Datatypes.S s) t2 (l1 ++ [y]) l2) as [A B]; auto.
      - now rewrite <- app_assoc.
      - rewrite app_length. cbn. lia.
      - split; auto. cbv zeta. rewrite B, entries_app, <- app_assoc. f_equal.
        change (entries (x :: l2)) with (ht_slot x ++ entries l2). rewrite filter_app, <- Sy. f_equal.
        unfold ht_entries. cbn. apply app_nil_r. }
    destruct x as [| |k v].
    + apply Step with Empty; auto.
    + apply Step with Deleted; auto.
    + destruct (f k v) eqn:Fk.
      * apply Step with (Full k v); auto. cbn. now rewrite Fk.
      * destruct (erase_any _ N S) as [S' _]. destruct (write_split _ _ N) as (a & b & Hab & La & Wr).
        assert (Ab : a = l1 /\ b = l2).
        { rewrite Ht in Hab. clear - Hab L1 La. rewrite <- L1 in La. clear L1. revert a La Hab.
          induction l1 as [|z l1 IHl]; intros [|z' a] La H; cbn in *; try lia.
          - injection H as ->. auto.
          - injection H as -> H. destruct (IHl a ltac:(lia) H) as [-> ?]. auto. }
        destruct Ab as [-> ->]. unfold g_erase in *. rewrite Wr in *. eapply Step; [reflexivity|auto|].
        cbn. rewrite Fk. now destruct (W <=? _).
Qed.

Lemma step_any eqb hash c t t' r : safe t -> g_step eqb hash W E c t = (t', r) ->
  safe t' /\ may E eqb c (entries t) (entries t') r.
Proof.
  intros S. destruct c; cbn [g_step may].
  - intros [= <- <-]. split; auto. split; auto. unfold g_entry_of. destruct (g_find eqb hash W k t) as [p|] eqn:F; auto.
    destruct (find_any _ _ _ _ F) as (k' & v' & N & Q). rewrite (proj2 (nth_full t p k' v') N). right.
    destruct (write_perm _ _ N) as (rest & P1 & _). exists (k', v'), rest. split; auto. split; auto.
  - intros [= <- <-]. auto.
  - intros [= <- <-]. split; auto. split; auto. exists (entries t). auto.
  - unfold g_insert. destruct (g_entry eqb hash W E k t) as [t1 o1] eqn:G.
    destruct (entry_any _ _ _ S G) as [S1 [(old & -> & -> & Ge)|[(-> & P1 & Le & Ro)|(-> & P1 & Le)]]]; intros [= <- <-].
    + destruct (set_any eqb hash k v S) as [S2 X]. destruct (X old Ge) as (k' & rest & Pk & Pe). split; auto. left.
      exists k', old, rest. auto.
    + destruct (put_any hash k v S1 Ro) as (S2 & P2 & _). split; auto. right. left. split; auto. split; auto.
      eapply Permutation_trans; [exact P2|]. now constructor.
    + split; auto.
  - unfold g_upsert. destruct (g_entry eqb hash W E k t) as [t1 o1] eqn:G.
    destruct (entry_any _ _ _ S G) as [S1 [(old & -> & -> & Ge)|[(-> & P1 & Le & Ro)|(-> & P1 & Le)]]]; intros [= <- <-].
    + destruct (set_any eqb hash k (up old) S) as [S2 X]. destruct (X old Ge) as (k' & rest & Pk & Pe). split; auto. left.
      exists k', old, rest. auto.
    + destruct (put_any hash k (up d) S1 Ro) as (S2 & P2 & _). split; auto. right. left. split; auto. split; auto.
      eapply Permutation_trans; [exact P2|]. now constructor.
    + split; auto.
  - intros [= <- <-]. destruct (g_get eqb hash W k t) as [v|] eqn:G; [|auto].
    destruct (set_any eqb hash k (up v) S) as [S2 X]. destruct (X v G) as (k' & rest & Pk & Pe). split; auto. split; auto. right.
    exists k', v, rest. auto.
  - intros [= <- <-]. unfold g_remove, g_get, g_entry_of. destruct (g_find eqb hash W k t) as [p|] eqn:F; [|auto].
    destruct (find_any _ _ _ _ F) as (k' & v' & N & Q). rewrite (proj2 (nth_full t p k' v') N).
    destruct (erase_any _ N S) as [S' (rest & P1 & P2)]. split; auto. right. exists k', v', rest. split; [split; auto|]. auto.
  - intros [= <- <-]. unfold g_retain. destruct (@retain_any p (length t) 0 t [] t) as [A B]; auto.
    split; auto. split; auto. refine (eq_ind_r (fun l => Permutation l _) _ B). cbn. apply Permutation_refl.
  - destruct (g_reserve hash W E n t) as [t1 o1] eqn:G. intros [= <- <-].
    destruct (reserve_any _ _ S G) as (S1 & P1 & -> & _). split; auto. split; auto.
    unfold ht_len. now destruct (length (entries t) + n <=? alloc_max E).
  - intros [= <- <-]. assert (X : g_clear t = repeat Empty (length t)) by (unfold g_clear; clear; induction t; cbn; auto; now f_equal).
    rewrite X. split; [apply blank_safe, S|]. split; auto. apply blank_entries.
Qed.

Lemma runs_any cs : forall t t' rs, safe t -> g_runs W E cs t = (t', rs) ->
  safe t' /\ story E (map (fun c => (m_eq c, m_call c)) cs) (entries t) (entries t') rs.
Proof.
  induction cs as [|c cs IH]; cbn [g_runs map]; intros t t' rs S H.
  - injection H as <- <-. split; auto. constructor.
  - destruct (g_step (m_eq c) (m_hash c) W E (m_call c) t) as [t1 o] eqn:G. destruct (g_runs W E cs t1) as [t2 os] eqn:R.
    injection H as <- <-. destruct (step_any _ _ _ S G) as [S1 M]. destruct (IH _ _ _ S1 R) as [S2 St]. split; auto.
    econstructor; eauto.
Qed.

Lemma new_any hash cap t : g_with_capacity V hash W E cap = Ret t -> safe t /\ entries t = [].
Proof.
  unfold g_with_capacity. destruct (@g_reserve K V hash W E cap [Empty]) as [t1 o] eqn:G.
  destruct (reserve_any _ _ (blank_safe pow2_1) G) as (S & P & _ & _).
  destruct o as [[]| | | |]; cbn; try discriminate. intros [= <-]. split; auto. now apply Permutation_sym, Permutation_nil in P.
Qed.

(** lookups end, whatever [Eq] and [Hash] answer from now on *)
Lemma safe_empty t : safe t -> exists p, p < length t /\ g_is_empty t (Some p) = true.
Proof.
  intros [P2 Sp]. pose proof (cap_lt (pow2_pos P2)) as C. assert (Lt : ht_len t + ht_marks t < length t) by lia. clear - Lt.
  induction t as [|s t IH]; [cbn in Lt; lia|]. rewrite one_len, one_mark in Lt. destruct s.
  - exists 0. cbn. split; [lia|reflexivity].
  - cbn in Lt. destruct IH as (p & A & B); [lia|]. exists (S p). cbn. split; [lia|exact B].
  - cbn in Lt. destruct IH as (p & A & B); [lia|]. exists (S p). cbn. split; [lia|exact B].
Qed.

Lemma seek_any eqb hash k t f : safe t -> length t <= f ->
  g_seek eqb hash W k t (g_start (hash k) (length t)) 0 f = g_find eqb hash W k t.
Proof.
  intros S Le. destruct (safe_empty S) as (p & Hp & Em). destruct (cover W2 (hash k) (proj1 S) Hp) as (i & I & Ib).
  pose proof (@seek_fuel K V eqb hash W k t 0 (length t) f i (Some p)) as X. rewrite Nat.mul_0_r in X. apply X; auto; lia.
Qed.
End Any.
