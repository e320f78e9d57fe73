(** Proofs for C113. *)
From Coq Require Import Permutation Lia Arith.
From Verif Require Import Base HMModel HMProofs CTSpec CTSpec8 CTModel CTModel7 CTRun CTProofs CTProofs2 CTProofs4.
Set Implicit Arguments.

Section Proofs.
Variable K : Type.
Variable eqb : K -> K -> bool.
Hypothesis L : eq_laws eqb.
Variable E : machine.
Variable cl : K -> K.
Hypothesis CL : forall k, eqb (cl k) k = true.
Hypothesis U : 1 <= usize_max E.
Notation valid := (ct_valid eqb E).
Notation sh := (shown eqb).

Lemma visit_nth g : forall l i l' b, visit g i l = (l', b) ->
  map fst l' = map fst l /\
  exists m, m <= length l /\
  (forall j k n, nth_error l j = Some (k, n) -> nth_error l' j = Some (k, if j <? m then fst (g (i + j) k n) else n)) /\
  (forall j k n, nth_error l j = Some (k, n) -> S j < m -> snd (g (i + j) k n) = true) /\
  (if b then m = length l /\ (forall j k n, nth_error l j = Some (k, n) -> snd (g (i + j) k n) = true)
   else exists j k n, m = S j /\ nth_error l j = Some (k : K, n) /\ snd (g (i + j) k n) = false).
Proof.
  clear U CL L.
  induction l as [|[k n] l IH]; intros i l' b H; cbn [visit] in H.
  - injection H as <- <-. split; auto. exists 0. cbn. split; auto. repeat split; intros [|j]; discriminate.
  - destruct (g i k n) as [n' ok] eqn:G. destruct ok.
    + destruct (visit g (S i) l) as [r' b'] eqn:V. injection H as <- <-. destruct (IH _ _ _ V) as (KS & m & M1 & M2 & M3 & M4).
      split; [cbn; now rewrite KS|]. exists (S m). split; [cbn; lia|]. split; [|split].
      * intros [|j] k0 n0 N; cbn in N |- *.
        -- injection N as <- <-. rewrite Nat.add_0_r, G. reflexivity.
        -- rewrite (M2 _ _ _ N). replace (i + S j) with (S i + j) by lia. reflexivity.
      * intros [|j] k0 n0 N Q; cbn in N.
        -- injection N as <- <-. now rewrite Nat.add_0_r, G.
        -- replace (i + S j) with (S i + j) by lia. apply M3; auto. lia.
      * destruct b'.
        -- destruct M4 as [-> M4]. split; [reflexivity|]. intros [|j] k0 n0 N; cbn in N.
           ++ injection N as <- <-. now rewrite Nat.add_0_r, G.
           ++ replace (i + S j) with (S i + j) by lia. auto.
        -- destruct M4 as (j & k0 & n0 & -> & N & F). exists (S j), k0, n0. replace (i + S j) with (S i + j) by lia. auto.
    + injection H as <- <-. split; [reflexivity|]. exists 1. split; [cbn; lia|]. split; [|split].
      * intros [|j] k0 n0 N; cbn in N |- *; [|exact N]. injection N as <- <-. now rewrite Nat.add_0_r, G.
      * intros j k0 n0 N Q. lia.
      * exists 0, k, n. cbn. rewrite Nat.add_0_r, G. auto.
Qed.

Lemma sift_nth p : forall l i l' b, sift p i l = (l', b) ->
  (distinct eqb (map fst l) -> distinct eqb (map fst l')) /\ length l' <= length l /\
  exists m, m <= length l /\
  (forall k v, In (k, v) l' <-> exists j n, nth_error l j = Some (k, n) /\
     if j <? m then snd (p (i + j) k n) <> Some false /\ v = fst (p (i + j) k n) else v = n) /\
  (forall j k n, nth_error l j = Some (k, n) -> S j < m -> snd (p (i + j) k n) <> None) /\
  (if b then m = length l /\ (forall j k n, nth_error l j = Some (k, n) -> snd (p (i + j) k n) <> None)
   else exists j k n, m = S j /\ nth_error l j = Some (k : K, n) /\ snd (p (i + j) k n) = None).
Proof.
  clear U CL L.
  induction l as [|[k n] l IH]; intros i l' b H; cbn [sift] in H.
  - injection H as <- <-. split; auto. split; auto. exists 0. cbn. split; auto. split; [|split; [|split; auto]].
    + intros k v. split; [intros []|]. intros ([|j] & n & N & _); discriminate.
    + intros [|j] k n; discriminate.
    + intros [|j] k n; discriminate.
  - destruct (p i k n) as [n' [keep|]] eqn:G.
    + destruct (sift p (S i) l) as [r' b'] eqn:V. injection H as <- <-. destruct (IH _ _ _ V) as (KS & LE & m & M1 & M2 & M3 & M4).
      assert (SUB : forall x, In x (map fst r') -> In x (map fst l)).
      { intros x X. apply in_map_iff in X. destruct X as ([x' v] & <- & X). apply M2 in X. destruct X as (j & n0 & N & _).
        apply nth_error_In in N. apply in_map_iff. exists (x', n0). auto. }
      split; [|split].
      * intros D. cbn in D. inversion D as [|? ? F D']; subst. destruct keep; cbn; [|now apply KS]. constructor; [|now apply KS].
        apply Forall_forall. intros x X. rewrite Forall_forall in F. apply F, SUB, X.
      * rewrite app_length. destruct keep; cbn; lia.
      * exists (S m). split; [cbn; lia|]. split; [|split].
        -- intros k0 v. rewrite in_app_iff, M2. split.
           ++ intros [X|(j & n0 & N & X)].
              ** destruct keep; [|destruct X]. destruct X as [X|[]]. injection X as <- <-. exists 0, n. cbn. rewrite Nat.add_0_r, G. cbn. split; auto. split; [discriminate|reflexivity].
              ** exists (S j), n0. replace (i + S j) with (S i + j) by lia. auto.
           ++ intros ([|j] & n0 & N & X); cbn in N.
              ** injection N as <- <-. cbn in X. rewrite Nat.add_0_r, G in X. cbn in X. destruct X as [X ->]. left. destruct keep; [left; auto|now contradiction X].
              ** right. exists j, n0. replace (i + S j) with (S i + j) in X by lia. auto.
        -- intros [|j] k0 n0 N Q; cbn in N.
           ++ injection N as <- <-. rewrite Nat.add_0_r, G. discriminate.
           ++ replace (i + S j) with (S i + j) by lia. apply M3; auto. lia.
        -- destruct b'.
           ++ destruct M4 as [-> M4]. split; [reflexivity|]. intros [|j] k0 n0 N; cbn in N.
              ** injection N as <- <-. rewrite Nat.add_0_r, G. discriminate.
              ** replace (i + S j) with (S i + j) by lia. auto.
           ++ destruct M4 as (j & k0 & n0 & -> & N & F). exists (S j), k0, n0. replace (i + S j) with (S i + j) by lia. auto.
    + injection H as <- <-. split; [auto|]. split; [auto|]. exists 1. split; [cbn; lia|]. split; [|split].
      * intros k0 v. split.
        -- intros [X|X].
           ++ injection X as <- <-. exists 0, n. cbn. rewrite Nat.add_0_r, G. cbn. split; auto. split; [discriminate|reflexivity].
           ++ apply In_nth_error in X. destruct X as [j X]. exists (S j), v. split; [exact X|reflexivity].
        -- intros ([|j] & n0 & N & X); cbn in N.
           ++ injection N as <- <-. cbn in X. rewrite Nat.add_0_r, G in X. cbn in X. destruct X as [_ ->]. left. reflexivity.
           ++ cbn in X. subst. right. eapply nth_error_In; eauto.
      * intros j k0 n0 N Q. lia.
      * exists 0, k, n. cbn. rewrite Nat.add_0_r, G. auto.
Qed.

Lemma distinct_nth : forall l i j (k k2 : K) (n n2 : nat), distinct eqb (map fst l) ->
  nth_error l i = Some (k, n) -> nth_error l j = Some (k2, n2) -> eqb k k2 = true -> i = j.
Proof.
  induction l as [|e l IH]; intros [|i] [|j] k k2 n n2 D I J X; cbn in *; try discriminate; auto.
  - injection I as ->. inversion D as [|? ? F D']; subst. rewrite Forall_forall in F. rewrite (F k2) in X; [discriminate|].
    apply nth_error_In in J. apply in_map_iff. exists (k2, n2). auto.
  - injection J as ->. inversion D as [|? ? F D']; subst. rewrite Forall_forall in F. apply (eq_sym' L) in X. cbn in F. rewrite (F k) in X; [discriminate|].
    apply nth_error_In in I. apply in_map_iff. exists (k, n). auto.
  - inversion D; subst. f_equal. eapply IH; eauto.
Qed.
Lemma picked_enumerates c l : valid c -> Permutation (ct_map c) l -> enumerates eqb (sh c) l.
Proof. intros V P. exact (@enumerates_iterates K eqb L E c l V P). Qed.
Lemma cut_ok k c : valid c -> valid (Counter (hm_remove eqb k (ct_map c))) /\ same (sh (Counter (hm_remove eqb k (ct_map c)))) (cut eqb k (sh c)).
Proof.
  intros V. destruct (@step_ok K eqb L E cl CL U (ORemove k) c _ _ V I eq_refl) as [V1 [S1 _]]. split; auto.
Qed.
Lemma set_ok k k' old n c : valid c -> n <= usize_max E -> sh c k = Some (k', old) ->
  valid (Counter (hm_set eqb k n (ct_map c))) /\ same (sh (Counter (hm_set eqb k n (ct_map c)))) (put eqb k (k', n) (sh c)).
Proof.
  intros V N Q. unfold shown, ct_get_key_value in Q.
  assert (X : ct_step eqb cl E (OGetMut k (fun _ => n)) c = (Counter (hm_set eqb k n (ct_map c)), Ret (RBool true))).
  { cbn. unfold ct_get_mut, ct_get, hm_get. now rewrite Q. }
  destruct (@step_ok K eqb L E cl CL U (OGetMut k (fun _ => n)) c _ _ V (fun _ => N) X) as [V1 A]. cbn in A.
  unfold shown at 1, ct_get_key_value in A. rewrite Q in A. destruct A as [A _]. auto.
Qed.
Lemma vacant_ok k n c : valid c -> n <= usize_max E -> sh c k = None -> hm_reserve E 1 (ct_map c) = Ret tt ->
  valid (Counter (hm_insert_vacant k n (ct_map c))) /\ same (sh (Counter (hm_insert_vacant k n (ct_map c)))) (put eqb k (k, n) (sh c)).
Proof.
  intros V N Q R. unfold shown, ct_get_key_value in Q. split.
  - pose proof (@insert_valid K eqb L E U k n c V N) as W. unfold ct_insert, hm_insert, hm_entry, hm_get in W. rewrite Q, R in W. exact W.
  - intros x. reflexivity.
Qed.
Lemma no_room c : valid c -> cannot_reserve eqb E 1 (sh c) -> full eqb E (sh c).
Proof.
  intros V (s & S1 & S2). pose proof (len_shown L V S1). destruct V as [_ V]. unfold full. replace (alloc_max E) with s by lia. exact S1.
Qed.

Lemma pairs_ok evs c c' r : valid c -> (forall k n, In (Some (k, n)) evs -> n <= usize_max E) ->
  insert_pairs eqb E evs c = (c', r) ->
  valid c' /\ exists l rest, evs = map Some l ++ rest /\ same (sh c') (overwrite eqb (sh c) l) /\
    match rest with
    | [] => r = Ret tt
    | None :: _ => r = Panic
    | Some e :: _ => r = Panic /\ sh c' (fst e) = None /\ full eqb E (sh c')
    end.
Proof.
  revert c. induction evs as [|[[k n]|] evs IH]; intros c V B H; cbn [insert_pairs] in H.
  - injection H as <- <-. split; auto. exists [], []. split; auto. split; auto. intros x. unfold overwrite. cbn. destruct (sh c x) as [[? ?]|]; auto.
  - destruct (ct_insert eqb E k n c) as [c1 o] eqn:Q.
    assert (ST : ct_step eqb cl E (OInsert k n) c = (c1, omap ROpt o)) by (cbn; now rewrite Q).
    destruct (@step_ok K eqb L E cl CL U (OInsert k n) c _ _ V (B k n (or_introl eq_refl)) ST) as [V1 A]. cbn in A.
    assert (G : forall k0 n0 k1, sh c k = Some (k0, n0) /\ k1 = k0 \/ sh c k = None /\ k1 = k ->
      same (sh c1) (fun x => if eqb x k then Some (k1, n) else sh c x) -> o <> Panic -> (exists a, o = Ret a) ->
      insert_pairs eqb E evs c1 = (c', r) /\ valid c' /\ exists l rest, Some (k, n) :: evs = map Some l ++ rest /\ same (sh c') (overwrite eqb (sh c) l) /\
        match rest with
        | [] => r = Ret tt
        | None :: _ => r = Panic
        | Some e :: _ => r = Panic /\ sh c' (fst e) = None /\ full eqb E (sh c')
        end).
    { intros k0 n0 k1 KK S1 _ (a & ->). split; [exact H|].
      destruct (IH c1 V1 (fun k n X => B k n (or_intror X)) H) as (V2 & l & rest & -> & S2 & R). split; auto.
      exists ((k, n) :: l), rest. split; auto. split; auto. intros x. rewrite S2. unfold overwrite.
      assert (EI : forall x, entry_in eqb (rev ((k, n) :: l)) x = match entry_in eqb (rev l) x with Some e => Some e | None => if eqb x k then Some (k, n) else None end).
      { intros y. cbn [rev]. rewrite entry_in_app. unfold entry_in at 2. cbn. destruct (entry_in eqb (rev l) y); auto. }
      assert (EC : entry_in eqb ((k, n) :: l) x = if eqb x k then Some (k, n) else entry_in eqb l x) by reflexivity.
      rewrite EI, EC, S1. clear EI EC.
      destruct (eqb x k) eqn:X.
      - rewrite (shown_cong L c x k X). destruct KK as [[-> ->]|[-> ->]]; destruct (entry_in eqb (rev l) x) as [[? ?]|]; auto.
      - destruct (sh c x) as [[? ?]|]; [destruct (entry_in eqb (rev l) x) as [[? ?]|]; auto|].
        destruct (entry_in eqb l x) as [[? ?]|]; auto. destruct (entry_in eqb (rev l) x) as [[? ?]|]; auto. }
    destruct (sh c k) as [[k0 n0]|] eqn:P.
    + destruct A as [A1 A2]. destruct o as [o| | | |]; try discriminate A2. apply (G k0 n0 k0); auto; [discriminate|eauto].
    + destruct A as [(R1 & A1 & A2)|(F & A1 & A2)].
      * destruct o as [o| | | |]; try discriminate A2. apply (G k 0 k); auto; [discriminate|eauto].
      * destruct o as [o| | | |]; try discriminate A2. injection H as <- <-. split; auto. exists [], (Some (k, n) :: evs). split; auto.
        split; [intros x; rewrite A1; unfold overwrite; cbn; destruct (sh c x) as [[? ?]|]; auto|]. split; auto. cbn. rewrite A1. split; auto.
        unfold full in *. eapply size_same; [|exact F]. apply same_sym, A1.
  - injection H as <- <-. split; auto. exists [], (None :: evs). split; auto. split; auto. intros x. unfold overwrite. cbn. destruct (sh c x) as [[? ?]|]; auto.
Qed.

Lemma update_ok pick g c c' r : valid c -> (forall l, Permutation l (pick l)) -> (forall i k n, fst (g i k n) <= usize_max E) ->
  ct_update pick g c = (c', r) -> valid c' /\ allows eqb E cl (CUpdate pick g) (sh c) (sh c') (omap (fun _ => AUnit) r).
Proof.
  clear U CL.
  intros V P B H. unfold ct_update in H. destruct (visit g 0 (pick (ct_map c))) as [l' b] eqn:Q. injection H as <- <-.
  specialize (P (ct_map c)). set (l := pick (ct_map c)) in *. pose proof (picked_enumerates V P) as EN.
  destruct (visit_nth _ _ _ Q) as (KS & m & M1 & M2 & M3 & M4). cbn [Nat.add] in M2, M3, M4.
  assert (LL : length l' = length l) by (rewrite <- (map_length fst l'), KS; apply map_length).
  destruct V as [[D F] N].
  assert (D' : distinct eqb (map fst l')) by (rewrite KS; apply EN).
  assert (W' : hm_wf eqb l') by (apply wf_keys; exact D').
  split.
  - split; [split|]; cbn; auto.
    + rewrite Forall_forall in *. intros [k v] X. apply In_nth_error in X. destruct X as [j X].
      destruct (nth_error l j) as [[k0 n0]|] eqn:J.
      * rewrite (M2 _ _ _ J) in X. injection X as <- <-. cbn [snd]. destruct (j <? m); [apply B|].
        apply (F (k0, n0)). eapply Permutation_in; [apply Permutation_sym; exact P|]. eapply nth_error_In; eauto.
      * apply nth_error_None in J. assert (nth_error l' j <> None) by congruence. apply nth_error_Some in H. lia.
    + unfold ct_len in *. cbn. rewrite LL, <- (Permutation_length P). exact N.
  - exists l, m. split; auto. split; [|split; [|split; auto]].
    + intros x X. unfold shown, ct_get_key_value in *. cbn. rewrite entry_of_none. intros e I1.
      assert (I2 : In (fst e) (map fst l)) by (rewrite <- KS; now apply in_map).
      apply in_map_iff in I2. destruct I2 as (e' & <- & I2). rewrite <- (entry_of_perm L x (proj2 (wf_keys eqb _) D) P) in X. rewrite entry_of_none in X. auto.
    + intros i k n x J X. unfold shown, ct_get_key_value. cbn. apply (wf_iff L); auto. split; [|exact X].
      eapply nth_error_In. exact (M2 _ _ _ J).
    + destruct b; [left; tauto|right; tauto].
Qed.
Lemma sift_ok pick p c c' r : valid c -> (forall l, Permutation l (pick l)) -> (forall i k n, fst (p i k n) <= usize_max E) ->
  ct_sift pick p c = (c', r) -> valid c' /\ allows eqb E cl (CSift pick p) (sh c) (sh c') (omap (fun _ => AUnit) r).
Proof.
  clear U CL.
  intros V P B H. unfold ct_sift in H. destruct (sift p 0 (pick (ct_map c))) as [l' b] eqn:Q. injection H as <- <-.
  specialize (P (ct_map c)). set (l := pick (ct_map c)) in *. pose proof (picked_enumerates V P) as EN.
  destruct (sift_nth _ _ _ Q) as (DS & LE & m & M1 & M2 & M3 & M4). cbn [Nat.add] in M2, M3, M4.
  destruct V as [[D F] N].
  assert (D' : distinct eqb (map fst l')) by (apply DS; apply EN).
  assert (W' : hm_wf eqb l') by (apply wf_keys; exact D').
  split.
  - split; [split|]; cbn; auto.
    + rewrite Forall_forall in *. intros [k v] X. apply M2 in X. destruct X as (j & n & J & X). cbn [snd].
      destruct (j <? m); [destruct X as [_ ->]; apply B|subst v].
      apply (F (k, n)). eapply Permutation_in; [apply Permutation_sym; exact P|]. eapply nth_error_In; eauto.
    + unfold ct_len in *. cbn. rewrite (Permutation_length P) in N. lia.
  - exists l, m. split; auto. split; [|split; [|split; auto]].
    + intros x X. unfold shown, ct_get_key_value in *. cbn. rewrite entry_of_none. intros [k v] I1. apply M2 in I1. destruct I1 as (j & n & J & _).
      rewrite <- (entry_of_perm L x (proj2 (wf_keys eqb _) D) P) in X. rewrite entry_of_none in X. apply (X (k, n)). eapply nth_error_In; eauto.
    + intros i k n x J X. unfold shown, ct_get_key_value. cbn [ct_map].
      assert (YES : forall v, (if i <? m then snd (p i k n) <> Some false /\ v = fst (p i k n) else v = n) -> hm_entry_of eqb x l' = Some (k, v)).
      { intros v Y. apply (wf_iff L); auto. split; [|exact X]. apply M2. eauto. }
      destruct (i <? m) eqn:LM; [|auto]. destruct (snd (p i k n)) as [[|]|] eqn:SN; [apply YES; split; [discriminate|reflexivity]| |apply YES; split; [discriminate|reflexivity]].
      rewrite entry_of_none. intros [k2 v] I2. cbn. destruct (eqb x k2) eqn:X2; [|reflexivity]. exfalso.
      apply M2 in I2. destruct I2 as (j & n2 & J2 & I2).
      assert (KK : eqb k k2 = true) by (eapply (eq_trans' L); [apply (eq_sym' L); exact X|exact X2]).
      assert (JJ : i = j) by (eapply distinct_nth; [exact (proj1 EN)|exact J|exact J2|exact KK]). subst j. rewrite J in J2. injection J2 as <- <-.
      rewrite LM in I2. destruct I2 as [I2 _]. now apply I2.
    + destruct b; [left; tauto|right; tauto].
Qed.

Lemma call_ok_step o c c' r : valid c -> call_ok eqb E o -> ct_call eqb cl E o c = (c', r) ->
  valid c' /\ allows eqb E cl o (sh c) (sh c') r.
Proof.
  intros V Ok H. destruct o as [o|k n g|k v|k g n|k n|k|k|pick n|pick|pick|pick g|pick p|hint evs|]; cbn [ct_call] in H.
  - destruct (ct_step eqb cl E o c) as [c1 r1] eqn:Q. injection H as <- <-. destruct (@step_ok K eqb L E cl CL U o c _ _ V Ok Q) as [V1 A]. split; auto. exists r1. auto.
  - unfold ct_or_insert, hm_or_insert, hm_entry, hm_get in H. cbn [allows]. destruct Ok as [Ok1 Ok2].
    destruct (sh c k) as [[k' old]|] eqn:Q; pose proof Q as Q'; unfold shown, ct_get_key_value in Q'; rewrite Q' in H; cbn in H.
    + injection H as <- <-. destruct (set_ok k V (Ok2 old) Q). auto.
    + destruct (reserve_cases 1 V) as [[R1 R]|[R1 R]]; rewrite R1 in H; cbn in H.
      * rewrite (eq_refl' L) in H. injection H as <- <-. destruct (@vacant_ok k (g n) c V (Ok2 n) Q R1) as [V1 A]. split; [exact V1|]. left. split; auto.
      * injection H as <- <-. destruct c. split; auto. right. split; [now apply no_room|]. split; [apply same_refl|reflexivity].
  - unfold ct_or_insert_with, hm_entry, hm_get in H. cbn [allows].
    destruct (sh c k) as [[k' old]|] eqn:Q; pose proof Q as Q'; unfold shown, ct_get_key_value in Q'; rewrite Q' in H; cbn in H.
    + injection H as <- <-. split; auto. split; [apply same_refl|reflexivity].
    + destruct (reserve_cases 1 V) as [[R1 R]|[R1 R]]; rewrite R1 in H; cbn in H.
      * destruct v as [n|]; injection H as <- <-.
        -- destruct (@vacant_ok k n c V Ok Q R1) as [V1 A]. split; [exact V1|]. left. auto.
        -- split; auto. left. split; auto. split; [apply same_refl|reflexivity].
      * injection H as <- <-. split; auto. right. split; [now apply no_room|]. split; [apply same_refl|reflexivity].
  - unfold ct_and_modify, hm_entry, hm_get in H. cbn [allows]. destruct Ok as [Ok1 Ok2].
    destruct (sh c k) as [[k' old]|] eqn:Q; pose proof Q as Q'; unfold shown, ct_get_key_value in Q'; rewrite Q' in H; cbn in H.
    + specialize (Ok2 old). destruct (g old) as [new ok]. cbn in Ok2 |- *. injection H as <- <-. destruct (set_ok k V Ok2 Q). split; auto. split; auto. now destruct ok.
    + destruct (reserve_cases 1 V) as [[R1 R]|[R1 R]]; rewrite R1 in H; cbn in H; injection H as <- <-.
      * destruct (@vacant_ok k n c V Ok1 Q R1) as [V1 A]. split; [exact V1|]. left. auto.
      * split; auto. right. split; [now apply no_room|]. split; [apply same_refl|reflexivity].
  - unfold ct_entry_insert, hm_entry, hm_get in H. cbn [allows].
    destruct (sh c k) as [[k' old]|] eqn:Q; pose proof Q as Q'; unfold shown, ct_get_key_value in Q'; rewrite Q' in H; cbn in H.
    + injection H as <- <-. destruct (set_ok k V Ok Q). auto.
    + destruct (reserve_cases 1 V) as [[R1 R]|[R1 R]]; rewrite R1 in H; cbn in H; injection H as <- <-.
      * destruct (@vacant_ok k n c V Ok Q R1) as [V1 A]. split; [exact V1|]. left. auto.
      * split; auto. right. split; [now apply no_room|]. split; [apply same_refl|reflexivity].
  - unfold ct_entry_remove, hm_entry, hm_get in H. cbn [allows].
    destruct (sh c k) as [[k' old]|] eqn:Q; pose proof Q as Q'; unfold shown, ct_get_key_value in Q'; rewrite Q' in H; cbn in H.
    + injection H as <- <-. destruct (cut_ok k V). auto.
    + destruct (reserve_cases 1 V) as [[R1 R]|[R1 R]]; rewrite R1 in H; cbn in H; injection H as <- <-.
      * split; auto. left. split; auto. split; [apply same_refl|reflexivity].
      * split; auto. right. split; [now apply no_room|]. split; [apply same_refl|reflexivity].
  - injection H as <- <-. destruct (cut_ok k V). split; auto. split; auto.
  - injection H as <- <-. split; [split; [split; constructor|apply Nat.le_0_l]|]. split; [intros x; reflexivity|].
    exists (pick (ct_map c)). split; auto. now apply picked_enumerates.
  - injection H as <- <-. split; auto. split; [apply same_refl|]. exists (pick (ct_map c)). split; auto. now apply picked_enumerates.
  - injection H as <- <-. split; auto. split; [apply same_refl|]. exists (pick (ct_map c)). split; auto. now apply picked_enumerates.
  - destruct (ct_update pick g c) as [c1 r1] eqn:Q. injection H as <- <-. destruct Ok. now apply update_ok.
  - destruct (ct_sift pick p c) as [c1 r1] eqn:Q. injection H as <- <-. destruct Ok. now apply sift_ok.
  - destruct (ct_extend_pairs eqb E hint evs c) as [c1 r1] eqn:Q. injection H as <- <-. unfold ct_extend_pairs in Q.
    set (want := if ct_len c =? 0 then hint else (hint + 1) mod S (usize_max E) / 2) in *. destruct Ok as [Ok1 Ok2].
    assert (WT : wanted E (sh c) hint want).
    { unfold wanted, want. destruct (Nat.eqb_spec (ct_len c) 0) as [Z|Z].
      - left. split; auto. intros x. unfold shown, ct_get_key_value, ct_len in *. destruct (ct_map c); [reflexivity|discriminate].
      - right. split; [|now rewrite Nat.div2_div]. intros X. unfold ct_len, shown, ct_get_key_value, same, empty in *. destruct (ct_map c) as [|[k n] m]; [now apply Z|].
        specialize (X k). cbn in X. rewrite (eq_refl' L) in X. discriminate. }
    clearbody want.
    destruct (reserve_cases want V) as [[R1 R]|[R1 R]]; rewrite R1 in Q.
    + destruct (pairs_ok _ V Ok2 Q) as (V1 & l & rest & E1 & S1 & X). split; auto. exists want. split; auto. right. split; auto. exists l, rest. split; auto. split; auto.
      destruct rest as [|[e|] rest]; [now subst r1|destruct X as [-> X]; auto|now subst r1].
    + injection Q as <- <-. split; auto. exists want. split; auto. left. split; auto. split; [apply same_refl|reflexivity].
  - injection H as <- <-. split; auto. split; [apply same_refl|reflexivity].
Qed.

Lemma calls_run cs c c' tr : valid c -> Forall (call_ok eqb E) cs -> ct_calls eqb cl E cs c = (c', tr) ->
  valid c' /\ calls eqb E cl cs (sh c) (sh c') tr.
Proof.
  revert c c' tr. induction cs as [|o cs IH]; intros c c' tr V Ok H; cbn in H.
  - injection H as <- <-. split; auto. constructor. apply same_refl.
  - inversion Ok as [|? ? O1 O2]; subst. destruct (ct_call eqb cl E o c) as [c1 a] eqn:Q. destruct (ct_calls eqb cl E cs c1) as [c2 tr2] eqn:R.
    injection H as <- <-. destruct (call_ok_step _ V O1 Q) as [V1 A]. destruct (IH _ _ _ V1 O2 R) as [V2 B]. split; auto. econstructor; eauto.
Qed.
End Proofs.
