(** Proofs about the counter: additions and subtractions of entry lists. *)
From Coq Require Import Permutation.
From Verif Require Import Base HMModel HMProofs CTModel CTSpec CTRun.
Set Implicit Arguments.

Section Proofs.
Variable K : Type.
Variable eqb : K -> K -> bool.
Hypothesis L : eq_laws eqb.
Variable E : machine.
Implicit Types (c : counter K) (m : hmap K nat) (f g : fm K) (x k : K) (l : list (K * nat)).

Notation sh := (shown eqb).
Notation valid := (ct_valid eqb E).
Notation pl := (plus eqb E).
Notation mi := (minus eqb).
Notation amt := (amount eqb).

(** ** Wrapping arithmetic *)
Lemma wrap_id n : n <= usize_max E -> wrap E n = n.
Proof. intros; apply Nat.mod_small; lia. Qed.

Lemma wrap_le n : wrap E n <= usize_max E.
Proof. unfold wrap. pose proof (Nat.mod_upper_bound n (S (usize_max E))). lia. Qed.

Lemma wrap_add a b : wrap E (wrap E a + b) = wrap E (a + b).
Proof. unfold wrap. apply Nat.add_mod_idemp_l. lia. Qed.

Lemma uadd_cases a b : a <= usize_max E -> b <= usize_max E ->
  (uadd E a b = Ret (wrap E (a + b)) /\ (debug_build E = true -> a + b <= usize_max E)) \/
  (uadd E a b = Panic /\ debug_build E = true /\ usize_max E < a + b).
Proof.
  intros Ha Hb. unfold uadd. destruct (a + b <=? usize_max E) eqn:H.
  - apply Nat.leb_le in H. left. rewrite wrap_id by lia. auto.
  - apply Nat.leb_gt in H. destruct (debug_build E); auto.
    left. split; [|discriminate]. f_equal. unfold wrap.
    replace (a + b) with ((a + b - S (usize_max E)) + 1 * S (usize_max E)) at 2 by lia.
    rewrite Nat.mod_add by lia. rewrite Nat.mod_small; lia.
Qed.

(** ** Entry lists *)
Lemma amount_app x l1 l2 : amt x (l1 ++ l2) = amt x l1 + amt x l2.
Proof. unfold amount. now rewrite filter_app, map_app, list_sum_app. Qed.

Lemma amount_cons x e l : amt x (e :: l) = (if eqb x (fst e) then snd e else 0) + amt x l.
Proof. unfold amount. simpl. destruct (eqb x (fst e)); simpl; lia. Qed.

Lemma amount_one x e : amt x [e] = if eqb x (fst e) then snd e else 0.
Proof. rewrite amount_cons. unfold amount; simpl. lia. Qed.

Lemma entry_in_app x l1 l2 : entry_in eqb (l1 ++ l2) x =
  match entry_in eqb l1 x with Some e => Some e | None => entry_in eqb l2 x end.
Proof.
  unfold entry_in. induction l1 as [|e l1 IH]; simpl; auto. now destruct (eqb x (fst e)).
Qed.

Lemma entry_in_none_amount x l : entry_in eqb l x = None -> amt x l = 0.
Proof.
  unfold entry_in. induction l as [|e l IH]; simpl; auto.
  rewrite amount_cons. destruct (eqb x (fst e)); [discriminate|]. auto.
Qed.

Lemma entry_in_model m x : entry_in eqb m x = hm_entry_of eqb x m.
Proof. symmetry; apply entry_of_find. Qed.

(** ** Finite maps *)
Definition in_range f := forall x k n, f x = Some (k, n) -> n <= usize_max E.

Lemma same_refl f : same f f.
Proof. intros x; auto. Qed.
Lemma same_sym f g : same f g -> same g f.
Proof. intros H x; auto. Qed.
Lemma same_trans f g h : same f g -> same g h -> same f h.
Proof. intros H1 H2 x; now rewrite H1. Qed.

Lemma plus_same f g l : same f g -> same (pl f l) (pl g l).
Proof. intros H x. unfold plus. now rewrite H. Qed.

Lemma minus_same f g l : same f g -> same (mi f l) (mi g l).
Proof. intros H x. unfold minus. now rewrite H. Qed.

Lemma plus_nil f : in_range f -> same (pl f []) f.
Proof.
  intros R x. unfold plus; simpl. destruct (f x) as [[k n]|] eqn:H; auto.
  unfold amount; simpl. rewrite Nat.add_0_r, wrap_id; eauto.
Qed.

Lemma plus_app f l1 l2 : same (pl (pl f l1) l2) (pl f (l1 ++ l2)).
Proof.
  intros x. unfold plus. rewrite entry_in_app, amount_app.
  destruct (f x) as [[k n]|].
  - rewrite wrap_add. do 3 f_equal. lia.
  - destruct (entry_in eqb l1 x) as [[k n]|] eqn:H.
    + now rewrite wrap_add.
    + rewrite (entry_in_none_amount _ _ H). simpl. auto.
Qed.

Lemma count_plus f l x : count (pl f l) x = wrap E (count f x + amt x l).
Proof.
  unfold count, plus. destruct (f x) as [[k n]|]; auto.
  destruct (entry_in eqb l x) as [[k n]|] eqn:H; auto.
  rewrite (entry_in_none_amount _ _ H). now rewrite wrap_id by lia.
Qed.

(** ** Valid counters *)
Lemma valid_wf c : valid c -> hm_wf eqb (ct_map c).
Proof. intros [[D _] _]. now apply wf_keys. Qed.

Lemma valid_range c : valid c -> in_range (sh c).
Proof.
  intros [[_ F] _] x k n H. apply entry_of_some in H. rewrite Forall_forall in F.
  destruct H as [H _]. exact (F _ H).
Qed.

Lemma shown_cong c x y : eqb x y = true -> sh c x = sh c y.
Proof. apply entry_of_cong; auto. Qed.

Lemma shown_size c : valid c -> has_size eqb (sh c) (ct_len c).
Proof.
  intros V. exists (map fst (ct_map c)). split; [apply V|]. split; [apply map_length|].
  intros x. unfold shown, ct_get_key_value. split.
  - destruct (hm_entry_of eqb x (ct_map c)) as [[k n]|] eqn:H; [intros _|congruence].
    apply entry_of_some in H. destruct H as [A B]. exists k. split; auto.
    apply (in_map fst) in A. exact A.
  - intros (k & A & B) H. apply in_map_iff in A. destruct A as (e & <- & A).
    rewrite entry_of_none in H. rewrite (H _ A) in B. discriminate.
Qed.

Lemma size_unique f n1 n2 : has_size eqb f n1 -> has_size eqb f n2 -> n1 = n2.
Proof.
  assert (Q : forall n1 n2, has_size eqb f n1 -> has_size eqb f n2 -> n1 <= n2).
  { intros a b (ks & D & <- & H) (ks2 & D2 & <- & H2).
    rewrite <- (map_length (fun k => (k, tt)) ks2).
    apply (distinct_incl_length L); auto.
    intros k X N. rewrite entry_of_none in N.
    assert (f k <> None) as Y by (apply H; exists k; split; auto; apply (eq_refl' L)).
    apply H2 in Y. destruct Y as (k' & A & B).
    specialize (N (k', tt)). simpl in N. rewrite N in B; [discriminate|].
    apply in_map_iff. eauto. }
  intros A B. apply Nat.le_antisymm; auto.
Qed.

Lemma size_same f g n : same f g -> has_size eqb f n -> has_size eqb g n.
Proof.
  intros S (ks & D & A & H). exists ks. repeat split; auto.
  - intros X. apply H. now rewrite S.
  - intros X. rewrite <- S. now apply H.
Qed.

Lemma len_shown c n : valid c -> has_size eqb (sh c) n -> ct_len c = n.
Proof. intros V H. eapply size_unique; eauto. now apply shown_size. Qed.

(** ** Adding one number *)
Lemma bump_cases k v c : valid c -> v <= usize_max E ->
  (exists c', ct_bump eqb E k v c = (c', Ret tt) /\ valid c' /\ same (sh c') (pl (sh c) [(k, v)]) /\
     (debug_build E = true -> count (sh c) k + v <= usize_max E)) \/
  (ct_bump eqb E k v c = (c, Panic) /\
     ((debug_build E = true /\ usize_max E < count (sh c) k + v) \/
      (sh c k = None /\ ct_len c = alloc_max E))).
Proof.
  intros V Hv. pose proof (valid_range V) as R. pose proof (valid_wf V) as W.
  destruct c as [m]. unfold ct_bump, hm_entry, hm_get, shown, ct_get_key_value, count in *.
  simpl in *.
  destruct (hm_entry_of eqb k m) as [[k' n]|] eqn:H; simpl.
  - pose proof (R k k' n H) as Rn.
    destruct (uadd_cases Rn Hv) as [[-> D]|(-> & D & G)].
    + left. eexists. split; [reflexivity|].
      split; [|split; [|exact D]].
      * destruct V as [[Dk F] Le]. unfold ct_valid, map_content, ct_len in *; simpl in *.
        rewrite set_keys, length_set. repeat split; auto.
        rewrite Forall_forall in *. intros [k2 n2] X.
        assert (W2 : hm_wf eqb (hm_set eqb k (wrap E (n + v)) m)) by now apply wf_set.
        assert (Y := proj2 (wf_iff L k2 (k2, n2) W2) (conj X (eq_refl' L k2))).
        rewrite (entry_of_set L) in Y. destruct (eqb k2 k).
        -- rewrite H in Y; simpl in Y; inversion Y. apply wrap_le.
        -- apply (entry_of_some) in Y. apply (F (k2, n2)). tauto.
      * intros x. unfold shown, ct_get_key_value, plus; simpl.
        rewrite (entry_of_set L), amount_one; simpl.
        destruct (eqb x k) eqn:Q.
        -- rewrite H, (entry_of_cong L m Q), H. simpl. reflexivity.
        -- destruct (hm_entry_of eqb x m) as [[k2 n2]|] eqn:Q2; auto.
           rewrite Nat.add_0_r, wrap_id; eauto.
    + right. split; auto.
  - unfold hm_reserve. destruct (length m + 1 <=? alloc_max E) eqn:Q; simpl.
    + left. apply Nat.leb_le in Q.
      assert (U : uadd E 0 v = Ret v) by (apply uadd_fits; exact Hv).
      rewrite U. eexists; split; [reflexivity|]. unfold hm_insert_vacant. simpl.
      split; [|split; [|auto]].
      * destruct V as [[Dk F] Le]. unfold ct_valid, map_content, ct_len in *; simpl in *.
        repeat split; auto; [|lia].
        constructor; auto. rewrite Forall_map, Forall_forall. intros e X.
        rewrite entry_of_none in H. auto.
      * intros x. unfold shown, ct_get_key_value, plus; simpl. rewrite amount_one; simpl.
        destruct (eqb x k) eqn:Q2.
        -- rewrite (entry_of_cong L m Q2), H, wrap_id; auto.
        -- destruct (hm_entry_of eqb x m) as [[k2 n2]|] eqn:Q3; auto.
           rewrite Nat.add_0_r, wrap_id; eauto.
    + right. apply Nat.leb_gt in Q. split; auto. right. split; auto.
      destruct V as [_ Le]. unfold ct_len in *; simpl in *. lia.
Qed.

(** ** Adding a list of numbers *)
Definition bumps l c := for_each (fun e => ct_bump eqb E (fst e) (snd e)) l c.

Lemma bumps_cases l c : valid c -> Forall (fun e => snd e <= usize_max E) l ->
  (exists c', bumps l c = (c', Ret tt) /\ valid c' /\ same (sh c') (pl (sh c) l) /\
     (debug_build E = true -> forall x, count (sh c) x + amt x l <= usize_max E)) \/
  (exists c' l1 e l2, bumps l c = (c', Panic) /\ valid c' /\ l = l1 ++ e :: l2 /\
     bumps l1 c = (c', Ret tt) /\ same (sh c') (pl (sh c) l1) /\
     ((debug_build E = true /\ usize_max E < count (sh c) (fst e) + amt (fst e) (l1 ++ [e])) \/
      (sh c' (fst e) = None /\ ct_len c' = alloc_max E))).
Proof.
  revert c. unfold bumps. induction l as [|[k v] l IH]; intros c V F.
  - left. exists c. simpl. split; auto. split; auto. split.
    + apply same_sym, plus_nil. now apply valid_range.
    + intros _ x. unfold amount; simpl. unfold count.
      destruct (sh c x) as [[k n]|] eqn:H; [|lia]. apply (valid_range V) in H. lia.
  - inversion F as [|? ? Hv F2]; subst. simpl in Hv.
    destruct (@bump_cases k v c V Hv) as [(c1 & H1 & V1 & S1 & D1)|[H1 P1]]; simpl; rewrite H1.
    + destruct (IH c1 V1 F2) as [(c2 & H2 & V2 & S2 & D2)|(c2 & l1 & e & l2 & H2 & V2 & -> & H3 & S2 & P2)].
      * left. exists c2. split; [exact H2|]. split; [exact V2|]. split.
        -- eapply same_trans; [exact S2|]. eapply same_trans; [apply plus_same; exact S1|].
           apply plus_app.
        -- intros Dg x. specialize (D2 Dg x). specialize (D1 Dg).
           unfold count at 1 in D2. rewrite (S1 x) in D2.
           fold (count (pl (sh c) [(k, v)]) x) in D2. rewrite count_plus in D2.
           rewrite amount_one in D2. rewrite amount_cons. simpl in *.
           assert (N : count (sh c) x <= usize_max E).
           { unfold count. destruct (sh c x) as [[k' n]|] eqn:Q; [|lia]. eapply (valid_range V); eauto. }
           destruct (eqb x k) eqn:Q.
           ++ unfold count in *. rewrite (shown_cong c Q) in *.
              rewrite wrap_id in D2 by lia. lia.
           ++ rewrite wrap_id in D2 by lia. lia.
      * right. exists c2, ((k, v) :: l1), e, l2. simpl. rewrite H1.
        split; [exact H2|]. split; [exact V2|]. split; [reflexivity|]. split; [exact H3|]. split.
        -- eapply same_trans; [exact S2|]. eapply same_trans; [apply plus_same; exact S1|].
           apply plus_app.
        -- destruct P2 as [[Dg G]|P2]; auto. left. split; auto.
           specialize (D1 Dg). unfold count at 1 in G. rewrite (S1 (fst e)) in G.
           fold (count (pl (sh c) [(k, v)]) (fst e)) in G. rewrite count_plus in G.
           rewrite amount_one in G. rewrite amount_cons. simpl in *.
           assert (N : count (sh c) (fst e) <= usize_max E).
           { unfold count. destruct (sh c (fst e)) as [[k' n]|] eqn:Q; [|lia]. eapply (valid_range V); eauto. }
           destruct (eqb (fst e) k) eqn:Q.
           ++ unfold count in *. rewrite (shown_cong c Q) in *.
              rewrite wrap_id in G by lia. lia.
           ++ rewrite wrap_id in G by lia. lia.
    + right. exists c, [], (k, v), l. simpl.
      split; [reflexivity|]. split; [exact V|]. split; [reflexivity|]. split; [reflexivity|]. split.
      * apply same_sym, plus_nil. now apply valid_range.
      * rewrite amount_one; simpl. rewrite (eq_refl' L). auto.
Qed.

(** ** Subtracting one number *)
Lemma lower_cases k v c : valid c ->
  (exists c', ct_lower eqb E k v c = (c', Ret tt) /\ valid c' /\ same (sh c') (mi (sh c) [(k, v)]) /\
     ct_len c' <= ct_len c) \/
  (ct_lower eqb E k v c = (c, Panic) /\ sh c k = None /\ ct_len c = alloc_max E).
Proof.
  intros V. pose proof (valid_range V) as R. pose proof (valid_wf V) as W.
  destruct c as [m]. unfold ct_lower, hm_entry, hm_get, shown, ct_get_key_value in *.
  simpl in *.
  destruct (hm_entry_of eqb k m) as [[k' n]|] eqn:H; simpl.
  - pose proof (R k k' n H) as Rn. left. destruct (n <=? v) eqn:C.
    + eexists. split; [reflexivity|]. split; [|split].
      * destruct V as [[Dk F] Le]. unfold ct_valid, map_content, ct_len in *; simpl in *.
        assert (W2 := wf_remove k W). pose proof (length_remove_le eqb k m).
        repeat split; [now apply wf_keys| |lia].
        rewrite Forall_forall in *. intros e X. apply F. now apply remove_in in X.
      * intros x. unfold shown, ct_get_key_value, minus, entry_in; simpl.
        rewrite (entry_of_remove L) by exact W.
        destruct (eqb x k) eqn:Q.
        -- rewrite (entry_of_cong L m Q), H, C. reflexivity.
        -- now destruct (hm_entry_of eqb x m) as [[k2 n2]|].
      * unfold ct_len; simpl. apply length_remove_le.
    + apply Nat.leb_gt in C. rewrite usub_fits by lia.
      eexists. split; [reflexivity|]. split; [|split].
      * destruct V as [[Dk F] Le]. unfold ct_valid, map_content, ct_len in *; simpl in *.
        rewrite set_keys, length_set. repeat split; auto.
        rewrite Forall_forall in *. intros [k2 n2] X.
        assert (W2 : hm_wf eqb (hm_set eqb k (n - v) m)) by now apply wf_set.
        assert (Y := proj2 (wf_iff L k2 (k2, n2) W2) (conj X (eq_refl' L k2))).
        rewrite (entry_of_set L) in Y. destruct (eqb k2 k).
        -- rewrite H in Y; simpl in Y; inversion Y. simpl. lia.
        -- apply (entry_of_some) in Y. apply (F (k2, n2)). tauto.
      * intros x. unfold shown, ct_get_key_value, minus, entry_in; simpl.
        rewrite (entry_of_set L).
        destruct (eqb x k) eqn:Q.
        -- rewrite H, (entry_of_cong L m Q), H. simpl.
           apply Nat.leb_gt in C. rewrite C. reflexivity.
        -- now destruct (hm_entry_of eqb x m) as [[k2 n2]|].
      * unfold ct_len; simpl. rewrite length_set. auto.
  - unfold hm_reserve. destruct (length m + 1 <=? alloc_max E) eqn:Q; simpl.
    + left. exists (Counter m). split; auto. split; auto. split; auto.
      intros x. unfold shown, ct_get_key_value, minus, entry_in; simpl.
      destruct (eqb x k) eqn:Q2.
      * rewrite (entry_of_cong L m Q2), H. auto.
      * now destruct (hm_entry_of eqb x m) as [[k2 n2]|].
    + right. apply Nat.leb_gt in Q. repeat split; auto.
      destruct V as [_ Le]. unfold ct_len in *; simpl in *. lia.
Qed.

Lemma minus_nil f : same (mi f []) f.
Proof. intros x. unfold minus; simpl. now destruct (f x) as [[k n]|]. Qed.

Lemma entry_in_distinct_cons x e l : distinct eqb (map fst (e :: l)) -> eqb x (fst e) = true ->
  entry_in eqb l x = None.
Proof.
  intros D H. inversion D as [|? ? F D2]; subst.
  rewrite entry_in_model, entry_of_none. intros e2 X.
  rewrite Forall_map, Forall_forall in F. rewrite (eqb_cong L _ H). auto.
Qed.

Lemma minus_cons f e l : distinct eqb (map fst (e :: l)) -> same (mi (mi f [e]) l) (mi f (e :: l)).
Proof.
  intros D x. unfold minus.
  change (entry_in eqb [e] x) with (if eqb x (fst e) then Some e else None).
  change (entry_in eqb (e :: l) x) with (if eqb x (fst e) then Some e else entry_in eqb l x).
  destruct (eqb x (fst e)) eqn:Q.
  - rewrite (entry_in_distinct_cons D Q). destruct e as [k2 v2]. simpl.
    destruct (f x) as [[k n]|]; auto. destruct (n <=? v2); auto.
  - destruct (f x) as [[k n]|]; auto.
Qed.

Definition lowers l c := for_each (fun e => ct_lower eqb E (fst e) (snd e)) l c.

Lemma lowers_cases l c : valid c -> distinct eqb (map fst l) ->
  (exists c', lowers l c = (c', Ret tt) /\ valid c' /\ same (sh c') (mi (sh c) l)
     /\ ct_len c' <= ct_len c) \/
  (exists c' l1 e l2, lowers l c = (c', Panic) /\ valid c' /\ l = l1 ++ e :: l2 /\
     same (sh c') (mi (sh c) l1) /\ sh c' (fst e) = None /\ ct_len c' = alloc_max E
     /\ ct_len c' <= ct_len c).
Proof.
  revert c. unfold lowers. induction l as [|[k v] l IH]; intros c V D.
  - left. exists c. simpl. repeat split; auto; try apply V. apply same_sym, minus_nil.
  - assert (D2 : distinct eqb (map fst l)) by (inversion D; auto).
    destruct (@lower_cases k v c V) as [(c1 & H1 & V1 & S1 & N1)|(H1 & P1 & N1)]; simpl; rewrite H1.
    + destruct (IH c1 V1 D2) as [(c2 & H2 & V2 & S2 & N2)|(c2 & l1 & e & l2 & H2 & V2 & -> & S2 & P2 & N2 & N3)].
      * left. exists c2. split; auto. split; auto. split; [|lia].
        eapply same_trans; [exact S2|]. eapply same_trans; [apply minus_same; exact S1|].
        apply minus_cons. exact D.
      * right. exists c2, ((k, v) :: l1), e, l2. repeat split; auto; try apply V2; [|lia].
        eapply same_trans; [exact S2|]. eapply same_trans; [apply minus_same; exact S1|].
        apply minus_cons. clear - D. simpl in *. inversion D as [|? ? F D2]; subst.
        constructor.
        -- rewrite map_app in F. apply Forall_app in F. tauto.
        -- rewrite map_app in D2. clear - D2.
           induction (map fst l1) as [|a q IHq]; simpl in *; [constructor|].
           inversion D2 as [|? ? F D3]; subst. constructor; auto. apply Forall_app in F; tauto.
    + right. exists c, [], (k, v), l. simpl. repeat split; auto; try apply V.
      apply same_sym, minus_nil.
Qed.

End Proofs.
