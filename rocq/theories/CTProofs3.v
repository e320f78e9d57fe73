(** Proofs about the counter: counting, addition, subtraction, equality. *)
From Coq Require Import Permutation.
From Verif Require Import Base HMModel HMProofs CTModel CTSpec CTRun CTProofs CTProofs2.
Local Open Scope outcome_scope.
Set Implicit Arguments.

Section Proofs.
Variable K : Type.
Variable eqb : K -> K -> bool.
Hypothesis L : eq_laws eqb.
Variable E : machine.
Implicit Types (c a b : counter K) (m : hmap K nat) (f g : fm K) (x k : K) (l : list (K * nat)).

Notation sh := (shown eqb).
Notation valid := (ct_valid eqb E).
Notation pl := (plus eqb E).
Notation mi := (minus eqb).
Notation amt := (amount eqb).
Notation bumps := (bumps eqb E).
Notation lowers := (lowers eqb E).
Notation get := (ct_get eqb).
Notation cnt c x := (opt_count (ct_get eqb c x)).

(** ** Lookups *)
Lemma get_shown c x : get c x = option_map snd (sh c x).
Proof. reflexivity. Qed.

Lemma cnt_count c x : cnt c x = count (sh c) x.
Proof. rewrite get_shown. unfold count. now destruct (sh c x) as [[k n]|]. Qed.

Lemma get_cong c x y : eqb x y = true -> get c x = get c y.
Proof. intros H. rewrite !get_shown. now rewrite (shown_cong L c _ _ H). Qed.

Lemma get_dom c x : get c x <> None <-> sh c x <> None.
Proof. rewrite get_shown. destruct (sh c x); simpl; split; congruence. Qed.

Lemma get_le c x n : valid c -> get c x = Some n -> n <= usize_max E.
Proof.
  intros V. rewrite get_shown. destruct (sh c x) as [[k n']|] eqn:H; [|discriminate].
  simpl. intros X; inversion X; subst. eapply (valid_range V); eauto.
Qed.

Lemma cnt_le c x : valid c -> cnt c x <= usize_max E.
Proof. intros V. destruct (get c x) as [n|] eqn:H; simpl; [|lia]. eapply get_le; eauto. Qed.

Lemma same_get a b : same (sh a) (sh b) -> forall x, get a x = get b x.
Proof. intros S x. now rewrite !get_shown, (S x). Qed.

Lemma get_plus c c' l x : valid c -> same (sh c') (pl (sh c) l) ->
  get c' x = match get c x, entry_in eqb l x with
             | None, None => None
             | _, _ => Some (wrap E (cnt c x + amt x l))
             end.
Proof.
  intros V S. rewrite !get_shown, (S x). unfold plus.
  destruct (sh c x) as [[k n]|]; simpl; auto.
  destruct (entry_in eqb l x) as [[k n]|]; auto.
Qed.

Lemma get_minus c c' l x : same (sh c') (mi (sh c) l) ->
  get c' x = opt_minus (get c x) (option_map snd (entry_in eqb l x)).
Proof.
  intros S. rewrite !get_shown, (S x). unfold minus, opt_minus.
  destruct (sh c x) as [[k n]|]; simpl; auto.
  destruct (entry_in eqb l x) as [[k2 n2]|]; simpl; auto.
  destruct (n <=? n2); auto.
Qed.

(** ** Entry lists with different keys *)
Lemma amount_distinct l x : distinct eqb (map fst l) ->
  amt x l = opt_count (option_map snd (entry_in eqb l x)).
Proof.
  induction l as [|e l IH]; intros D; auto.
  rewrite amount_cons. change (entry_in eqb (e :: l) x)
    with (if eqb x (fst e) then Some e else entry_in eqb l x).
  destruct (eqb x (fst e)) eqn:Q.
  - pose proof (entry_in_distinct_cons L _ D Q) as N.
    rewrite (entry_in_none_amount _ _ _ N). simpl. lia.
  - inversion D; subst. rewrite IH; auto.
Qed.

Lemma iterates_content b l : valid b -> iterates (ct_map b) l -> map_content eqb E l.
Proof.
  intros [[D F] _] P. split.
  - apply wf_keys. eapply (wf_perm L); eauto. now apply wf_keys.
  - rewrite Forall_forall in *. intros e X. apply F.
    eapply Permutation_in; [apply Permutation_sym; exact P|exact X].
Qed.

Lemma entry_iterates b l x : valid b -> iterates (ct_map b) l ->
  option_map snd (entry_in eqb l x) = get b x.
Proof.
  intros V P. rewrite entry_in_model, (entry_of_perm L x (valid_wf V) P). reflexivity.
Qed.

Lemma amount_iterates b l x : valid b -> iterates (ct_map b) l -> amt x l = cnt b x.
Proof.
  intros V P. rewrite amount_distinct by apply (iterates_content V P).
  now rewrite (entry_iterates x V P).
Qed.

Lemma entry_dom b l x : valid b -> iterates (ct_map b) l ->
  (entry_in eqb l x = None <-> get b x = None).
Proof.
  intros V P. rewrite <- (entry_iterates x V P). destruct (entry_in eqb l x); simpl; split; congruence.
Qed.

(** ** Equality *)
Lemma eq_iff a b : valid a -> valid b ->
  (ct_eq eqb a b = true <-> forall x, get a x = get b x).
Proof.
  intros Va Vb. unfold ct_eq, hm_eq. rewrite andb_true_iff, Nat.eqb_eq, forallb_forall.
  split.
  - intros [Le H].
    assert (AB : forall x n, get a x = Some n -> get b x = Some n).
    { intros x n Q. rewrite get_shown in Q. unfold shown, ct_get_key_value in Q.
      destruct (hm_entry_of eqb x (ct_map a)) as [[k n']|] eqn:Q2; [|discriminate].
      inversion Q; subst. apply (entry_of_some) in Q2. destruct Q2 as [A B].
      specialize (H _ A). simpl in H. change (hm_get eqb k (ct_map b)) with (get b k) in H.
      rewrite (get_cong b B). destruct (get b k) as [v|]; [|discriminate].
      apply Nat.eqb_eq in H. congruence. }
    intros x. destruct (get a x) as [n|] eqn:Q; [symmetry; auto|].
    destruct (get b x) as [n|] eqn:Q2; auto. exfalso.
    assert (S : ct_len a < ct_len b); [|unfold ct_len in S; lia].
    apply (@size_grows K eqb L (sh a) (sh b) _ _ x).
    + eapply shown_size; eauto.
    + eapply shown_size; eauto.
    + intros y Y. apply get_dom. apply get_dom in Y.
      destruct (get a y) as [v|] eqn:Q3; [|congruence]. rewrite (AB _ _ Q3). discriminate.
    + intros y z Y Z. rewrite <- (shown_cong L a _ _ Y); auto.
    + destruct (sh a x) eqn:Z; auto. exfalso. rewrite get_shown, Z in Q. discriminate.
    + apply get_dom. congruence.
  - intros H. split.
    + enough (ct_len a = ct_len b) by auto.
      apply (@size_unique K eqb L (sh b)).
      * eapply size_dom; [|eapply shown_size; exact Va].
        intros y. rewrite <- !get_dom, H. tauto.
      * eapply shown_size; eauto.
    + intros [k n] X. simpl. change (hm_get eqb k (ct_map b)) with (get b k). rewrite <- H.
      rewrite get_shown. unfold shown, ct_get_key_value.
      rewrite (proj2 (wf_iff L k (k, n) (valid_wf Va)) (conj X (eq_refl' L k))). simpl.
      apply Nat.eqb_refl.
Qed.

Lemma eq_refl_ct a : valid a -> ct_eq eqb a a = true.
Proof. intros V. apply eq_iff; auto. Qed.
Lemma eq_sym_ct a b : valid a -> valid b -> ct_eq eqb a b = ct_eq eqb b a.
Proof.
  intros Va Vb. destruct (ct_eq eqb a b) eqn:H1, (ct_eq eqb b a) eqn:H2; auto.
  - rewrite <- H2. symmetry. apply eq_iff; auto. intros x. symmetry. revert x. apply eq_iff; auto.
  - rewrite <- H1. apply eq_iff; auto. intros x. symmetry. revert x. apply eq_iff; auto.
Qed.
Lemma eq_trans_ct a b c : valid a -> valid b -> valid c ->
  ct_eq eqb a b = true -> ct_eq eqb b c = true -> ct_eq eqb a c = true.
Proof.
  intros Va Vb Vc H1 H2. apply eq_iff; auto. intros x.
  rewrite (proj1 (eq_iff Va Vb) H1). now apply eq_iff.
Qed.

(** ** When additions return *)
Definition room f l := forall n, has_size eqb (pl f l) n -> n <= alloc_max E.

Lemma bumps_iff c l : valid c -> Forall (fun e : K * nat => snd e <= usize_max E) l ->
  snd (bumps l c) = Ret tt <-> fits eqb E (sh c) l /\ room (sh c) l.
Proof.
  intros V F. split.
  - destruct (bumps l c) as [c' r] eqn:B. simpl. intros ->.
    destruct (bumps_ret_inv L V F B) as (_ & _ & G & N). split; auto.
  - intros [G R]. destruct (plus_has_size L l V) as (n & Sn).
    destruct (bumps_ret L V F Sn (R _ Sn) G) as (c' & -> & _). auto.
Qed.

Lemma room_mono c2 f1 l1 l2 : valid c2 ->
  (forall x, pl f1 l1 x <> None -> pl (sh c2) l2 x <> None) ->
  room (sh c2) l2 -> room f1 l1.
Proof.
  intros V D R n Sn. destruct (plus_has_size L l2 V) as (n2 & S2).
  specialize (R _ S2). pose proof (size_mono L Sn S2 D). lia.
Qed.

(** ** Adding *)
Section Add.
Variables a b : counter K.
Hypothesis Va : valid a.
Hypothesis Vb : valid b.

Lemma add_inv l c : iterates (ct_map b) l -> ct_add eqb E a l = Ret c ->
  bumps l a = (c, Ret tt) /\ valid c /\ same (sh c) (pl (sh a) l) /\ fits eqb E (sh a) l /\ room (sh a) l.
Proof.
  intros P. unfold ct_add, finish. change (ct_add_assign eqb E l a) with (bumps l a).
  destruct (bumps l a) as [c' r] eqn:B.
  destruct (iterates_content Vb P) as [_ F].
  destruct (bumps_outcome L Va F) as [H|H]; rewrite B in H; simpl in H; subst; simpl; [|discriminate].
  intros X; inversion X; subst.
  destruct (bumps_ret_inv L Va F B) as (V' & S & G & N). auto.
Qed.

Lemma add_pointwise l c : iterates (ct_map b) l -> ct_add eqb E a l = Ret c ->
  debug_build E = true \/ (forall x, cnt a x + cnt b x <= usize_max E) ->
  forall x, get c x = opt_plus (get a x) (get b x).
Proof.
  intros P H Ov x. destruct (add_inv P H) as (_ & V' & S & G & _).
  rewrite (get_plus x Va S), (amount_iterates x Vb P).
  assert (Q : cnt a x + cnt b x <= usize_max E).
  { destruct Ov as [D|Ov]; auto. specialize (G D x). rewrite (amount_iterates x Vb P), <- cnt_count in G. auto. }
  rewrite wrap_id by exact Q.
  pose proof (entry_dom x Vb P) as Ed. pose proof (entry_iterates x Vb P) as Ei.
  destruct (get a x) as [n|]; simpl.
  - destruct (get b x) as [v|]; simpl; auto.
  - destruct (entry_in eqb l x) as [[k v]|]; simpl in *; rewrite <- Ei; auto.
Qed.

(** the result in any build: counts are added modulo the [usize] range *)
Lemma add_wrapped l c : iterates (ct_map b) l -> ct_add eqb E a l = Ret c ->
  forall x, get c x = option_map (wrap E) (opt_plus (get a x) (get b x)).
Proof.
  intros P H x. destruct (add_inv P H) as (_ & V' & S & G & _).
  rewrite (get_plus x Va S), (amount_iterates x Vb P).
  pose proof (entry_iterates x Vb P) as Ei.
  destruct (get a x) as [n|] eqn:Qa; simpl.
  - destruct (get b x) as [v|]; simpl; auto.
  - destruct (entry_in eqb l x) as [[k v]|]; simpl in *; rewrite <- Ei; auto.
Qed.

Lemma add_returns l n : iterates (ct_map b) l ->
  (debug_build E = true -> forall x, cnt a x + cnt b x <= usize_max E) ->
  has_size eqb (fun x => match sh a x with Some e => Some e | None => sh b x end) n -> n <= alloc_max E ->
  exists c, ct_add eqb E a l = Ret c.
Proof.
  intros P Ov Sn N. destruct (iterates_content Vb P) as [_ F].
  assert (S2 : has_size eqb (pl (sh a) l) n).
  { eapply size_dom; [|exact Sn]. intros y. unfold plus.
    destruct (sh a y) as [[k v]|]; [split; congruence|].
    pose proof (entry_dom y Vb P) as Ed. pose proof (get_dom b y) as Gd.
    destruct (entry_in eqb l y) as [[k v]|]; split; intros X; try congruence.
    - apply Gd. intros Y. apply Ed in Y. discriminate.
    - apply Gd in X. destruct Ed as [Ed _]. specialize (Ed eq_refl). congruence. }
  destruct (bumps_ret L Va F S2 N) as (c & H & _).
  - intros D x. rewrite (amount_iterates x Vb P), <- cnt_count. auto.
  - exists c. unfold ct_add, finish. change (ct_add_assign eqb E l a) with (bumps l a). rewrite H. auto.
Qed.

End Add.

Lemma finish_ret r : (exists c, @finish K r = Ret c) <-> snd r = Ret tt.
Proof.
  destruct r as [c [[]| | | |]]; unfold finish; simpl; split; try discriminate; eauto;
  intros (c' & X); discriminate.
Qed.

Lemma agree_bumps a1 l1 a2 l2 : valid a1 -> valid a2 ->
  Forall (fun e : K * nat => snd e <= usize_max E) l1 ->
  Forall (fun e : K * nat => snd e <= usize_max E) l2 ->
  (forall x, cnt a1 x + amt x l1 = cnt a2 x + amt x l2) ->
  (forall x, pl (sh a1) l1 x <> None <-> pl (sh a2) l2 x <> None) ->
  agree eqb (finish (bumps l1 a1)) (finish (bumps l2 a2)).
Proof.
  intros V1 V2 F1 F2 A D.
  assert (O : snd (bumps l1 a1) = snd (bumps l2 a2)).
  { apply (bumps_same_outcome L V1 V2 F1 F2); auto. intros x. now rewrite <- !cnt_count. }
  destruct (bumps l1 a1) as [c1 r1] eqn:B1, (bumps l2 a2) as [c2 r2] eqn:B2. simpl in O; subst.
  destruct (bumps_outcome L V2 F2) as [H|H]; rewrite B2 in H; simpl in H; subst; simpl; auto.
  destruct (bumps_ret_inv L V1 F1 B1) as (V1' & S1 & _).
  destruct (bumps_ret_inv L V2 F2 B2) as (V2' & S2 & _).
  apply eq_iff; auto. intros x. specialize (D x).
  rewrite !get_shown, (S1 x), (S2 x).
  assert (Q : forall f l, option_map snd (pl f l x) =
      match pl f l x with Some _ => Some (wrap E (count f x + amt x l)) | None => None end).
  { intros f l. unfold plus, count. destruct (f x) as [[k n]|]; simpl; auto.
    destruct (entry_in eqb l x) as [[k n]|]; auto. }
  rewrite !Q, <- !cnt_count, A.
  destruct (pl (sh a1) l1 x), (pl (sh a2) l2 x); auto; exfalso;
  destruct D as [D1 D2]; [apply D1|apply D2]; congruence.
Qed.

Lemma plus_dom_iterates f b l x : valid b -> iterates (ct_map b) l ->
  pl f l x <> None <-> f x <> None \/ get b x <> None.
Proof.
  intros V P. unfold plus. destruct (f x) as [[k n]|].
  - split; [left|]; congruence.
  - pose proof (entry_dom x V P) as Ed. destruct (entry_in eqb l x) as [[k n]|].
    + split; [|congruence]. intros _. right. intros Q. apply Ed in Q. discriminate.
    + destruct Ed as [Ed _]. rewrite (Ed eq_refl). split; [congruence|]. intros [Q|Q]; congruence.
Qed.

Lemma add_comm a b la lb : valid a -> valid b -> iterates (ct_map a) la -> iterates (ct_map b) lb ->
  agree eqb (ct_add eqb E a lb) (ct_add eqb E b la).
Proof.
  intros Va Vb Pa Pb. apply agree_bumps; auto.
  - apply (iterates_content Vb Pb).
  - apply (iterates_content Va Pa).
  - intros x. rewrite (amount_iterates x Vb Pb), (amount_iterates x Va Pa). lia.
  - intros x. rewrite (plus_dom_iterates _ _ Vb Pb), (plus_dom_iterates _ _ Va Pa), <- !get_dom. tauto.
Qed.

Lemma add_orders a b l1 l2 : valid a -> valid b -> iterates (ct_map b) l1 -> iterates (ct_map b) l2 ->
  agree eqb (ct_add eqb E a l1) (ct_add eqb E a l2).
Proof.
  intros Va Vb P1 P2. apply agree_bumps; auto.
  - apply (iterates_content Vb P1).
  - apply (iterates_content Vb P2).
  - intros x. rewrite (amount_iterates x Vb P1), (amount_iterates x Vb P2). lia.
  - intros x. rewrite (plus_dom_iterates _ _ Vb P1), (plus_dom_iterates _ _ Vb P2). tauto.
Qed.

Lemma add_ref_orders cl a b l1 l2 : (forall k, eqb (cl k) k = true) ->
  valid a -> valid b -> iterates (ct_map b) l1 -> iterates (ct_map b) l2 ->
  agree eqb (ct_add eqb E a l1) (finish (ct_add_assign_ref eqb cl E l2 a)).
Proof.
  intros CL Va Vb P1 P2. rewrite add_assign_ref_bumps. apply agree_bumps; auto.
  - apply (iterates_content Vb P1).
  - apply clonel_small. apply (iterates_content Vb P2).
  - intros x. rewrite (amount_clonel L cl CL), (amount_iterates x Vb P1), (amount_iterates x Vb P2). lia.
  - intros x. rewrite (plus_dom_iterates _ _ Vb P1), plus_dom, (covered_clonel L cl CL x), <- plus_dom.
    rewrite (plus_dom_iterates _ _ Vb P2). tauto.
Qed.

Lemma wrap_wrap_r p q : wrap E (p + wrap E q) = wrap E (p + q).
Proof. rewrite Nat.add_comm, wrap_add, Nat.add_comm. auto. Qed.

Lemma wrap_wrap q : wrap E (wrap E q) = wrap E q.
Proof. apply wrap_id, wrap_le. Qed.

Lemma add_assoc a b c lb lc pick : valid a -> valid b -> valid c ->
  iterates (ct_map b) lb -> iterates (ct_map c) lc -> (forall l, Permutation l (pick l)) ->
  agree eqb (let* ab := ct_add eqb E a lb in ct_add eqb E ab lc)
            (let* bc := ct_add eqb E b lc in ct_add eqb E a (pick (ct_map bc))).
Proof.
  intros Va Vb Vc Pb Pc Pk.
  pose proof (iterates_content Vb Pb) as [_ Fb]. pose proof (iterates_content Vc Pc) as [_ Fc].
  assert (Oc : forall d l, valid d -> Forall (fun e : K * nat => snd e <= usize_max E) l ->
     (exists d', ct_add eqb E d l = Ret d') \/ ct_add eqb E d l = Panic).
  { intros d l Vd F. unfold ct_add, finish. change (ct_add_assign eqb E l d) with (bumps l d).
    destruct (bumps_outcome L Vd F) as [H|H]; rewrite H; simpl; eauto. }
  assert (Rt : forall d l, valid d -> Forall (fun e : K * nat => snd e <= usize_max E) l ->
     fits eqb E (sh d) l -> room (sh d) l -> exists d', ct_add eqb E d l = Ret d').
  { intros d l Vd F G R. unfold ct_add. apply finish_ret. apply bumps_iff; auto. }
  destruct (Oc a lb Va Fb) as [(ab & H1)|H1].
  - rewrite H1. simpl. destruct (add_inv Va Vb Pb H1) as (_ & Vab & Sab & Gab & Rab).
    destruct (Oc ab lc Vab Fc) as [(abc & H2)|H2].
    + rewrite H2. destruct (add_inv Vab Vc Pc H2) as (_ & Vabc & Sabc & Gabc & Rabc).
      assert (Ge : debug_build E = true -> forall x, cnt a x + cnt b x + cnt c x <= usize_max E).
      { intros D x. specialize (Gab D x). specialize (Gabc D x).
        rewrite (amount_iterates x Vc Pc), <- cnt_count in Gabc.
        rewrite (amount_iterates x Vb Pb), <- cnt_count in Gab.
        assert (Q := add_pointwise Va Vb Pb H1 (or_introl D) x). rewrite Q in Gabc.
        destruct (get a x), (get b x), (get c x); simpl in *; lia. }
      destruct (Rt b lc Vb Fc) as (bc & H3).
      { intros D x. rewrite (amount_iterates x Vc Pc), <- cnt_count. specialize (Ge D x). lia. }
      { eapply (room_mono Vab); [|exact Rabc]. intros x.
        rewrite !(plus_dom_iterates _ _ Vc Pc), (Sab x), (plus_dom_iterates _ _ Vb Pb), <- !get_dom. tauto. }
      rewrite H3. simpl. destruct (add_inv Vb Vc Pc H3) as (_ & Vbc & Sbc & _).
      pose proof (Pk (ct_map bc)) as Pbc. change (iterates (ct_map bc) (pick (ct_map bc))) in Pbc.
      destruct (iterates_content Vbc Pbc) as [_ Fbc].
      destruct (Rt a (pick (ct_map bc)) Va Fbc) as (abc2 & H4).
      { intros D x. rewrite (amount_iterates x Vbc Pbc), <- cnt_count.
        rewrite (add_pointwise Vb Vc Pc H3 (or_introl D) x). specialize (Ge D x).
        destruct (get a x), (get b x), (get c x); simpl in *; lia. }
      { eapply (room_mono Vab); [|exact Rabc]. intros x.
        rewrite !(plus_dom_iterates _ _ Vc Pc), (Sab x), (plus_dom_iterates _ _ Vb Pb),
          (plus_dom_iterates _ _ Vbc Pbc), get_dom, (Sbc x), (plus_dom_iterates _ _ Vc Pc), <- !get_dom.
        tauto. }
      rewrite H4. simpl. destruct (add_inv Va Vbc Pbc H4) as (_ & Vabc2 & _).
      apply eq_iff; auto. intros x.
      rewrite (add_wrapped Vab Vc Pc H2), (add_wrapped Va Vbc Pbc H4),
        (add_wrapped Va Vb Pb H1), (add_wrapped Vb Vc Pc H3).
      destruct (get a x) as [na|], (get b x) as [nb|], (get c x) as [nc|]; simpl; try reflexivity;
        apply f_equal; rewrite ?wrap_add, ?wrap_wrap_r, ?wrap_wrap; try reflexivity; f_equal; lia.
    + rewrite H2. destruct (Oc b lc Vb Fc) as [(bc & H3)|H3]; rewrite H3; simpl; auto.
      destruct (add_inv Vb Vc Pc H3) as (_ & Vbc & Sbc & _ & _).
      pose proof (Pk (ct_map bc)) as Pbc. change (iterates (ct_map bc) (pick (ct_map bc))) in Pbc.
      destruct (iterates_content Vbc Pbc) as [_ Fbc].
      destruct (Oc a (pick (ct_map bc)) Va Fbc) as [(abc2 & H4)|H4]; rewrite H4; auto.
      exfalso. destruct (add_inv Va Vbc Pbc H4) as (_ & Vabc2 & Sabc2 & G4 & R4).
      destruct (Rt ab lc Vab Fc) as (d & H5); [| |congruence].
      { intros D x. rewrite (amount_iterates x Vc Pc), <- cnt_count.
        specialize (G4 D x). rewrite (amount_iterates x Vbc Pbc), <- cnt_count in G4.
        rewrite (add_pointwise Va Vb Pb H1 (or_introl D) x).
        rewrite (add_pointwise Vb Vc Pc H3 (or_introl D) x) in G4.
        destruct (get a x), (get b x), (get c x); simpl in *; lia. }
      { eapply (room_mono Va); [|exact R4]. intros x.
        rewrite !(plus_dom_iterates _ _ Vc Pc), (Sab x), (plus_dom_iterates _ _ Vb Pb),
          (plus_dom_iterates _ _ Vbc Pbc), (get_dom bc), (Sbc x), (plus_dom_iterates _ _ Vc Pc), <- !get_dom.
        tauto. }
  - rewrite H1. simpl. destruct (Oc b lc Vb Fc) as [(bc & H3)|H3]; rewrite H3; simpl; auto.
    destruct (add_inv Vb Vc Pc H3) as (_ & Vbc & Sbc & _ & _).
    pose proof (Pk (ct_map bc)) as Pbc. change (iterates (ct_map bc) (pick (ct_map bc))) in Pbc.
    destruct (iterates_content Vbc Pbc) as [_ Fbc].
    destruct (Oc a (pick (ct_map bc)) Va Fbc) as [(abc2 & H4)|H4]; rewrite H4; auto.
    exfalso. destruct (add_inv Va Vbc Pbc H4) as (_ & Vabc2 & Sabc2 & G4 & R4).
    destruct (Rt a lb Va Fb) as (d & H5); [| |congruence].
    { intros D x. rewrite (amount_iterates x Vb Pb), <- cnt_count.
      specialize (G4 D x). rewrite (amount_iterates x Vbc Pbc), <- cnt_count in G4.
      rewrite (add_pointwise Vb Vc Pc H3 (or_introl D) x) in G4.
      destruct (get a x), (get b x), (get c x); simpl in *; lia. }
    { eapply (room_mono Va); [|exact R4]. intros x.
      rewrite !(plus_dom_iterates _ _ Vb Pb),
        (plus_dom_iterates _ _ Vbc Pbc), (get_dom bc), (Sbc x), (plus_dom_iterates _ _ Vc Pc), <- !get_dom.
      tauto. }
Qed.

(** ** Subtracting *)
Lemma sub_inv l a c : valid a -> distinct eqb (map fst l) -> ct_sub eqb E a l = Ret c ->
  lowers l a = (c, Ret tt) /\ valid c /\ same (sh c) (mi (sh a) l).
Proof.
  intros Va D. unfold ct_sub, finish. change (ct_sub_assign eqb E l a) with (lowers l a).
  destruct (lowers_cases L _ Va D) as [(c' & H & V' & S & _)|(c' & l1 & e & l2 & H & _)]; rewrite H; simpl.
  - intros X; inversion X; subst; auto.
  - discriminate.
Qed.

Lemma sub_pointwise a b l c : valid a -> valid b -> iterates (ct_map b) l -> ct_sub eqb E a l = Ret c ->
  forall x, get c x = opt_minus (get a x) (get b x).
Proof.
  intros Va Vb P H x. destruct (iterates_content Vb P) as [D _].
  destruct (sub_inv _ Va D H) as (_ & V' & S).
  rewrite (get_minus x S), (entry_iterates x Vb P). auto.
Qed.

Lemma sub_ret l a : valid a -> distinct eqb (map fst l) -> ct_len a < alloc_max E ->
  exists c, ct_sub eqb E a l = Ret c.
Proof.
  intros Va D Le. unfold ct_sub, finish. change (ct_sub_assign eqb E l a) with (lowers l a).
  destruct (lowers_cases L _ Va D) as [(c' & H & _)|(c' & l1 & e & l2 & H & _ & _ & _ & _ & N & N2)].
  - rewrite H; simpl; eauto.
  - lia.
Qed.

Lemma sub_ret_iff a b l : valid a -> valid b -> iterates (ct_map b) l ->
  (forall x, get b x <> None -> get a x <> None) -> exists c, ct_sub eqb E a l = Ret c.
Proof.
  intros Va Vb P Sub. destruct (iterates_content Vb P) as [D _].
  unfold ct_sub, finish. change (ct_sub_assign eqb E l a) with (lowers l a).
  destruct (lowers_cases L _ Va D) as [(c' & H & _)|(c' & l1 & e & l2 & H & V' & -> & S & N & Q & Q2)].
  - rewrite H; simpl; eauto.
  - exfalso. assert (G : get a (fst e) <> None).
    { apply Sub. rewrite <- (entry_iterates (fst e) Vb P). rewrite entry_in_app.
      destruct (entry_in eqb l1 (fst e)); [discriminate|]. unfold entry_in; simpl.
      rewrite (eq_refl' L). discriminate. }
    assert (X : ct_len c' < ct_len a).
    { apply (@size_grows K eqb L (sh c') (sh a) _ _ (fst e)).
      - eapply shown_size; eauto.
      - eapply shown_size; eauto.
      - intros y. rewrite (S y). unfold minus. destruct (sh a y) as [[k n]|]; auto. congruence.
      - intros y z Y Z. rewrite <- (shown_cong L c' _ _ Y); auto.
      - exact N.
      - now apply get_dom. }
    destruct Va as [_ Va]. lia.
Qed.

Lemma sub_ref_inv cl l a c : (forall k, eqb (cl k) k = true) -> valid a -> distinct eqb (map fst l) ->
  finish (ct_sub_assign_ref eqb cl E l a) = Ret c -> valid c /\
  forall x, get c x = opt_minus (get a x) (option_map snd (entry_in eqb l x)).
Proof.
  intros CL Va D. rewrite sub_assign_ref_lowers. intros H.
  destruct (@sub_inv (clonel cl l) a c) as (_ & V' & S); auto.
  { now apply (clonel_distinct L cl CL). }
  split; auto. intros x. rewrite (get_minus x S). now rewrite (entry_clonel L cl CL).
Qed.

End Proofs.
