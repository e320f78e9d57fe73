(** Proofs about the counter: panicking user code, exact conditions. *)
From Coq Require Import Permutation.
From Verif Require Import Base HMModel HMProofs CTModel CTModel2 UserSpec CTSpec CTSpec2 CTRun CTProofs CTProofs2 CTProofs3 CTProofs4 CTProofs5.
Local Open Scope outcome_scope.
Set Implicit Arguments.

Section Proofs.
Variable K : Type.
Variable eqb : K -> K -> bool.
Hypothesis L : eq_laws eqb.
Variable E : machine.
Hypothesis U : 1 <= usize_max E.
Implicit Types (c a b : counter K) (m : hmap K nat) (f g : fm K) (x k : K) (l : list (K * nat)).

Notation sh := (shown eqb).
Notation valid := (ct_valid eqb E).
Notation get := (ct_get eqb).
Notation cnt c x := (opt_count (ct_get eqb c x)).
Notation occ := (occ eqb).

(** ** Loops that stop *)
Definition stopped (p : bool) (r : counter K * outcome unit) : counter K * outcome unit :=
  (fst r, match snd r with Ret _ => if p then Panic else Ret tt | o => o end).

Lemma push_from evs c :
  ct_push_from eqb E evs c = stopped (snd (delivered evs)) (for_each (ct_push eqb E) (fst (delivered evs)) c).
Proof.
  revert c. induction evs as [|[k|] evs IH]; intros c; cbn; auto.
  destruct (ct_push eqb E k c) as [c' [u| | | |]]; cbn; auto.
Qed.

Lemma get_bumps c c' l : valid c -> same (sh c') (plus eqb E (sh c) l) ->
  forall x, get c' x = added_on eqb E (get c) l x.
Proof. clear U.
  intros V S x. rewrite (get_plus x V S). unfold added_on.
  destruct (entry_in eqb l x) as [[k v]|] eqn:Q.
  - destruct (get c x); reflexivity.
  - rewrite (entry_in_none_amount _ _ _ Q). destruct (get c x) as [n|] eqn:G; auto.
    simpl. rewrite Nat.add_0_r, wrap_id; auto. exact (get_le _ V G).
Qed.

Lemma added_unit (a : K -> option nat) xs x : added_on eqb E a (unitl xs) x = counted_on eqb E a xs x.
Proof.
  unfold added_on, counted_on. rewrite amount_unitl. pose proof (unit_entry_none eqb x xs) as N.
  destruct (entry_in eqb (unitl xs) x) as [e|], (occ x xs =? 0) eqn:Z; auto.
  - apply Nat.eqb_eq in Z. apply N in Z. discriminate.
  - apply Nat.eqb_neq in Z. destruct Z. apply N. reflexivity.
Qed.

Lemma added_one (a : K -> option nat) (e : K * nat) x : added_on eqb E a [e] x =
  if eqb x (fst e) then Some (wrap E (opt_count (a x) + snd e)) else a x.
Proof. clear U.
  unfold added_on. rewrite amount_one. unfold entry_in; cbn [find]. destruct (eqb x (fst e)); auto.
Qed.

Lemma added_step (a a' : K -> option nat) (e : K * nat) l x :
  (forall y, a' y = if eqb y (fst e) then Some (wrap E (opt_count (a y) + snd e)) else a y) ->
  added_on eqb E a' l x = added_on eqb E a (e :: l) x.
Proof. clear U.
  intros H. unfold added_on. rewrite H, amount_cons.
  change (entry_in eqb (e :: l) x) with (if eqb x (fst e) then Some e else entry_in eqb l x).
  destruct (eqb x (fst e)); [|reflexivity]. cbn [opt_count].
  destruct (entry_in eqb l x) eqn:Q.
  - f_equal. rewrite wrap_add. f_equal. lia.
  - rewrite (entry_in_none_amount _ _ _ Q). f_equal. f_equal. lia.
Qed.

Lemma bumps_end l c : valid c -> Forall (fun e : K * nat => snd e <= usize_max E) l ->
  exists c' r, for_each (fun e => ct_bump eqb E (fst e) (snd e)) l c = (c', r) /\ valid c' /\
  ((forall x, get c' x = added_on eqb E (get c) l x) /\ r = Ret tt \/
   exists l1 e l2, l = l1 ++ e :: l2 /\ (forall x, get c' x = added_on eqb E (get c) l1 x) /\ r = Panic /\
     (debug_build E = true /\ usize_max E < cnt c' (fst e) + snd e \/ get c' (fst e) = None /\ ct_len c' = alloc_max E)).
Proof. clear U.
  revert c. induction l as [|e l IH]; intros c V F.
  - exists c, (Ret tt). split; auto.
  - inversion F as [|? ? F1 F2]; subst. cbn.
    destruct (@bump_cases K eqb L E (fst e) (snd e) c V F1) as [(c1 & H & V1 & S1 & _)|[H O]]; rewrite H.
    + assert (Eta : (fst e, snd e) = e) by (destruct e; auto). rewrite Eta in S1.
      destruct (IH c1 V1 F2) as (c' & r & H' & V' & A).
      exists c', r. split; auto. split; auto.
      pose proof (get_bumps V S1) as G1.
      assert (Step : forall l0 x, added_on eqb E (get c1) l0 x = added_on eqb E (get c) (e :: l0) x).
      { intros l0 x. apply added_step. intros y. rewrite G1. apply added_one. }
      destruct A as [[G ->]|(l1 & e1 & l2 & -> & G & -> & O)].
      * left. split; auto. intros x. rewrite G. apply Step.
      * right. exists (e :: l1), e1, l2. split; auto. split; auto. intros x. rewrite G. apply Step.
    + exists c, Panic. split; auto. split; auto. right. exists [], e, l. split; auto.
      split; [reflexivity|]. split; auto.
      destruct O as [[D O]|[O1 O2]].
      * left. split; auto. rewrite cnt_count. auto.
      * right. split; auto. rewrite get_shown, O1. reflexivity.
Qed.

Lemma unitl_app (xs : list K) l1 e l2 : unitl xs = l1 ++ e :: l2 ->
  exists ys z zs, xs = ys ++ z :: zs /\ l1 = unitl ys /\ e = (z, 1).
Proof.
  revert xs. induction l1 as [|p l1 IH]; intros [|x xs] H; try discriminate.
  - injection H as <- H. exists [], x, xs. repeat split.
  - injection H as <- H. destruct (IH xs H) as (ys' & z & zs & -> & -> & ->).
    exists (x :: ys'), z, zs. repeat split.
Qed.

Lemma pushes_end xs c : valid c ->
  exists c' r, for_each (ct_push eqb E) xs c = (c', r) /\ valid c' /\
  ((forall x, get c' x = counted_on eqb E (get c) xs x) /\ r = Ret tt \/
   exists ys z zs, xs = ys ++ z :: zs /\ (forall x, get c' x = counted_on eqb E (get c) ys x) /\ r = Panic /\
     (debug_build E = true /\ get c' z = Some (usize_max E) \/ get c' z = None /\ ct_len c' = alloc_max E)).
Proof.
  intros V. rewrite push_bumps. unfold bumps.
  destruct (bumps_end V (unitl_small E U xs)) as (c' & r & H & V' & A).
  exists c', r. split; auto. split; auto.
  destruct A as [[G ->]|(l1 & e & l2 & H1 & G & -> & O)].
  - left. split; auto. intros x. rewrite G. apply added_unit.
  - right. destruct (unitl_app _ _ _ _ H1) as (ys & z & zs & -> & -> & ->).
    exists ys, z, zs. split; auto. split; [intros x; rewrite G; apply added_unit|]. split; auto.
    destruct O as [[D O]|O]; auto. left. split; auto. cbn in O.
    pose proof (cnt_le z V') as B. destruct (get c' z) as [n|]; cbn in *; [f_equal; lia|lia].
Qed.

Lemma extend_from_end hint evs c c' r : valid c -> ct_extend_from eqb E hint evs c = (c', r) ->
  valid c' /\
  extension eqb E hint (fst (delivered evs)) (snd (delivered evs)) (get c) (ct_len c) (get c') (ct_len c') r.
Proof.
  intros V H. unfold ct_extend_from, hm_reserve in H. unfold extension. destruct hint as [h|].
  - fold (ct_len c) in H. destruct (ct_len c + h <=? alloc_max E) eqn:Q.
    + apply Nat.leb_le in Q. rewrite push_from in H.
      destruct (pushes_end (fst (delivered evs)) V) as (c1 & r1 & H1 & V1 & A). rewrite H1 in H.
      unfold stopped in H; cbn in H. injection H as <- <-. split; auto. right. exists h. split; auto. split; auto.
      destruct A as [[G ->]|(ys & z & zs & Hx & G & -> & O)].
      * left. split; auto.
      * right. exists ys, z, zs. auto.
    + apply Nat.leb_gt in Q. injection H as <- <-. split; auto. left. split; auto. right. eauto.
  - injection H as <- <-. split; auto.
Qed.

Lemma refs_copy evs : map (option_map (fun key : K => key)) evs = evs.
Proof. induction evs as [|[k|] evs IH]; cbn; congruence. Qed.

Lemma extend_refs_from hint evs c : ct_extend_refs eqb E hint evs c = ct_extend_from eqb E hint evs c.
Proof. clear U. unfold ct_extend_refs, ct_extend_from. rewrite refs_copy. reflexivity. Qed.

Lemma from_iter_from_extend hint evs :
  ct_from_iter_from eqb E hint evs = finish (ct_extend_from eqb E hint evs (ct_new K)).
Proof.
  unfold ct_from_iter_from, ct_with_capacity, ct_extend_from, hm_reserve, ct_new. destruct hint as [h|]; auto. simpl.
  destruct (h <=? alloc_max E); reflexivity.
Qed.

Lemma from_iter_from_exact hint evs :
  (exists c, ct_from_iter_from eqb E hint evs = Ret c) <->
  (exists h, hint = Some h /\ h <= alloc_max E) /\ snd (delivered evs) = false /\
  exists c, ct_from_iter eqb E 0 (fst (delivered evs)) = Ret c.
Proof. clear U.
  unfold ct_from_iter_from, ct_from_iter, ct_with_capacity, hm_reserve. cbn [length Nat.add Nat.leb obind].
  replace (0 <=? alloc_max E) with true by reflexivity. cbn [obind].
  destruct hint as [h|].
  - destruct (h <=? alloc_max E) eqn:Q; cbn [obind].
    + apply Nat.leb_le in Q. rewrite push_from. unfold finish, stopped; cbn [fst snd].
      destruct (for_each (ct_push eqb E) (fst (delivered evs)) (Counter [])) as [c [u| | | |]]; cbn.
      * destruct (snd (delivered evs)); cbn.
        -- split; [intros (? & ?); discriminate|intros (_ & ? & _); discriminate].
        -- split; eauto.
      * split; [intros (? & ?); discriminate|intros (_ & _ & ? & ?); discriminate].
      * split; [intros (? & ?); discriminate|intros (_ & _ & ? & ?); discriminate].
      * split; [intros (? & ?); discriminate|intros (_ & _ & ? & ?); discriminate].
      * split; [intros (? & ?); discriminate|intros (_ & _ & ? & ?); discriminate].
    + apply Nat.leb_gt in Q. split; [intros (? & ?); discriminate|intros ((h' & [= <-] & ?) & _); lia].
  - split; [intros (? & ?); discriminate|intros ((h' & ? & _) & _); discriminate].
Qed.

(** ** Clones that panic *)
Section Clone.
Variable clone : K -> option K.
Hypothesis CL : forall k k', clone k = Some k' -> eqb k' k = true.

Definition cl_of (k : K) : K := match clone k with Some k' => k' | None => k end.
Lemma cl_of_eq k : eqb (cl_of k) k = true.
Proof. unfold cl_of. destruct (clone k) eqn:Q; auto. apply (eq_refl' L). Qed.

Lemma delivered_cloned evs : delivered (cloned clone evs) =
  (map cl_of (fst (delivered_clones clone evs)), snd (delivered_clones clone evs)).
Proof.
  unfold cloned. induction evs as [|[k|] evs IH]; cbn; auto. destruct (clone k) eqn:Q; cbn; auto. rewrite IH. cbn.
  unfold cl_of at 2. rewrite Q. reflexivity.
Qed.

Lemma occ_clones x (xs : list K) : occ x (map cl_of xs) = occ x xs.
Proof.
  unfold CTSpec.occ. induction xs as [|y xs IH]; simpl; auto.
  rewrite (eqb_cong_r L x (cl_of_eq y)). destruct (eqb x y); simpl; auto.
Qed.

Lemma from_iter_refs_exact hint evs :
  (exists c, ct_from_iter_refs eqb clone E hint evs = Ret c) <->
  (exists h, hint = Some h /\ h <= alloc_max E) /\ snd (delivered_clones clone evs) = false /\
  exists c, ct_from_iter eqb E 0 (fst (delivered_clones clone evs)) = Ret c.
Proof.
  change (ct_from_iter_refs eqb clone E hint evs) with (ct_from_iter_from eqb E hint (cloned clone evs)).
  rewrite from_iter_from_exact, delivered_cloned. cbn [fst snd].
  pose proof (@from_iter_ref_agree K eqb L E U cl_of 0 (fst (delivered_clones clone evs)) cl_of_eq) as A.
  assert (Q : (exists c, ct_from_iter eqb E 0 (map cl_of (fst (delivered_clones clone evs))) = Ret c) <->
              (exists c, ct_from_iter eqb E 0 (fst (delivered_clones clone evs)) = Ret c)).
  { change (ct_from_iter eqb E 0 (map cl_of (fst (delivered_clones clone evs))))
      with (ct_from_iter_ref eqb cl_of E 0 (fst (delivered_clones clone evs))).
    unfold agree in A.
    destruct (ct_from_iter eqb E 0 (fst (delivered_clones clone evs))) eqn:Q1,
      (ct_from_iter_ref eqb cl_of E 0 (fst (delivered_clones clone evs))) eqn:Q2; cbn in A; try contradiction;
      split; intros (c0 & H0); try discriminate; eauto. }
  rewrite Q. reflexivity.
Qed.

Lemma from_iter_refs_counts hint evs c : ct_from_iter_refs eqb clone E hint evs = Ret c ->
  valid c /\ forall x, get c x = counted_on eqb E (fun _ => None) (fst (delivered_clones clone evs)) x.
Proof.
  change (ct_from_iter_refs eqb clone E hint evs) with (ct_from_iter_from eqb E hint (cloned clone evs)).
  rewrite from_iter_from_extend. unfold finish.
  destruct (ct_extend_from eqb E hint (cloned clone evs) (ct_new K)) as [c' r] eqn:H.
  destruct (extend_from_end _ _ (new_valid eqb E) H) as [V A]. cbn [fst snd].
  destruct A as [(_ & _ & ->)|(h & _ & _ & [[G ->]|(ys & z & zs & _ & _ & -> & _)])]; try discriminate.
  rewrite delivered_cloned in *. cbn [fst snd] in *.
  destruct (snd (delivered_clones clone evs)); cbn; [discriminate|]. intros [= <-]. split; auto.
  intros x. rewrite G. unfold counted_on. rewrite occ_clones. reflexivity.
Qed.

Lemma add_refs_end l c : valid c -> Forall (fun e : K * nat => snd e <= usize_max E) l ->
  exists c' r, ct_add_assign_refs eqb clone E l c = (c', r) /\ valid c' /\
  ((forall e, In e l -> clone (fst e) <> None) /\ (forall x, get c' x = added_on eqb E (get c) l x) /\ r = Ret tt \/
   exists l1 e l2, l = l1 ++ e :: l2 /\ (forall x, get c' x = added_on eqb E (get c) l1 x) /\ r = Panic /\
     (forall e, In e l1 -> clone (fst e) <> None) /\
     (clone (fst e) = None \/
      debug_build E = true /\ usize_max E < cnt c' (fst e) + snd e \/ get c' (fst e) = None /\ ct_len c' = alloc_max E)).
Proof. clear U.
  unfold ct_add_assign_refs. revert c. induction l as [|e l IH]; intros c V F.
  - exists c, (Ret tt). split; [reflexivity|]. split; [exact V|]. left. split; [intros ? []|]. split; auto.
  - inversion F as [|? ? F1 F2]; subst. cbn [for_each]. unfold ct_bump_clone at 1.
    destruct (clone (fst e)) as [k'|] eqn:Q.
    2:{ exists c, Panic. split; [reflexivity|]. split; [exact V|]. right. exists [], e, l. split; [reflexivity|].
        split; [reflexivity|]. split; [reflexivity|]. split; [intros ? []|auto]. }
    pose proof (CL Q) as Ek.
    destruct (@bump_cases K eqb L E k' (snd e) c V F1) as [(c1 & H & V1 & S1 & _)|[H O]]; rewrite H.
    + destruct (IH c1 V1 F2) as (c' & r & H' & V' & A).
      exists c', r. split; auto. split; auto.
      pose proof (get_bumps V S1) as G1.
      assert (Step : forall l0 x, added_on eqb E (get c1) l0 x = added_on eqb E (get c) (e :: l0) x).
      { intros l0 x. apply added_step. intros y. rewrite G1, added_one; cbn [fst snd].
        rewrite (eqb_cong_r L y Ek). reflexivity. }
      destruct A as [(N & G & ->)|(l1 & e1 & l2 & -> & G & -> & N & O)].
      * left. split; [intros e0 [<-|I0]; [congruence|auto]|]. split; auto. intros x. rewrite G. apply Step.
      * right. exists (e :: l1), e1, l2. split; auto. split; [intros x; rewrite G; apply Step|]. split; auto.
        split; auto. intros e0 [<-|I0]; [congruence|auto].
    + exists c, Panic. split; [reflexivity|]. split; [exact V|]. right. exists [], e, l. split; [reflexivity|].
      split; [reflexivity|]. split; [reflexivity|]. split; [intros ? []|]. right.
      destruct O as [[D O]|[O1 O2]].
      * left. split; auto. rewrite <- cnt_count, (get_cong L c _ _ Ek) in O. auto.
      * right. split; auto. rewrite <- (get_cong L c _ _ Ek), get_shown, O1. reflexivity.
Qed.

Lemma sub_refs_end l c : valid c -> distinct eqb (map fst l) ->
  exists c' r, ct_sub_assign_refs eqb clone E l c = (c', r) /\ valid c' /\
  ((forall e, In e l -> clone (fst e) <> None) /\ (forall x, get c' x = taken_off eqb (get c) l x) /\ r = Ret tt \/
   exists l1 e l2, l = l1 ++ e :: l2 /\ (forall x, get c' x = taken_off eqb (get c) l1 x) /\ r = Panic /\
     (forall e, In e l1 -> clone (fst e) <> None) /\
     (clone (fst e) = None \/ get c (fst e) = None /\ ct_len c' = alloc_max E)).
Proof. clear U.
  unfold ct_sub_assign_refs. revert c. induction l as [|e l IH]; intros c V D.
  - exists c, (Ret tt). split; [reflexivity|]. split; [exact V|]. left. split; [intros ? []|]. split; auto.
    intros x. unfold taken_off; cbn. destruct (get c x); auto.
  - pose proof D as D'. inversion D as [|? ? D1 D2]; subst. cbn [for_each]. unfold ct_lower_clone at 1.
    destruct (clone (fst e)) as [k'|] eqn:Q.
    2:{ exists c, Panic. split; [reflexivity|]. split; [exact V|]. right. exists [], e, l. split; [reflexivity|].
        split; [intros x; unfold taken_off; cbn; destruct (get c x); auto|].
        split; [reflexivity|]. split; [intros ? []|auto]. }
    pose proof (CL Q) as Ek.
    destruct (@lower_cases K eqb L E k' (snd e) c V) as [(c1 & H & V1 & S1 & _)|(H & O1 & O2)]; rewrite H.
    + destruct (IH c1 V1 D2) as (c' & r & H' & V' & A).
      exists c', r. split; auto. split; auto.
      assert (G1 : forall x, get c1 x = if eqb x (fst e) then opt_minus (get c x) (Some (snd e)) else get c x).
      { intros x. rewrite (get_minus x S1). unfold entry_in; cbn. rewrite (eqb_cong_r L x Ek).
        destruct (eqb x (fst e)); cbn; auto. destruct (get c x); auto. }
      assert (Step : forall l0 x, (forall e0, In e0 l0 -> In e0 l) ->
                taken_off eqb (get c1) l0 x = taken_off eqb (get c) (e :: l0) x).
      { intros l0 x Sub. unfold taken_off. rewrite G1. unfold entry_in; cbn [find].
        destruct (eqb x (fst e)) eqn:X; cbn; auto.
        destruct (find (fun e0 => eqb x (fst e0)) l0) as [e0|] eqn:Q'; cbn.
        - exfalso. apply find_some in Q'. destruct Q' as [I0 Q']. apply Sub in I0.
          rewrite Forall_forall in D1. specialize (D1 (fst e0) (in_map fst _ _ I0)).
          rewrite (eqb_cong L _ X) in Q'. congruence.
        - destruct (get c x) as [n|]; cbn; auto. destruct (n <=? snd e); auto. }
      destruct A as [(N & G & ->)|(l1 & e1 & l2 & -> & G & -> & N & O)].
      * left. split; [intros e0 [<-|I0]; [congruence|auto]|]. split; auto. intros x. rewrite G. apply Step; auto.
      * right. exists (e :: l1), e1, l2. split; auto.
        split; [intros x; rewrite G; apply Step; intros; apply in_or_app; auto|]. split; auto.
        split; [intros e0 [<-|I0]; [congruence|auto]|].
        destruct O as [O|[O1 O2]]; auto. right. split; auto.
        rewrite G1 in O1. rewrite Forall_forall in D1.
        specialize (D1 (fst e1)). rewrite (eqb_sym L), D1 in O1; auto.
        rewrite map_app. apply in_or_app. right. cbn; auto.
    + exists c, Panic. split; [reflexivity|]. split; [exact V|]. right. exists [], e, l. split; [reflexivity|].
      split; [intros x; unfold taken_off; cbn; destruct (get c x); auto|]. split; [reflexivity|].
      split; [intros ? []|]. right. split; auto. rewrite <- (get_cong L c _ _ Ek), get_shown, O1. reflexivity.
Qed.
End Clone.

(** ** Exact conditions *)
Lemma extend_exact h xs c : valid c ->
  (exists c', ct_extend eqb E h xs c = (c', Ret tt)) <->
  ct_len c + h <= alloc_max E /\
  (exists n, has_distinct eqb (map fst (ct_map c) ++ xs) n /\ n <= alloc_max E) /\
  (debug_build E = true -> forall x, cnt c x + occ x xs <= usize_max E).
Proof.
  intros V. split.
  - intros (c' & H). destruct (extend_inv h xs V H) as [A B]. split; auto.
    destruct (bumps_ret_inv L V (unitl_small E U xs) B) as (V' & S & G & N).
    split.
    + exists (ct_len c'). split; [|apply V'].
      destruct (shown_size V') as (ks & D & Nk & Hk). exists ks. split; auto. split; auto.
      intros x. rewrite <- Hk, (S x), plus_dom, unitl_keys.
      split.
      * intros [X|(k & Ik & Ek)]; [|exists k; split; auto; apply in_or_app; auto].
        unfold shown, ct_get_key_value in X.
        destruct (hm_entry_of eqb x (ct_map c)) as [[k v]|] eqn:Q; [|congruence].
        apply entry_of_some in Q. destruct Q as [Ik Ek]. exists k. split; auto.
        apply in_or_app; left. apply (in_map fst) in Ik. exact Ik.
      * intros (k & Ik & Ek). apply in_app_or in Ik. destruct Ik as [Ik|Ik]; [left|right; exists k; auto].
        unfold shown, ct_get_key_value. intros Q. rewrite entry_of_none in Q.
        apply in_map_iff in Ik. destruct Ik as (e & <- & Ik). rewrite (Q _ Ik) in Ek. discriminate.
    + intros D x. specialize (G D x). rewrite amount_unitl, <- cnt_count in G. auto.
  - intros (A & (n & D & N) & O). exact (@extend_returns K eqb L E U h xs c n V A D N O).
Qed.

Lemma from_iter_exact h xs :
  (exists c, ct_from_iter eqb E h xs = Ret c) <->
  h <= alloc_max E /\ (exists n, has_distinct eqb xs n /\ n <= alloc_max E) /\
  (debug_build E = true -> forall x, occ x xs <= usize_max E).
Proof.
  rewrite <- (extend_exact h xs (new_valid eqb E)). split.
  - intros (c & H). apply from_iter_inv in H. eauto.
  - intros (c & H). exists c. rewrite from_iter_extend, H. reflexivity.
Qed.

Lemma push_release k c : debug_build E = false -> valid c ->
  (ct_push eqb E k c = (c, Panic) /\ get c k = None /\ ct_len c = alloc_max E) \/
  (exists c', ct_push eqb E k c = (c', Ret tt) /\ valid c' /\
     get c' k = Some (if cnt c k =? usize_max E then 0 else S (cnt c k)) /\
     forall x, eqb x k = false -> get c' x = get c x).
Proof.
  intros D V. destruct (@bump_cases K eqb L E k 1 c V U) as [(c' & H & V' & S & O)|[H O]].
  - right. exists c'. split; auto. split; auto. pose proof (get_bumps V S) as G. split.
    + rewrite G, added_one. cbn [fst snd]. rewrite (eq_refl' L). f_equal.
      pose proof (cnt_le k V) as B. unfold wrap. rewrite Nat.add_1_r.
      destruct (Nat.eqb_spec (cnt c k) (usize_max E)) as [->|N].
      * apply Nat.mod_same. discriminate.
      * apply Nat.mod_small. lia.
    + intros x X. rewrite G, added_one. cbn [fst]. rewrite X. reflexivity.
  - left. split; auto. destruct O as [[O _]|[O1 O2]]; [congruence|]. split; auto. rewrite get_shown, O1. reflexivity.
Qed.

(** ** most_common *)
Lemma most_common_front c k n r : valid c -> ct_into_most_common E c ((k, n) :: r) ->
  get c k = Some n /\ forall x, cnt c x <= n.
Proof. clear U.
  intros V H. destruct (into_most_common_ok L V H) as [[D En] S].
  assert (G : forall x e, In e ((k, n) :: r) -> eqb x (fst e) = true -> get c x = Some (snd e)).
  { intros x e I X. rewrite get_shown. destruct (En x e) as [_ Q]. rewrite (Q (conj I X)). reflexivity. }
  split; [apply (G k (k, n)); [left; reflexivity|apply (eq_refl' L)]|].
  intros x. rewrite get_shown. destruct (sh c x) as [e|] eqn:Q; [|cbn; lia]. apply En in Q. destruct Q as [I _].
  cbn. inversion S as [|? ? S1 S2]; subst. rewrite Forall_forall in S1. destruct I as [<-|I]; [cbn; lia|].
  exact (S1 _ I).
Qed.

Lemma most_common_length cl c r1 r2 : valid c -> ct_into_most_common E c r1 -> ct_most_common cl E c r2 ->
  length r1 = ct_len c /\ length r2 = ct_len c.
Proof. clear U.
  intros V H1 H2. pose proof (most_common_counts L V H1 H2) as H. apply (f_equal (@length nat)) in H.
  rewrite !map_length in H. rewrite <- H.
  destruct H1 as (l & P & Q & _). unfold iterates in P. rewrite <- (Permutation_length Q), <- (Permutation_length P). auto.
Qed.

End Proofs.
