(** Property theorem C93: circular buffers of elements that may not be left
    uninitialised, with compilers that check this. *)
From Verif Require Import Base CBSpec CBModel CBModel2 CBModel3 CBRun CBRun2 CBRun3 CBSpec2 CBProofs CBProofs2 CBProofs3 CBProofs4 CBProofs7 CBProps CBProps2 CBProps3.
Local Open Scope list_scope.
Local Open Scope outcome_scope.

(** ** C93 *)
Lemma fill_r T n : push_uninit_r (T:=T) [] n = if n =? 0 then Ret [] else Panic.
Proof. reflexivity. Qed.

Lemma new_r_cases T E k : k <= usize_max E ->
  new_r T E k = (if (k =? usize_max E) && negb (debug_build E) then Ret (CB [] 0 0) else Panic).
Proof.
  intros Hk. unfold new_r, with_capacity_r, uadd, vec_with_capacity. destruct (Nat.eqb_spec k (usize_max E)) as [->|N]; cbn [andb].
  - rewrite (proj2 (Nat.leb_gt _ _)) by lia. destruct (debug_build E); cbn; auto.
    replace (usize_max E + 1 - S (usize_max E)) with 0 by lia. reflexivity.
  - rewrite (proj2 (Nat.leb_le _ _)) by lia. cbn [obind]. destruct (_ <=? alloc_max E); auto. cbn [obind].
    rewrite fill_r, (proj2 (Nat.eqb_neq _ _)) by lia. reflexivity.
Qed.

(** no constructor gives a buffer, whatever the capacity or the elements, except
    for the useless one of [new(usize::MAX)] without overflow checks (C17); a
    vector converted is dropped, collected elements are leaked *)
Theorem c93_no_buffer_can_be_made_refuted : forall T E (dp : T -> bool),
  (forall k, k < usize_max E \/ k = usize_max E /\ debug_build E = true -> new_r T E k = Panic) /\
  (debug_build E = false -> new_r T E (usize_max E) = Ret (CB [] 0 0)) /\
  (forall evs (xs : list T) b, before_panic evs = (xs, b) ->
     from_iter_from_r E evs = (firstn (S (alloc_max E)) xs, Panic)) /\
  (forall cl ys (xs : list T) b, before_panic (map cl ys) = (xs, b) ->
     from_iter_refs_r E cl ys = (firstn (S (alloc_max E)) xs, Panic)) /\
  (forall xs, from_vec_r dp xs = (xs, if existsb dp xs then Abort else Panic)).
Proof.
  intros T E dp.
  assert (F : forall evs (xs : list T) b, before_panic evs = (xs, b) ->
     from_iter_from_r E evs = (firstn (S (alloc_max E)) xs, Panic)); [|split; [|split; [|split; [|split]]]].
  - intros evs xs b H. unfold from_iter_from_r.
    assert (X : forall evs (acc xs : list T) b, before_panic evs = (xs, b) -> length acc <= alloc_max E ->
      fst (collect_from E acc evs) = firstn (S (alloc_max E)) (acc ++ xs)).
    { clear. induction evs as [|[v|] evs IH]; intros acc xs b H L; cbn [before_panic collect_from fst] in *.
      - injection H as <- <-. rewrite app_nil_r, firstn_all2 by lia. reflexivity.
      - destruct (before_panic evs) as [ys c] eqn:Q. injection H as <- <-.
        destruct (Nat.leb_spec (length acc + 1) (alloc_max E)).
        + rewrite (IH (acc ++ [v]) ys c eq_refl) by (rewrite app_length; cbn; lia). rewrite <- app_assoc. reflexivity.
        + cbn [fst]. change (v :: ys) with ([v] ++ ys). rewrite app_assoc.
          assert (Hl : length (acc ++ [v]) = S (alloc_max E)) by (rewrite app_length; cbn; lia).
          rewrite <- Hl, firstn_app, firstn_all, Nat.sub_diag. cbn. now rewrite app_nil_r.
      - injection H as <- <-. rewrite app_nil_r, firstn_all2 by lia. reflexivity. }
    specialize (X evs [] xs b H (Nat.le_0_l _)). destruct (collect_from E [] evs) as [l r]. cbn in X. cbn [app] in X. now rewrite X.
  - intros k [H|[-> H]]; rewrite new_r_cases by lia.
    + rewrite (proj2 (Nat.eqb_neq _ _)) by lia. reflexivity.
    + rewrite H, andb_false_r. reflexivity.
  - intros D. rewrite new_r_cases, Nat.eqb_refl, D by lia. reflexivity.
  - exact F.
  - intros cl ys xs b H. exact (F _ _ _ H).
  - reflexivity.
Qed.
Print Assumptions c93_no_buffer_can_be_made_refuted.

Lemma resize_r_cases T E k (c c' : cb T) dr r : resize_r E k c = (c', dr, r) -> dr = [] /\ (c' = c \/ buffer c' = []).
Proof.
  unfold resize_r, bind, liftO, gets, modify.
  destruct (uadd E k 1); [|intros H; injection H as <- <- <-; auto..].
  destruct (vec_with_capacity T E a); [|intros H; injection H as <- <- <-; auto..].
  match goal with |- context [obind (len E c) ?f] => destruct (obind (len E c) f); [|intros H; injection H as <- <- <-; auto..] end.
  destruct (is_empty c); [|intros H; injection H as <- <- <-; auto].
  match goal with |- context [obind (usub E k 0) ?f] => destruct (obind (usub E k 0) f) as [m| | | |]; [|intros H; injection H as <- <- <-; auto..] end.
  unfold push_uninit_r. destruct (m =? 0); intros H; injection H as <- <- <-; auto.
Qed.

(** A buffer a program gets hold of all the same never takes an element. *)
Lemma held_hollow T E (c : cb T) : 0 < usize_max E -> held E c -> buffer c = [].
Proof.
  intros HU. induction 1 as [k c Hk H|evs xs c H|cl l xs c H|dp l xs c H|k c c' dr r _ IH Hk H|dp o c c' dr r _ IH Ho Hc H
    |dp c1 c2 c1' c2' dr r _ I1 _ I2 H|dp c1 c2 c1' c2' dr r _ I1 _ I2 H|g c c' dr r _ IH Hg H|bw cl c c' _ IH H].
  - rewrite new_r_cases in H by lia. destruct (_ && _); [|discriminate]. injection H as <-. reflexivity.
  - unfold from_iter_from_r in H. destruct (collect_from _ _ _). discriminate.
  - unfold from_iter_refs_r, from_iter_from_r in H. destruct (collect_from _ _ _). discriminate.
  - unfold from_vec_r in H. destruct (existsb dp l); discriminate.
  - destruct (resize_r_cases _ _ _ _ _ _ _ H) as [_ [->|X]]; auto.
  - pose proof (@tame_step T E dp HU o Ho Hc c IH) as X. rewrite H in X. tauto.
  - unfold append in H. cbn [append_loop snd] in H. rewrite I2 in H. cbn [length append_loop] in H. unfold bind, on_snd in H. cbn [fst snd] in H.
    pose proof (tame_pop_front E dp c2 I2) as X. destruct (pop_front E dp c2) as [[c2a d2] [[v|]| | | |]]; try tauto; try (destruct X; discriminate);
      injection H as <- <- <- <-; auto.
  - unfold append in H. cbn [append_loop snd] in H. rewrite I2 in H. cbn [length append_loop] in H. unfold bind, on_snd in H. cbn [fst snd] in H.
    pose proof (tame_pop_front E dp c2 I2) as X. destruct (pop_front E dp c2) as [[c2a d2] [[v|]| | | |]]; try tauto; try (destruct X; discriminate);
      injection H as <- <- <- <-; tauto.
  - pose proof (@tame_slices_mut_with T (fun _ => false) g Hg c IH) as X. rewrite H in X. tauto.
  - unfold clone_cb in H. rewrite IH in H. cbn in H. injection H as <-. reflexivity.
Qed.

Theorem c93_no_buffer_holds_an_element : forall T E (c : cb T),
  0 < usize_max E -> held E c -> barren E c.
Proof. intros T E c HU H. apply hollow_barren; auto. eapply held_hollow; eauto. Qed.
Print Assumptions c93_no_buffer_holds_an_element.

Theorem c93_checked_builds_hold_no_buffer : forall T E (c : cb T), debug_build E = true -> ~ held E c.
Proof.
  intros T E c D. induction 1 as [k c Hk H|evs xs c H|cl l xs c H|dp l xs c H| | | | | |]; auto.
  - rewrite new_r_cases, D, andb_false_r in H by lia. discriminate.
  - unfold from_iter_from_r in H. destruct (collect_from _ _ _). discriminate.
  - unfold from_iter_refs_r, from_iter_from_r in H. destruct (collect_from _ _ _). discriminate.
  - unfold from_vec_r in H. destruct (existsb dp l); discriminate.
Qed.
Print Assumptions c93_checked_builds_hold_no_buffer.

(** nor can such a buffer be given a usable capacity *)
Theorem c93_resize_does_not_help : forall T E (c c' : cb T) k dr r,
  0 < usize_max E -> k <= usize_max E -> held E c -> resize_r E k c = (c', dr, r) ->
  dr = [] /\ (k < usize_max E -> r = Panic /\ c' = c) /\ barren E c'.
Proof.
  intros T E c c' k dr r HU Hk H R. split; [|split].
  - exact (proj1 (resize_r_cases _ _ _ _ _ _ _ R)).
  - intros L. unfold resize_r, bind, liftO, gets, modify in R. rewrite (uadd_fits E k 1) in R by lia.
    destruct (vec_with_capacity T E (k + 1)) eqn:V; try (unfold vec_with_capacity in V; destruct (_ <=? _); discriminate).
    2: { injection R as <- <- <-. auto. }
    rewrite (usub_fits E k 0) in R by lia. cbn [obind] in R. rewrite Nat.sub_0_r, (uadd_fits E k 1) in R by lia.
    rewrite fill_r, (proj2 (Nat.eqb_neq (k + 1) 0)) in R by lia.
    pose proof (any_len E c) as A. destruct (len E c) as [n| | | |]; cbn [obind] in *; try contradiction; [|injection R as <- <- <-; auto].
    assert (B : oany (if k <? n then usub E n k else Ret 0)) by (destruct (k <? n); cbn; auto; apply any_usub).
    destruct (if k <? n then usub E n k else Ret 0); cbn in B; try contradiction; [|injection R as <- <- <-; auto].
    destruct (is_empty c); injection R as <- <- <-; auto.
  - eapply c93_no_buffer_holds_an_element; eauto. eapply h_resize; eauto.
Qed.
Print Assumptions c93_resize_does_not_help.

(** a failed push moves the start of the useless buffer *)
Example c93_ex : held E0r (CB [] 1000 0 : cb nat) /\ new_r nat E0r 3 = Panic /\ new_r nat E0 1000 = Panic /\
  from_vec_r (fun v => v =? 5) [4; 6] = ([4; 6], Panic) /\ from_vec_r (fun v => v =? 5) [4; 5] = ([4; 5], Abort) /\
  from_iter_from_r E0 [Some 4; Some 5; None; Some 6] = ([4; 5], Panic) /\
  resize_r E0r 3 (CB [] 0 0 : cb nat) = (CB [] 0 0, [], Panic) /\ resize_r E0r 1000 (CB [] 0 0 : cb nat) = (CB [] 0 0, [], Ret tt).
Proof.
  split; [|repeat split].
  apply (@h_call nat E0r never (OPushFront 7) (CB [] 0 0) _ [] Panic); [|exact I|exact I|reflexivity].
  apply (@h_new nat E0r 1000); [apply Nat.leb_le|]; reflexivity.
Qed.
