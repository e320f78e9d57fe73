(** Proofs for C109: the demands of a disjoint set made with a capacity. *)
From Coq Require Import NArith.
From Verif Require Import Base HMModel HMProofs CTSpec5 CTSpec6 CTProofs8 CTProofs9 DSModel DSSpec DSSpec2 DSRun DSModel5 DSProofs DSProofs10 DSProofs12.
Local Open Scope outcome_scope.
Local Open Scope list_scope.
Set Implicit Arguments.

Section Tight.
Variable K : Type.
Variable eqb : K -> K -> bool.
Variable E : machine.
Variable ee : bool.
(** the vector, or the table of a std that makes room only for absent keys *)
Variable w : bool.
Hypothesis lazy : w = true -> ee = false.

Definition gt A (m : traced K A) : Prop := forall s s' o t, m s = ((s', o), t) ->
  held w s <= held w s' /\ forall d, In d (demand w t) -> d <= held w s' \/ alloc_max E < d.

Lemma gt_then A B (m : traced K A) (f : A -> traced K B) : gt m -> (forall a, gt (f a)) -> gt (then_t m f).
Proof.
  intros Hm Hf s s' o t. unfold then_t. destruct (m s) as [[s1 o1] t1] eqn:Q. specialize (Hm _ _ _ _ Q). destruct Hm as (A1 & A2).
  destruct o1 as [a| | | |]; try (intros X; injection X as <- <- <-; split; auto; fail). destruct (f a s1) as [[s2 o2] t2] eqn:Q2.
  specialize (Hf a _ _ _ _ Q2). destruct Hf as (B1 & B2). intros X; injection X as <- <- <-. rewrite demand_app. split; [lia|].
  intros d Hd. apply in_app_or in Hd as [Hd|Hd]; [specialize (A2 d Hd); lia|auto].
Qed.
Lemma gt_still A (o : dset K -> outcome A) t : (forall s, demand w (t s) = []) -> gt (fun s => ((s, o s), t s)).
Proof. intros H s s' o1 t1 X. injection X as <- <- <-. rewrite H. split; [lia|]. intros d F; destruct F. Qed.
Lemma gt_make_or_get x : gt (ds_make_or_get_t eqb E ee x).
Proof.
  intros s s' o t. unfold ds_make_or_get_t, hm_entry, hm_contains. destruct (hm_get eqb x (ds_ids s)) as [i|] eqn:Q.
  - intros X; injection X as <- <- <-. split; [lia|]. cbn [negb]. rewrite orb_false_r.
    destruct w; [rewrite (lazy eq_refl)|destruct ee]; cbn; unfold held; intros d Hd; tauto.
  - cbn [negb]. rewrite orb_true_r. unfold hm_reserve. destruct (Nat.leb_spec (length (ds_ids s) + 1) (alloc_max E)) as [H|H]; cbn [obind].
    + unfold vec_push. destruct (Nat.leb_spec (length (ds_data s) + 1) (alloc_max E)) as [H'|H']; intros X; injection X as <- <- <-; destruct w;
        unfold held, hm_insert_vacant; cbn [ds_ids ds_data length demand app ids_demanded data_demanded flat_map In]; rewrite ?app_length; cbn [length];
        (split; [lia|]); intros d Hd; lia.
    + intros X; injection X as <- <- <-. split; [lia|]. destruct w; unfold held; cbn; intros d Hd; lia.
Qed.
Lemma gt_find i : gt (ds_find_in_t (K := K) i).
Proof.
  intros s s' o t. unfold ds_find_in_t. pose proof (find_length (S (length (ds_data s))) (ds_data s) i) as L.
  destruct (ds_find_t (S (length (ds_data s))) (ds_data s) i) as [[v o1] t1]. cbn [fst] in L. intros X; injection X as <- <- <-.
  rewrite demand_nodes. assert (Q : held w (DSet (ds_ids s) v) = held w s) by (destruct w; cbn; auto). rewrite Q.
  split; [lia|]. intros d F; destruct F.
Qed.
Lemma gt_link a b : gt (ds_link_t E a b).
Proof.
  intros s s' o t X. destruct (link_snd E a b s) as (ns & Q & _). pose proof (link_held E w a b s) as L. rewrite X in *. cbn [fst snd] in *. subst t.
  rewrite demand_nodes, L. split; [lia|]. intros d F; destruct F.
Qed.
Lemma gt_ret A (o : outcome A) : gt (fun s : dset K => ((s, o), [])).
Proof. apply (@gt_still _ (fun _ => o) (fun _ => [])). destruct w; reflexivity. Qed.
Lemma gt_union a b : gt (ds_union_t eqb E ee a b).
Proof.
  apply gt_then; [apply gt_make_or_get|]. intros ia. apply gt_then; [apply gt_make_or_get|]. intros ib. apply gt_then; [apply gt_find|]. intros ra.
  apply gt_then; [apply gt_find|]. intros rb. destruct (ra =? rb); [apply gt_ret|apply gt_link].
Qed.
Lemma gt_get x : gt (ds_get_t eqb x).
Proof. apply (@gt_still _ (fun s => Ret (hm_get eqb x (ds_ids s))) (fun _ => [Look x])). destruct w; reflexivity. Qed.
Lemma gt_in_union a b : gt (ds_in_union_t eqb a b).
Proof.
  apply gt_then; [apply gt_get|]. intros [ia|]; [|apply gt_ret]. apply gt_then; [apply gt_get|]. intros [ib|]; [|apply gt_ret].
  apply gt_then; [apply gt_find|]. intros ra. apply gt_then; [apply gt_find|]. intros rb. apply gt_ret.
Qed.
Lemma gt_group (l : hmap K nat) : forall m, gt (ds_group_t E l m).
Proof.
  induction l as [|[k i] l IH]; intros m; [apply gt_ret|]. cbn [ds_group_t]. apply gt_then; [apply gt_find|]. intros r.
  destruct (ds_group_push E r k m) as [m1 [[]| | | |]]; try apply gt_ret. apply IH.
Qed.
Lemma gt_omap A B (f : A -> B) (m : traced K A) : gt m -> gt (fun s => match m s with ((s', o), t) => ((s', omap f o), t) end).
Proof. intros H s s' o t. destruct (m s) as [[s1 o1] t1] eqn:Q. intros X; injection X as <- <- <-. exact (H _ _ _ _ Q). Qed.
Lemma gt_makes xs : gt (ds_makes_t eqb E ee xs).
Proof.
  induction xs as [|x xs IH]; [apply gt_ret|]. cbn [ds_makes_t]. apply gt_then; [|intros _; exact IH]. apply gt_omap, gt_make_or_get.
Qed.
Lemma gt_extend h xs s s' o t : ds_extend_t eqb E ee h xs s = ((s', o), t) ->
  forall d, In d (demand w t) -> (d <= held w s' \/ alloc_max E < d) \/ d = held w s + h.
Proof.
  unfold ds_extend_t, then_t. destruct (ds_reserve_t E h s) as [[s1 o1] t1] eqn:Q. unfold ds_reserve_t, ds_reserve in Q. injection Q as <- Qo <-.
  assert (D1 : forall d, In d (@demand K w (DataRoom (length (ds_data s) + h) ::
     match vec_reserve E h (ds_data s) with Ret _ => [IdsRoom (length (ds_ids s) + h)] | _ => [] end)) -> d = held w s + h).
  { intros d. destruct (vec_reserve E h (ds_data s)); destruct w; cbn; unfold held; intuition. }
  destruct o1 as [u| | | |]; try (intros X; injection X as <- <- <-; auto).
  destruct (ds_makes_t eqb E ee xs s) as [[s2 o2] t2] eqn:Q2. intros X; injection X as <- <- <-.
  destruct (@gt_makes xs _ _ _ _ Q2) as (B1 & B2).
  assert (DA : forall a b c : list (access K), demand w (a ++ b ++ c) = demand w (a ++ b) ++ demand w c).
  { intros a b c. now rewrite app_assoc, demand_app. }
  match goal with |- forall d, In d (demand w (?x :: ?y ++ t2)) -> _ => specialize (DA [x] y t2) end. cbn [app] in DA. rewrite DA.
  intros d Hd. apply in_app_or in Hd as [Hd|Hd]; auto.
Qed.
Lemma gt_step o s s' r t : ds_step_t eqb E ee o s = ((s', r), t) ->
  forall d, In d (demand w t) -> d <= Nat.max (held w s) (held w s') \/ alloc_max E < d \/ exists h, announced o = Some h /\ d = held w s + h.
Proof.
  assert (G : forall A (m : traced K A) o1 t1, gt m -> m s = ((s', o1), t1) ->
    forall d, In d (demand w t1) -> d <= Nat.max (held w s) (held w s') \/ alloc_max E < d \/ exists h, announced o = Some h /\ d = held w s + h).
  { intros A m o1 t1 H Q. destruct (H _ _ _ _ Q) as (B1 & B2). intros d Hd. destruct (B2 d Hd); [left; lia|auto]. }
  assert (GX : forall h xs o1 t1, announced o = Some h -> ds_extend_t eqb E ee h xs s = ((s', o1), t1) ->
    forall d, In d (demand w t1) -> d <= Nat.max (held w s) (held w s') \/ alloc_max E < d \/ exists h, announced o = Some h /\ d = held w s + h).
  { intros h xs o1 t1 An Q d Hd. destruct (@gt_extend h xs _ _ _ _ Q d Hd) as [[B|B]| ->]; [left; lia|auto|right; right; eauto]. }
  destruct o; cbn [ds_step_t unit_out fst snd].
  - destruct (ds_make_set_t eqb E ee x s) as [[s1 o1] t1] eqn:Q. intros X; injection X as <- <- <-. eapply G; [|exact Q]. apply gt_omap, gt_make_or_get.
  - destruct (ds_union_t eqb E ee a b s) as [[s1 o1] t1] eqn:Q. intros X; injection X as <- <- <-. eapply G; [|exact Q]. apply gt_union.
  - destruct (ds_extend_t eqb E ee hint xs s) as [[s1 o1] t1] eqn:Q. intros X; injection X as <- <- <-. eapply GX; [|exact Q]. reflexivity.
  - unfold ds_extend_ref_t. rewrite map_id. fold (ds_extend_t eqb E ee hint xs).
    destruct (ds_extend_t eqb E ee hint xs s) as [[s1 o1] t1] eqn:Q. intros X; injection X as <- <- <-. eapply GX; [|exact Q]. reflexivity.
  - intros X; injection X as <- <- <-. destruct w; intros d F; destruct F.
  - intros X; injection X as <- <- <-. intros d Hd. right; right. exists n. split; [reflexivity|].
    revert Hd. destruct (vec_reserve E n (ds_data s)); destruct w; cbn; unfold held; intuition.
  - intros X; injection X as <- <- <-. destruct w; intros d F; destruct F.
  - destruct (ds_in_union_t eqb a b s) as [[s1 o1] t1] eqn:Q. intros X; injection X as <- <- <-. eapply G; [|exact Q]. apply gt_in_union.
  - intros X; injection X as <- <- <-. destruct w; intros d F; destruct F.
  - intros X; injection X as <- <- <-. destruct w; intros d F; destruct F.
  - unfold ds_into_iter_t. destruct (ds_group_t E (order (ds_ids s)) [] s) as [[s1 o1] t1] eqn:Q. intros X; injection X as <- <- <-.
    eapply G; [|exact Q]. apply gt_group.
Qed.
Theorem gt_run n ops : forall s s' tr t, ds_run_t eqb E ee ops s = ((s', tr), t) ->
  (forall ops1 ops2, ops = ops1 ++ ops2 -> held w (fst (ds_run eqb E ops1 s)) <= n /\
     forall o ops3 h, ops2 = o :: ops3 -> announced o = Some h -> held w (fst (ds_run eqb E ops1 s)) + h <= n) ->
  enough (alloc_max E) n (demand w t).
Proof.
  induction ops as [|o ops IH]; intros s s' tr t X HP; cbn [ds_run_t] in X.
  - injection X as <- <- <-. destruct w; constructor.
  - destruct (ds_step_t eqb E ee o s) as [[s1 r1] t1] eqn:Q. destruct (ds_run_t eqb E ee ops s1) as [[s2 tr2] t2] eqn:Q2.
    injection X as <- <- <-. rewrite demand_app, enough_app. split.
    + destruct (HP [] (o :: ops) eq_refl) as [P0 PA]. cbn [ds_run fst] in P0, PA.
      destruct (HP [o] ops eq_refl) as [P1 _]. cbn [ds_run] in P1. rewrite <- (er_step eqb E ee), Q in P1. cbn [fst] in P1.
      apply enough_in. intros d Hd. destruct (@gt_step o s s1 r1 t1 Q d Hd) as [D|[D|(h & An & ->)]]; [lia|auto|left; eauto].
    + apply (IH s1 s2 tr2 t2 Q2). intros ops1 ops2 ->. destruct (HP (o :: ops1) ops2 eq_refl) as [P1 PA]. cbn [ds_run] in P1, PA.
      rewrite <- (er_step eqb E ee), Q in P1, PA. cbn [fst] in P1, PA. destruct (ds_run eqb E ops1 s1). exact (conj P1 PA).
Qed.
Lemma gt_from_iter h xs s t : ds_from_iter_t eqb E ee h xs = (Ret s, t) -> enough (alloc_max E) (Nat.max h (held w s)) (demand w t).
Proof.
  unfold ds_from_iter_t, ds_with_capacity_t, ds_with_capacity, hm_reserve, vec_reserve. cbn [length Nat.add].
  destruct (h <=? alloc_max E) eqn:Q; cbn [obind]; [|discriminate].
  destruct (ds_makes_t eqb E ee xs (DSet [] [])) as [[s1 o1] t1] eqn:Q2. intros X. injection X as X <-. unfold ds_finish in X. cbn [fst snd] in X.
  destruct o1 as [[]| | | |]; try discriminate. injection X as <-. destruct (@gt_makes xs _ _ _ _ Q2) as (_ & B).
  change (IdsRoom h :: DataRoom h :: t1) with ([IdsRoom h; DataRoom h] ++ t1). rewrite demand_app. apply enough_app. split.
  - destruct w; constructor; try constructor; lia.
  - apply enough_in. intros d Hd. destruct (B d Hd); [left; lia|auto].
Qed.
End Tight.
