(** Property theorems C109, continued: a disjoint set made for [capacity] elements
    (src/disjoint_set/disjoint_set.rs:117-128, 142-153). *)
From Coq Require Import NArith.
From Verif Require Import Base HMModel HMProofs CTSpec5 CTSpec6 CTProofs8 CTProofs9 DSModel DSSpec DSSpec2 DSRun DSModel5 DSProofs DSProofs2 DSProofs3 DSProofs10 DSProofs12 DSProofs13 DSProps DSProps2 DSProps8.
Local Open Scope outcome_scope.
Local Open Scope list_scope.

(** making the set demands room for [n] elements of table and vector; for none,
    nothing is allocated *)
Theorem c109_making_a_set_demands_its_capacity : forall K E n s t,
  ds_with_capacity_t K E n = (Ret s, t) -> s = ds_new K /\ n <= alloc_max E /\ ids_demanded t = [n] /\ data_demanded t = [n].
Proof.
  intros K E n s t. unfold ds_with_capacity_t, ds_with_capacity, hm_reserve, vec_reserve. cbn [length Nat.add].
  destruct (Nat.leb_spec n (alloc_max E)); cbn; [|discriminate]. intros X; injection X as <- <-. repeat split; auto.
Qed.
Print Assumptions c109_making_a_set_demands_its_capacity.

(** as long as at most [n] elements are held (and announced) the vector is not
    reallocated, and with a std that makes room only for absent keys the table
    neither *)
Theorem c109_set_is_not_reallocated_partial : forall K (eqb : K -> K -> bool) E ee n ops s t0 s' tr t,
  eq_laws eqb -> ranks_fit E -> Forall (@op_ok K) ops ->
  ds_with_capacity_t K E n = (Ret s, t0) -> ds_run_t eqb E ee ops s = ((s', tr), t) ->
  (forall ops1 ops2, ops = ops1 ++ ops2 -> ds_len (fst (ds_run eqb E ops1 s)) <= n /\
     forall o ops3 h, ops2 = o :: ops3 -> announced o = Some h -> ds_len (fst (ds_run eqb E ops1 s)) + h <= n) ->
  enough (alloc_max E) n (data_demanded (t0 ++ t)) /\
  (ee = false -> enough (alloc_max E) n (ids_demanded (t0 ++ t))).
Proof.
  intros K eqb E ee n ops s t0 s' tr t L U Ok W X H. apply c109_making_a_set_demands_its_capacity in W as (-> & _ & W1 & W2).
  split; [|intros ->].
  - rewrite (demand_app false t0 t : data_demanded (t0 ++ t) = data_demanded t0 ++ data_demanded t), W2. apply enough_app. split; [repeat constructor|].
    refine (@gt_run K eqb E ee false _ n ops (ds_new K) s' tr t X _); [discriminate|].
    assert (Q : forall ops1 ops2, ops = ops1 ++ ops2 -> held false (fst (ds_run eqb E ops1 (ds_new K))) = ds_len (fst (ds_run eqb E ops1 (ds_new K)))).
    { intros ops1 ops2 ->. apply Forall_app in Ok as [Ok _]. destruct (ds_run eqb E ops1 (ds_new K)) as [s2 tr2] eqn:Q.
      destruct (run_ok L U (new_valid eqb E) (new_shows eqb) Ok Q) as (g2 & V & _). cbn. apply V. }
    intros ops1 ops2 Q2. rewrite (Q _ _ Q2). exact (H _ _ Q2).
  - rewrite (demand_app true t0 t : ids_demanded (t0 ++ t) = ids_demanded t0 ++ ids_demanded t), W1. apply enough_app. split; [repeat constructor|].
    exact (@gt_run K eqb E false true (fun _ => eq_refl) n ops (ds_new K) s' tr t X H).
Qed.
Print Assumptions c109_set_is_not_reallocated_partial.

(** collecting with a size hint of at least the number of elements found allocates
    once each *)
Theorem c109_collecting_a_set_allocates_once : forall K (eqb : K -> K -> bool) E hint xs s t,
  eq_laws eqb -> ranks_fit E -> ds_from_iter_t eqb E false hint xs = (Ret s, t) -> ds_len s <= hint ->
  enough (alloc_max E) hint (ids_demanded t) /\ enough (alloc_max E) hint (data_demanded t).
Proof.
  intros K eqb E hint xs s t L U X H.
  assert (V : valid eqb E s).
  { apply (@from_iter_shows K eqb L E hint xs s). rewrite <- (er_from_iter eqb E false). now rewrite X. }
  pose proof (@gt_from_iter K eqb E false true (fun _ => eq_refl) hint xs s t X) as T1.
  pose proof (@gt_from_iter K eqb E false false (fun _ => eq_refl) hint xs s t X) as T2.
  cbn [held demand] in T1, T2. destruct V as (_ & Ld & _). unfold ds_len in H.
  rewrite Nat.max_l in T1, T2 by lia. auto.
Qed.
Print Assumptions c109_collecting_a_set_allocates_once.

(** but with the std of 2018 a full table asks for one more entry when an element it
    holds is made again or united *)
Theorem c109_making_again_in_a_full_set_refuted : forall K (eqb : K -> K -> bool) E x i s,
  hm_get eqb x (ds_ids s) = Some i -> ds_len s < alloc_max E ->
  fst (ds_step_t eqb E true (OMake x) s) = (s, Ret RUnit) /\
  ~ enough (alloc_max E) (ds_len s) (ids_demanded (snd (ds_step_t eqb E true (OMake x) s))) /\
  forall y, ~ enough (alloc_max E) (ds_len s) (ids_demanded (snd (ds_step_t eqb E true (OUnion x y) s))).
Proof.
  intros K eqb E x i s G L. assert (M : ds_make_or_get_t eqb E true x s = ((s, Ret i), [Look x; IdsRoom (length (ds_ids s) + 1)])).
  { unfold ds_make_or_get_t, hm_entry. rewrite G. reflexivity. }
  unfold ds_len in *. cbn [ds_step_t]. unfold ds_make_set_t. rewrite M. split; [reflexivity|]. split.
  - intros H. cbn in H. inversion H as [|? ? H1 _]; subst. lia.
  - intros y. assert (U : exists r t', ds_union_t eqb E true x y s = (r, [Look x; IdsRoom (length (ds_ids s) + 1)] ++ t')).
    { unfold ds_union_t. set (f := fun ia : nat => _). unfold then_t. rewrite M. destruct (f i s) as [r t']. eauto. }
    destruct U as ([s1 r] & t' & U). rewrite U. cbn. intros H. inversion H as [|? ? H1 _]; subst. lia.
Qed.
Print Assumptions c109_making_again_in_a_full_set_refuted.

(** room for three elements, made, united and made again *)
Definition ops109 : list (op nat) := [OMake 1; OUnion 1 2; OMake 2; OExtend 1 [2; 3]; OUnion 3 1; OInUnion 2 3].
Example c109_ex : Forall (@op_ok nat) ops109 /\ ranks_fit Eg /\
  exists s t0 s' tr t, ds_with_capacity_t nat Eg 3 = (Ret s, t0) /\ ds_run_t Nat.eqb Eg false ops109 s = ((s', tr), t) /\
    ds_len s' = 3 /\ ids_demanded (t0 ++ t) = [3; 1; 2; 3; 3] /\ data_demanded (t0 ++ t) = [3; 1; 2; 3; 3] /\
    (** the std of 2018 asks for a fourth place *)
    ids_demanded (snd (ds_run_t Nat.eqb Eg true ops109 s)) = [1; 2; 2; 3; 3; 3; 3; 4; 4] /\
    forall ops1 ops2, ops109 = ops1 ++ ops2 -> ds_len (fst (ds_run Nat.eqb Eg ops1 s)) <= 3 /\
     forall o ops3 h, ops2 = o :: ops3 -> announced o = Some h -> ds_len (fst (ds_run Nat.eqb Eg ops1 s)) + h <= 3.
Proof.
  split; [repeat constructor|]. split; [reflexivity|]. eexists _, _, _, _, _.
  split; [reflexivity|]. split; [reflexivity|]. split; [reflexivity|]. split; [reflexivity|]. split; [reflexivity|]. split; [vm_compute; reflexivity|].
  intros ops1 ops2 X. unfold ops109 in X. destruct ops1 as [|o1 [|o2 [|o3 [|o4 [|o5 [|o6 [|o7 ops1]]]]]]]; cbn [app] in X; inversion X; subst;
    (split; [vm_compute; lia|]); intros o ops3 h Y Z; inversion Y; subst; cbn in Z; try discriminate Z; inversion Z; subst; vm_compute; lia.
Qed.
Example c109_ex_collect : exists s t, ds_from_iter_t Nat.eqb Eg false 3 [7; 8; 9] = (Ret s, t) /\ ds_len s = 3 /\ ids_demanded t = [3; 1; 2; 3].
Proof. eexists _, _. split; [reflexivity|]. split; reflexivity. Qed.
