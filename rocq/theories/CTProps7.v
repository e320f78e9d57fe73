(** Property theorems C109: a counter made for [capacity] elements
    (src/counter/counter.rs:72-94, 108-118). *)
From Coq Require Import Permutation.
From Verif Require Import Base HMModel HMProofs CTModel CTSpec CTRun CTModel5 CTSpec5 CTSpec6 CTProofs8 CTProofs9 CTProps.
Local Open Scope outcome_scope.
Local Open Scope list_scope.

(** making the counter demands room for [n] entries; for none, nothing is allocated *)
Theorem c109_making_a_counter_demands_its_capacity : forall K E n c t,
  ct_with_capacity_t K E n = (Ret c, t) -> c = ct_new K /\ n <= alloc_max E /\ demanded t = [n].
Proof.
  intros K E n c t. unfold ct_with_capacity_t, hm_reserve_t, hm_reserve. cbn [length Nat.add].
  destruct (Nat.leb_spec n (alloc_max E)); cbn; [|discriminate]. intros X; injection X as <- <-. repeat split; auto.
Qed.
Print Assumptions c109_making_a_counter_demands_its_capacity.

(** with a std that makes room only for keys that are absent: as long as at most
    [n] elements are held (and announced), the table is not reallocated, except by
    taking counts away from a full counter *)
Theorem c109_counter_is_not_reallocated_partial : forall K (eqb : K -> K -> bool) cl E n ops c t0 c' tr t,
  ct_with_capacity_t K E n = (Ret c, t0) -> ct_run_t eqb cl E false false ops c = ((c', tr), t) ->
  (forall ops1 ops2, ops = ops1 ++ ops2 -> ct_len (fst (ct_run eqb cl E ops1 c)) <= n /\
     forall o ops3, ops2 = o :: ops3 -> (forall h, announced o = Some h -> ct_len (fst (ct_run eqb cl E ops1 c)) + h <= n) /\
       (subtracts o = true -> ct_len (fst (ct_run eqb cl E ops1 c)) < n)) ->
  enough (alloc_max E) n (demanded (t0 ++ t)).
Proof.
  intros K eqb cl E n ops c t0 c' tr t W X H. apply c109_making_a_counter_demands_its_capacity in W as (-> & _ & W).
  rewrite demanded_app, W. apply enough_app. split; [repeat constructor|]. exact (@tg_run K eqb cl E n ops _ _ _ _ X H).
Qed.
Print Assumptions c109_counter_is_not_reallocated_partial.

(** with any std: as long as less than [n] elements are held *)
Theorem c109_counter_with_one_to_spare_is_not_reallocated_partial : forall K (eqb : K -> K -> bool) cl E ee ei n ops c t0 c' tr t,
  ct_with_capacity_t K E n = (Ret c, t0) -> ct_run_t eqb cl E ee ei ops c = ((c', tr), t) ->
  (forall ops1 ops2, ops = ops1 ++ ops2 -> ct_len (fst (ct_run eqb cl E ops1 c)) < n /\
     forall o ops3 h, ops2 = o :: ops3 -> announced o = Some h -> ct_len (fst (ct_run eqb cl E ops1 c)) + h <= n) ->
  enough (alloc_max E) n (demanded (t0 ++ t)).
Proof.
  intros K eqb cl E ee ei n ops c t0 c' tr t W X H. apply c109_making_a_counter_demands_its_capacity in W as (-> & _ & W).
  rewrite demanded_app, W. apply enough_app. split; [repeat constructor|]. exact (@strict_run K eqb cl E ee ei n ops _ _ _ _ X H).
Qed.
Print Assumptions c109_counter_with_one_to_spare_is_not_reallocated_partial.

(** collecting with a size hint of at least the number of entries found (a series of
    different elements and its exact length, say) allocates once *)
Theorem c109_collecting_allocates_once : forall K (eqb : K -> K -> bool) E hint xs c t,
  ct_from_iter_t eqb E false hint xs = (Ret c, t) -> ct_len c <= hint ->
  exists ds, demanded t = hint :: ds /\ enough (alloc_max E) hint ds.
Proof.
  intros K eqb E hint xs c t X H. pose proof (@tg_from_iter K eqb E hint xs c t X) as T. rewrite Nat.max_l in T by exact H.
  unfold ct_from_iter_t, ct_with_capacity_t, hm_reserve_t in X. cbn [length Nat.add] in X. destruct (hm_reserve E hint []); cbn [obind] in X; try discriminate.
  destruct (finish_t _) as [o t']. injection X as -> <-. eexists. split; [reflexivity|]. now inversion T.
Qed.
Print Assumptions c109_collecting_allocates_once.

(** but a full counter asks for one more entry when it is to take away the count of
    an absent key, although nothing is inserted *)
Theorem c109_subtracting_from_a_full_counter_refuted : forall K (eqb : K -> K -> bool) cl E ee ei k v c,
  hm_get eqb k (ct_map c) = None -> ct_len c < alloc_max E ->
  fst (ct_step_t eqb cl E ee ei (OSub [(k, v)]) c) = (c, Ret RUnit) /\
  ~ enough (alloc_max E) (ct_len c) (demanded (snd (ct_step_t eqb cl E ee ei (OSub [(k, v)]) c))).
Proof.
  intros K eqb cl E ee ei k v c N L. cbn [ct_step_t]. unfold ct_sub_assign_t, for_each_t, ct_lower_t, hm_entry_t, hm_entry, hm_contains, hm_reserve. cbn [fst snd].
  rewrite N. unfold ct_len in *. rewrite (proj2 (Nat.leb_le (length (ct_map c) + 1) (alloc_max E))) by lia. cbn [obind fst snd negb]. rewrite orb_true_r. cbn. split; [reflexivity|].
  intros H. inversion H as [|? ? H1 _]; subst. lia.
Qed.
Print Assumptions c109_subtracting_from_a_full_counter_refuted.

(** and with the std of 2018 already when a key it holds is counted again *)
Theorem c109_counting_again_in_a_full_counter_refuted : forall K (eqb : K -> K -> bool) cl E ei k m c,
  hm_get eqb k (ct_map c) = Some m -> m < usize_max E -> ct_len c < alloc_max E ->
  ct_len (fst (ct_step eqb cl E (OPush k) c)) = ct_len c /\ snd (ct_step eqb cl E (OPush k) c) = Ret RUnit /\
  ~ enough (alloc_max E) (ct_len c) (demanded (snd (ct_step_t eqb cl E true ei (OPush k) c))).
Proof.
  intros K eqb cl E ei k m c G U L. rewrite <- er_ct_step with (ee := true) (ei := ei). cbn [ct_step_t].
  unfold ct_push_t, ct_bump_t, hm_entry_t, hm_entry, hm_contains. rewrite G. cbn [orb].
  assert (A : uadd E m 1 = Ret (m + 1)) by (unfold uadd; now rewrite (proj2 (Nat.leb_le (m + 1) (usize_max E))) by lia).
  rewrite A. cbn. unfold ct_len in *. cbn [ct_map]. rewrite length_set. split; [reflexivity|]. split; [reflexivity|].
  intros H. inversion H as [|? ? H1 _]; subst. lia.
Qed.
Print Assumptions c109_counting_again_in_a_full_counter_refuted.

(** room for two: two letters counted, one of them again, and taken away again *)
Definition ops109 : list (op key) := [OPush (1, 10); OPush (2, 20); OPush (1, 11); OExtend 0 [(2, 21)]; OInsert (2, 22) 7; ORemove (1, 12); OSub [((2, 0), 1); ((9, 9), 1)]].
Example c109_ex : exists c t0 c' tr t, ct_with_capacity_t key Ec 2 = (Ret c, t0) /\ ct_run_t keq kcl Ec false false ops109 c = ((c', tr), t) /\
  ct_len c' = 1 /\ demanded (t0 ++ t) = [2; 1; 2; 2; 2] /\
  forall ops1 ops2, ops109 = ops1 ++ ops2 -> ct_len (fst (ct_run keq kcl Ec ops1 c)) <= 2 /\
     forall o ops3, ops2 = o :: ops3 -> (forall h, announced o = Some h -> ct_len (fst (ct_run keq kcl Ec ops1 c)) + h <= 2) /\
       (subtracts o = true -> ct_len (fst (ct_run keq kcl Ec ops1 c)) < 2).
Proof.
  eexists _, _, _, _, _. split; [reflexivity|]. split; [reflexivity|]. split; [reflexivity|]. split; [reflexivity|].
  intros ops1 ops2 X. unfold ops109 in X. destruct ops1 as [|o1 [|o2 [|o3 [|o4 [|o5 [|o6 [|o7 [|o8 ops1]]]]]]]]; cbn [app] in X; inversion X; subst;
    (split; [vm_compute; lia|]); intros o ops3 Y; inversion Y; subst; (split; [intros h Z; cbn in Z; try discriminate Z; inversion Z; subst|intros Z; try discriminate Z]); vm_compute; lia.
Qed.
(** a third place is asked for in vain: with the std of 2018 by the third [push],
    with any by [-=] *)
Example c109_ex_refuted :
  demanded (snd (ct_run_t keq kcl Ec true true (firstn 3 ops109) (ct_new key))) = [1; 2; 3] /\
  demanded (snd (ct_run_t keq kcl Ec false false [OPush (1, 10); OPush (2, 20); OSub [((9, 9), 1)]] (ct_new key))) = [1; 2; 3] /\
  exists c, ct_from_iter_t keq Ec false 3 [(1, 1); (2, 2); (3, 3)] = (Ret c, [Room 3; Look (1, 1); Room 1; Look (2, 2); Room 2; Look (3, 3); Room 3]) /\ ct_len c = 3.
Proof. split; [reflexivity|]. split; [reflexivity|]. eexists. split; reflexivity. Qed.
