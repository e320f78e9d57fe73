(** Further theorems of C125: comparing and cloning counters on the hash table of today's std. *)
From Coq Require Import Permutation NArith.
From Verif Require Import Base HMModel HMProofs HTModel HTModel2 HTProofs HTRun HTProofs2 HTProps HTProps2 CTModel CTSpec CTSpec9
  CTRun CTProofs2 CTProps CTProps10.
From Verif Require Import GTModel GTModel2 GTModel4 GTRun2 GTProofs GTProofs2 GTProofs3 GTProofs5 GTProps2.
Local Open Scope outcome_scope.

Lemma gc_reached {K} (eqb : K -> K -> bool) cl hash w E cap ops t0 :
  eq_laws eqb -> (forall k, eqb (cl k) k = true) -> consistent eqb hash -> (exists x, w = 2 ^ x) -> 1 <= usize_max E ->
  Forall (CTSpec.op_ok eqb E) ops -> gc_with_capacity hash w E cap = Ret t0 ->
  let t := fst (gc_run eqb cl hash w E ops t0) in GTProofs2.gok eqb hash w t /\ ct_valid eqb E (cimg t).
Proof.
  intros L CL HH PL U Ok W t. subst t. unfold gc_with_capacity in W.
  pose proof (@Rg_with_capacity K nat eqb hash w E L PL cap) as R. rewrite W in R. destruct R as [[O Q] _].
  apply Permutation_sym, Permutation_nil in Q.
  assert (V : ct_valid eqb E (cimg t0)).
  { unfold cimg. rewrite Q. split; [split; constructor|]. apply Nat.le_0_l. }
  destruct (gc_run eqb cl hash w E ops t0) as [t tr] eqn:T.
  destruct (gc_history cl L HH PL CL U O V Ok T) as (O' & V' & _). auto.
Qed.

Lemma gc_eq_entries {K} (eqb : K -> K -> bool) hash w t t' : eq_laws eqb -> consistent eqb hash ->
  GTProofs2.gok eqb hash w t' -> gc_eq eqb hash w t t' = ct_eq eqb (cimg t) (cimg t').
Proof.
  intros L HH O. assert (R : GTProofs2.Rg eqb hash w t' (ht_entries t')) by (split; auto).
  unfold gc_eq, ct_eq, hm_eq, cimg, ht_len. cbn [ct_map]. f_equal. induction (ht_entries t) as [|e l IH]; cbn [forallb]; auto.
  now rewrite IH, (Rg_get L HH (fst e) R).
Qed.
Arguments gc_eq_entries {K eqb hash w} t {t'}.

Lemma clone_empty {K} (cl : K -> K) t b : g_is_empty (tc_clone cl t) b = g_is_empty t b.
Proof.
  unfold g_is_empty, g_at. destruct b as [p|]; auto. unfold tc_clone.
  set (g := fun s : slot K nat => match s with Full k n => Full (cl k) n | _ => s end).
  change (@Empty K nat) with (g Empty) at 1. rewrite map_nth. destruct (nth p t Empty); reflexivity.
Qed.

Lemma gclone_ok {K} (eqb : K -> K -> bool) hash w cl t : eq_laws eqb -> consistent eqb hash -> (forall k, eqb (cl k) k = true) ->
  GTProofs2.gok eqb hash w t -> GTProofs2.gok eqb hash w (tc_clone cl t).
Proof.
  intros L HH CL (Wf & Pa & P2 & Sp). assert (Le : length (tc_clone cl t) = length t) by apply map_length.
  split; [|split; [|split]].
  - rewrite clone_entries. clear Pa. unfold hm_wf in *. induction Wf as [|e l F Wf IH]; cbn; constructor; auto.
    apply Forall_map. eapply Forall_impl; [|exact F]. cbn. intros e' N.
    destruct (eqb (cl (fst e)) (cl (fst e'))) eqn:Q; auto. rewrite <- N. symmetry.
    apply (eq_trans' L) with (cl (fst e)); [apply (eq_sym' L), CL|].
    apply (eq_trans' L) with (cl (fst e')); auto.
  - intros p k v. unfold tc_clone at 1. rewrite nth_error_map, Le.
    destruct (nth_error t p) as [[| |k0 n]|] eqn:F; cbn; try discriminate. intros [= <- <-].
    destruct (Pa _ _ _ F) as (i & Lt & I & Bef). exists i. rewrite (HH _ _ (CL k0)). split; auto. split; auto.
    intros j b J Ib. rewrite clone_empty. eauto.
  - now rewrite Le.
  - unfold spare in *. rewrite Le. unfold ht_len. rewrite clone_entries, map_length.
    assert (M : ht_marks (tc_clone cl t) = ht_marks t); [|rewrite M; exact Sp].
    clear. unfold ht_marks, tc_clone. induction t as [|[| |] t IH]; cbn [map filter length]; auto.
Qed.
Arguments gclone_ok {K eqb hash w cl t}.

(** Two counters, each with its own hash function and group width, are equal exactly if
    every key is found with the same count in both. *)
Theorem c125_equality_of_counters_with_different_hashes :
  forall K (eqb : K -> K -> bool) cl hash w hash' w' E cap cap' ops ops' t0 t0',
  eq_laws eqb -> (forall k, eqb (cl k) k = true) -> consistent eqb hash -> (exists x, w = 2 ^ x) ->
  consistent eqb hash' -> (exists x, w' = 2 ^ x) -> 1 <= usize_max E ->
  Forall (CTSpec.op_ok eqb E) ops -> Forall (CTSpec.op_ok eqb E) ops' ->
  gc_with_capacity hash w E cap = Ret t0 -> gc_with_capacity hash' w' E cap' = Ret t0' ->
  let t := fst (gc_run eqb cl hash w E ops t0) in
  let t' := fst (gc_run eqb cl hash' w' E ops' t0') in
  gc_eq eqb hash' w' t t' = true <-> forall k, g_get eqb hash w k t = g_get eqb hash' w' k t'.
Proof.
  intros K eqb cl hash w hash' w' E cap cap' ops ops' t0 t0' L CL HH PL HH' PL' U Ok Ok' W W' t t'.
  destruct (gc_reached eqb cl hash w E cap ops t0 L CL HH PL U Ok W) as [O V]. fold t in O, V.
  destruct (gc_reached eqb cl hash' w' E cap' ops' t0' L CL HH' PL' U Ok' W') as [O' V']. fold t' in O', V'.
  rewrite (gc_eq_entries t L HH' O'). rewrite (CTProofs3.eq_iff L V V').
  assert (R : GTProofs2.Rg eqb hash w t (ht_entries t)) by (split; auto).
  assert (R' : GTProofs2.Rg eqb hash' w' t' (ht_entries t')) by (split; auto).
  split; intros H k.
  - rewrite (Rg_get L HH k R), (Rg_get L HH' k R'). apply H.
  - specialize (H k). rewrite (Rg_get L HH k R), (Rg_get L HH' k R') in H. exact H.
Qed.
Print Assumptions c125_equality_of_counters_with_different_hashes.

Example c125_ex_equality :
  gc_eq keq all_collide 2 (fst (group_run by_fnv 16 1 c121_ops)) (fst (group_run all_collide 2 0 c121_ops)) = true /\
  gc_eq keq by_fnv 16 (fst (group_run all_collide 2 0 (c121_ops ++ [OPush (7, 8)]))) (fst (group_run by_fnv 16 1 c121_ops)) = false.
Proof. vm_compute. auto. Qed.

(** A clone of a counter is equal to it and cannot be told apart from it afterwards. *)
Theorem c125_clone_cannot_be_told_apart : forall K (eqb : K -> K -> bool) cl hash w E cap ops later t0,
  eq_laws eqb -> (forall k, eqb (cl k) k = true) -> consistent eqb hash -> (exists x, w = 2 ^ x) -> 1 <= usize_max E ->
  Forall (CTSpec.op_ok eqb E) ops -> Forall (CTSpec.op_ok eqb E) later -> Forall (blind eqb) later ->
  gc_with_capacity hash w E cap = Ret t0 ->
  let t := fst (gc_run eqb cl hash w E ops t0) in
  let t' := tc_clone cl t in
  gc_eq eqb hash w t' t = true /\
  Forall2 (CTSpec9.same_answer eqb) (snd (gc_run eqb cl hash w E later t)) (snd (gc_run eqb cl hash w E later t')) /\
  forall k, g_get eqb hash w k (fst (gc_run eqb cl hash w E later t)) = g_get eqb hash w k (fst (gc_run eqb cl hash w E later t')).
Proof.
  intros K eqb cl hash w E cap ops later t0 L CL HH PL U Ok Ok2 Bl W t t'.
  destruct (gc_reached eqb cl hash w E cap ops t0 L CL HH PL U Ok W) as [O V]. fold t in O, V.
  pose proof (gclone_ok L HH CL O) as O'. fold t' in O'.
  assert (C : cimg t' = ct_clone cl (cimg t)) by (unfold cimg, ct_clone, t'; now rewrite clone_entries).
  pose proof (CTProofs4.clone_valid L cl CL V) as V'. rewrite <- C in V'.
  assert (G : forall k, ct_get eqb (cimg t') k = ct_get eqb (cimg t) k).
  { intros k. rewrite C. exact (CTProofs4.clone_get L cl (cimg t) k CL). }
  split; [rewrite (gc_eq_entries t' L HH O); now rewrite (CTProofs3.eq_iff L V' V)|].
  destruct (gc_run eqb cl hash w E later t) as [t1 tr1] eqn:T1, (gc_run eqb cl hash w E later t') as [t2 tr2] eqn:T2.
  destruct (gc_history cl L HH PL CL U O V Ok2 T1) as (_ & _ & H1).
  destruct (gc_history cl L HH PL CL U O' V' Ok2 T2) as (_ & _ & H2). cbn [fst snd].
  assert (Li0 : forall k, like_entry eqb (shown eqb (cimg t) k) (shown eqb (cimg t') k)).
  { intros k. specialize (G k). unfold ct_get, hm_get, shown, ct_get_key_value, like_entry in *.
    destruct (hm_entry_of eqb k (ct_map (cimg t))) as [[a n]|] eqn:F1, (hm_entry_of eqb k (ct_map (cimg t'))) as [[b m]|] eqn:F2;
      cbn in G; try discriminate G; auto.
    apply entry_of_some in F1, F2. cbn in *. injection G as ->. split; auto.
    apply (eq_trans' L) with k; [apply (eq_sym' L)|]; tauto. }
  destruct (history_det L Bl Li0 H1 H2) as [T Li]. split; auto.
  intros k. specialize (Li k). cbn in Li. unfold g_get, like_entry, t_shown in *.
  destruct (g_entry_of eqb hash w k t1) as [[a n]|], (g_entry_of eqb hash w k t2) as [[b m]|]; cbn; try contradiction; auto.
  destruct Li. congruence.
Qed.
Print Assumptions c125_clone_cannot_be_told_apart.

Example c125_ex_clone : tc_clone kcl (fst (group_run by_fnv 16 1 c121_ops)) <> fst (group_run by_fnv 16 1 c121_ops) /\
  gc_eq keq by_fnv 16 (tc_clone kcl (fst (group_run by_fnv 16 1 c121_ops))) (fst (group_run by_fnv 16 1 c121_ops)) = true.
Proof. split; [vm_compute; discriminate|vm_compute; reflexivity]. Qed.
