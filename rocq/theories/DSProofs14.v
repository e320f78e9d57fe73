(** Proofs for C111: the elements of a disjoint set are owned once. *)
From Coq Require Import Permutation.
From Verif Require Import Base HMModel DSModel DSModel2 DSModel3 OwnSpec OwnProofs DSModel6 CTSpec7.
Local Open Scope outcome_scope.
Set Implicit Arguments.

Lemma find_in_ids K id (s : dset K) : ds_ids (fst (ds_find_in id s)) = ds_ids s.
Proof. unfold ds_find_in. now destruct (ds_find _ _ id). Qed.
Lemma find_in_ids' K id (s s' : dset K) o : ds_find_in id s = (s', o) -> ds_ids s' = ds_ids s.
Proof. intros Q. now rewrite <- (find_in_ids id s), Q. Qed.
Definition after_makes K E ia ib (s : dset K) : dset K * outcome unit :=
           match ds_find_in ia s with
           | (s3, Ret a_root) =>
               match ds_find_in ib s3 with
               | (s4, Ret b_root) =>
                   if a_root =? b_root then (s4, Ret tt)
                   else match ds_link E (ds_data s4) a_root b_root with
                        | (v, o) => (DSet (ds_ids s4) v, o)
                        end
               | (s4, o) => (s4, omap (fun _ => tt) o)
               end
           | (s3, o) => (s3, omap (fun _ => tt) o)
           end.
Lemma after_ids K E ia ib (s : dset K) : ds_ids (fst (after_makes E ia ib s)) = ds_ids s.
Proof.
  unfold after_makes. destruct (ds_find_in ia s) as [s3 o] eqn:A. apply find_in_ids' in A. destruct o as [ar| | | |]; try exact A.
  destruct (ds_find_in ib s3) as [s4 o] eqn:B. apply find_in_ids' in B. rewrite A in B. destruct o as [br| | | |]; try exact B.
  destruct (ar =? br); [exact B|]. destruct (ds_link E (ds_data s4) ar br). exact B.
Qed.
Lemma in_union_ids K (eqb : K -> K -> bool) hp a b s : ds_ids (fst (ds_in_union_u eqb hp a b s)) = ds_ids s.
Proof.
  unfold ds_in_union_u. destruct (hp (ds_ids s) a); [reflexivity|]. destruct (hm_get eqb a (ds_ids s)) as [ia|]; [|reflexivity].
  destruct (hp (ds_ids s) b); [reflexivity|]. destruct (hm_get eqb b (ds_ids s)) as [ib|]; [|reflexivity].
  destruct (ds_find_in ia s) as [s3 o] eqn:A. apply find_in_ids' in A. destruct o as [ar| | | |]; try exact A.
  destruct (ds_find_in ib s3) as [s4 o] eqn:B. apply find_in_ids' in B. rewrite A in B. destruct o as [br| | | |]; exact B.
Qed.
Lemma group_ids K E (l : hmap K nat) : forall s m, ds_ids (fst (ds_group E l s m)) = ds_ids s.
Proof.
  induction l as [|[k v] l IH]; intros s m; cbn [ds_group]; [reflexivity|]. destruct (ds_find_in v s) as [s1 o] eqn:A. apply find_in_ids' in A.
  destruct o as [r| | | |]; try exact A. destruct (ds_group_push E r k m) as [m1 []]; try exact A. now rewrite IH.
Qed.

Section Own.
Variable K : Type.
Variable E : machine.
Variable u : elems_do K.
Lemma make_books x s : books (x :: ds_elems s) (snd (ds_make_or_get_o E u x s)) (ds_elems (fst (fst (ds_make_or_get_o E u x s)))).
Proof.
  assert (B : forall l, books (x :: l) [Gone x] l) by (intros l; econstructor; [apply Permutation_refl|apply bk_nil]).
  unfold ds_make_or_get_o, ds_elems. destruct (ed_look u (ds_ids s) x); [apply B|].
  destruct (hm_entry _ E x (ds_ids s)) as [[id|]| | | |]; try apply B. destruct (vec_push E (ds_data s) _); apply bk_nil.
Qed.
Lemma make_set_books x s : books (ds_elems s) (snd (ds_make_set_o E u x s)) (ds_elems (fst (fst (ds_make_set_o E u x s)))).
Proof. unfold ds_make_set_o. pose proof (make_books x s) as H. destruct (ds_make_or_get_o E u x s) as [[s' o] t]. constructor. exact H. Qed.
Lemma union_books a b s : books (ds_elems s) (snd (ds_union_o E u a b s)) (ds_elems (fst (fst (ds_union_o E u a b s)))).
Proof.
  unfold ds_union_o. pose proof (make_books a s) as A. destruct (ds_make_or_get_o E u a s) as [[s1 oa] ta]. cbn [fst snd] in A.
  assert (A' : books (b :: a :: ds_elems s) ta (b :: ds_elems s1)).
  { apply (@bk_frame K [b]) in A. eapply bk_perm_r; [eapply bk_perm; [exact A|]|].
    - cbn. apply (Permutation_app_comm [b] (a :: ds_elems s)).
    - apply (Permutation_app_comm _ [b]). }
  destruct oa as [ia| | | |].
  2-5: constructor; constructor; (eapply bk_app; [exact A'|]); (econstructor; [apply Permutation_refl|apply bk_nil]).
  pose proof (make_books b s1) as B. destruct (ds_make_or_get_o E u b s1) as [[s2 ob] tb]. cbn [fst snd] in B.
  destruct ob as [ib| | | |].
  2-5: constructor; constructor; exact (bk_app A' B).
  fold (after_makes E ia ib s2). cbn [fst snd]. constructor. constructor. eapply bk_perm_r; [exact (bk_app A' B)|].
  unfold ds_elems. now rewrite after_ids.
Qed.
Lemma make_from_books evs : forall s, books (ds_elems s) (snd (ds_make_from_o E u evs s)) (ds_elems (fst (fst (ds_make_from_o E u evs s)))).
Proof.
  induction evs as [|[x|] evs IH]; intros s; cbn [ds_make_from_o]; try apply bk_nil.
  pose proof (make_set_books x s) as H. destruct (ds_make_set_o E u x s) as [[s1 o] t]. cbn [fst snd] in H. destruct o as [[]| | | |]; try exact H.
  specialize (IH s1). destruct (ds_make_from_o E u evs s1) as [y t']. eapply bk_app; eauto.
Qed.
Lemma finish_books l (r : (dset K * outcome unit) * list (ev K)) : books l (snd r) (ds_elems (fst (fst r))) ->
  books l (snd (ds_finish_o r)) (match fst (ds_finish_o r) with Ret s => ds_elems s | _ => [] end).
Proof. destruct r as [[s o] t]. cbn. intros H. destruct o; [exact H|..]; (eapply bk_app; [exact H|apply bk_gone_every]). Qed.
Theorem step_books o s : books (ds_elems s) (snd (ds_step_o E u o s)) (ds_elems (fst (fst (ds_step_o E u o s)))).
Proof.
  assert (I : forall s', ds_ids s' = ds_ids s -> books (ds_elems s) [] (ds_elems s')) by (intros s' Q; unfold ds_elems; rewrite Q; apply bk_nil).
  destruct o; cbn [ds_step_o].
  - apply make_set_books.
  - apply union_books.
  - pose proof (in_union_ids (ed_eq u) (ed_look u) a b s) as Q. destruct (ds_in_union_u _ _ a b s). now apply I.
  - unfold ds_extend_o. destruct hint as [h|]; [|apply bk_nil]. destruct (ed_room u (ds_ids s) h); [apply bk_nil|].
    unfold ds_reserve. destruct (obind _ _); try apply bk_nil. apply make_from_books.
  - destruct (ed_room u (ds_ids s) n); apply bk_nil.
  - pose proof (group_ids E (order (ds_ids s)) s []) as Q. unfold ds_build_sets. destruct (ds_group E _ s []). now apply I.
  - apply bk_gone_every.
Qed.
Lemma clone_ids_books l : forall acc, books (map fst acc) (snd (ds_clone_ids_o u acc l)) (match fst (ds_clone_ids_o u acc l) with Ret m => map fst m | _ => [] end).
Proof.
  induction l as [|[k n] l IH]; intros acc; cbn [ds_clone_ids_o].
  - constructor. cbn. rewrite map_rev. apply Permutation_rev.
  - destruct (ed_clone u k) as [k'|].
    + specialize (IH ((k', n) :: acc)). destruct (ds_clone_ids_o u ((k', n) :: acc) l) as [o t]. constructor. exact IH.
    + cbn. eapply bk_perm; [apply bk_gone_every|]. rewrite map_rev. apply Permutation_rev.
Qed.
(** forgetting the events *)
Notation never := (fun _ : K => false).
Lemma make_erase x s : fst (ds_make_or_get_o E u x s) = ds_make_or_get_u (ed_eq u) (ed_look u) never E x s.
Proof.
  unfold ds_make_or_get_o, ds_make_or_get_u, ds_unwind. destruct (ed_look u (ds_ids s) x); [reflexivity|].
  destruct (hm_entry _ E x (ds_ids s)) as [[id|]| | | |]; try reflexivity. destruct (vec_push E (ds_data s) _); reflexivity.
Qed.
Lemma make_set_erase x s : fst (ds_make_set_o E u x s) = ds_make_set_u (ed_eq u) (ed_look u) never E x s.
Proof. unfold ds_make_set_o, ds_make_set_u. rewrite <- make_erase. now destruct (ds_make_or_get_o E u x s) as [[s' o] t]. Qed.
Lemma union_erase a b s : fst (ds_union_o E u a b s) = ds_union_u (ed_eq u) (ed_look u) never E a b s.
Proof.
  unfold ds_union_o, ds_union_u. rewrite <- make_erase. destruct (ds_make_or_get_o E u a s) as [[s1 oa] ta]. cbn [fst].
  destruct oa as [ia| | | |]; try reflexivity. rewrite <- make_erase. destruct (ds_make_or_get_o E u b s1) as [[s2 ob] tb]. cbn [fst].
  destruct ob; reflexivity.
Qed.
Lemma make_from_erase xs : forall s, fst (ds_make_from_o E u (map Some xs) s) = for_each (ds_make_set_u (ed_eq u) (ed_look u) never E) xs s.
Proof.
  induction xs as [|x xs IH]; intros s; [reflexivity|]. cbn [map ds_make_from_o for_each]. rewrite <- make_set_erase.
  destruct (ds_make_set_o E u x s) as [[s1 o] t]. cbn [fst]. destruct o as [[]| | | |]; try reflexivity.
  rewrite <- IH. now destruct (ds_make_from_o E u (map Some xs) s1).
Qed.
Lemma make_ret x s : (exists i, snd (fst (ds_make_or_get_o E u x s)) = Ret i) \/ snd (fst (ds_make_or_get_o E u x s)) = Panic.
Proof.
  unfold ds_make_or_get_o. destruct (ed_look u (ds_ids s) x); auto.
  destruct (hm_entry _ E x (ds_ids s)) as [[id|]| | | |]; cbn; eauto. destruct (vec_push E (ds_data s) _); cbn; eauto.
Qed.
Lemma make_from_ret evs : forall s, snd (fst (ds_make_from_o E u evs s)) = Ret tt \/ snd (fst (ds_make_from_o E u evs s)) = Panic.
Proof.
  induction evs as [|[x|] evs IH]; intros s; cbn [ds_make_from_o]; [now left| |now right].
  unfold ds_make_set_o. pose proof (make_ret x s) as R. destruct (ds_make_or_get_o E u x s) as [[s1 o] t]. cbn [fst snd] in *.
  destruct R as [[i ->]| ->]; cbn [omap]; [|now right]. specialize (IH s1). now destruct (ds_make_from_o E u evs s1).
Qed.
Lemma finish_erase (r : (dset K * outcome unit) * list (ev K)) : snd (fst r) = Ret tt \/ snd (fst r) = Panic ->
  fst (ds_finish_o r) = ds_finish (fst r).
Proof. destruct r as [[c o] t]. cbn. now intros [->| ->]. Qed.
End Own.
Theorem run_books K E ops : forall s : dset K, books (ds_elems s) (snd (ds_run_o E ops s)) (ds_elems (fst (ds_run_o E ops s))).
Proof.
  induction ops as [|[u o] ops IH]; intros s; cbn [ds_run_o]; [apply bk_nil|].
  pose proof (step_books E u o s) as H. destruct (ds_step_o E u o s) as [[s1 r] t]. cbn [fst snd] in H. specialize (IH s1).
  destruct (ds_run_o E ops s1) as [s2 t']. exact (bk_app H IH).
Qed.

(** elements that do not panic, except in [clone] *)
Definition mild {K} (eqb : K -> K -> bool) (clone : K -> option K) : elems_do K :=
  ElemsDo eqb (fun _ _ => false) (fun _ _ => false) clone.
Section Mild.
Variable K : Type.
Variable E : machine.
Variable eqb : K -> K -> bool.
Variable clone : K -> option K.
Notation u := (mild eqb clone).
Lemma make_mild x s : fst (ds_make_or_get_o E u x s) = ds_make_or_get eqb E x s.
Proof.
  unfold ds_make_or_get_o, ds_make_or_get; cbn [ed_look ed_eq mild].
  destruct (hm_entry _ E x (ds_ids s)) as [[old|]| | | |]; try reflexivity. destruct (vec_push E (ds_data s) _); reflexivity.
Qed.
Lemma make_set_mild x s : fst (ds_make_set_o E u x s) = ds_make_set eqb E x s.
Proof. unfold ds_make_set_o, ds_make_set. rewrite <- make_mild. now destruct (ds_make_or_get_o E u x s) as [[s' o] t]. Qed.
Lemma union_mild a b s : fst (ds_union_o E u a b s) = ds_union eqb E a b s.
Proof.
  unfold ds_union_o, ds_union. rewrite <- make_mild. destruct (ds_make_or_get_o E u a s) as [[s1 oa] ta]. cbn [fst].
  destruct oa as [ia| | | |]; try reflexivity. rewrite <- make_mild. destruct (ds_make_or_get_o E u b s1) as [[s2 ob] tb]. cbn [fst].
  destruct ob; reflexivity.
Qed.
Lemma make_from_mild evs : forall s, fst (ds_make_from_o E u evs s) = ds_make_from eqb E evs s.
Proof.
  induction evs as [|[x|] evs IH]; intros s; cbn [ds_make_from_o ds_make_from]; try reflexivity. rewrite <- make_set_mild.
  destruct (ds_make_set_o E u x s) as [[s1 o] t]. cbn [fst]. destruct o as [[]| | | |]; try reflexivity.
  rewrite <- IH. now destruct (ds_make_from_o E u evs s1).
Qed.
Lemma from_iter_mild hint evs : fst (ds_from_iter_o E u hint evs) = ds_from_iter_from eqb E hint evs.
Proof.
  unfold ds_from_iter_o, ds_from_iter_from. destruct hint as [h|]; [|reflexivity]. unfold ds_with_capacity, hm_reserve, vec_reserve.
  cbn [length]. destruct (0 + h <=? alloc_max E); [|reflexivity]. cbn [obind].
  rewrite <- make_from_mild. apply finish_erase, make_from_ret.
Qed.
Lemma from_iter_ref_mild hint evs : fst (ds_from_iter_ref_o E u hint evs) = ds_from_iter_refs eqb clone E hint evs.
Proof.
  unfold ds_from_iter_ref_o, ds_from_iter_refs. destruct hint as [h|]; [|reflexivity]. unfold ds_with_capacity, hm_reserve, vec_reserve.
  cbn [length]. destruct (0 + h <=? alloc_max E); [|reflexivity]. cbn [obind].
  rewrite <- make_from_mild. apply finish_erase, make_from_ret.
Qed.
Lemma extend_mild hint evs s : fst (ds_extend_o E u hint evs s) = ds_extend_from eqb E hint evs s.
Proof.
  unfold ds_extend_o, ds_extend_from, ds_reserve. destruct hint as [h|]; [|reflexivity]. cbn [ed_room mild].
  destruct (obind _ _); try reflexivity. apply make_from_mild.
Qed.
Lemma entry_exists x (m : hmap K nat) : match hm_entry_of eqb x m with Some _ => existsb (eqb x) (map fst m) = true | None => existsb (eqb x) (map fst m) = false end.
Proof. induction m as [|[k' v] m IH]; cbn; [reflexivity|]. destruct (eqb x k'); [reflexivity|exact IH]. Qed.
Lemma make_fresh x s s' i t : ds_make_or_get_o E u x s = ((s', Ret i), t) ->
  if existsb (eqb x) (ds_elems s) then s' = s /\ t = [Gone x] else ds_elems s' = x :: ds_elems s /\ t = [].
Proof.
  unfold ds_make_or_get_o, ds_elems; cbn [ed_look ed_eq mild]. unfold hm_entry, hm_get, hm_reserve. pose proof (entry_exists x (ds_ids s)) as X.
  destruct (hm_entry_of eqb x (ds_ids s)) as [[k' v]|]; cbn [option_map snd]; rewrite X.
  - intros Q; inversion Q; subst. auto.
  - destruct (_ <=? alloc_max E); cbn [obind]; [|discriminate]. destruct (vec_push E (ds_data s) _); intros Q; inversion Q; subst. auto.
Qed.
Lemma make_from_fresh xs : forall s s' t, ds_make_from_o E u (map Some xs) s = ((s', Ret tt), t) ->
  ds_elems s' = rev (fresh eqb (ds_elems s) xs) ++ ds_elems s /\ got t = xs /\ gone t = again eqb (ds_elems s) xs.
Proof.
  induction xs as [|k xs IH]; intros s s' t; cbn [map ds_make_from_o]; [intros Q; inversion Q; subst; now cbn|].
  unfold ds_make_set_o. destruct (ds_make_or_get_o E u k s) as [[s1 o] t1] eqn:B. destruct o as [i| | | |]; cbn [omap]; try discriminate.
  destruct (ds_make_from_o E u (map Some xs) s1) as [x t2] eqn:P. intros Q; inversion Q; subst.
  apply make_fresh in B. apply IH in P as (P1 & P2 & P3). cbn [fresh again]. destruct (existsb (eqb k) (ds_elems s)); destruct B as [B ->].
  - subst s1. cbn. unfold got, gone in *. now rewrite P1, P2, P3.
  - rewrite B in *. cbn. unfold got, gone in *. now rewrite P1, P2, P3, <- app_assoc.
Qed.
Lemma union_fresh a b s s' t : ds_union_o E u a b s = ((s', Ret tt), t) ->
  ds_elems s' = rev (fresh eqb (ds_elems s) [a; b]) ++ ds_elems s /\ t = [Got a; Got b] ++ map Gone (again eqb (ds_elems s) [a; b]).
Proof.
  unfold ds_union_o. destruct (ds_make_or_get_o E u a s) as [[s1 oa] ta] eqn:A. destruct oa as [ia| | | |]; try discriminate.
  destruct (ds_make_or_get_o E u b s1) as [[s2 ob] tb] eqn:B. destruct ob as [ib| | | |]; try discriminate.
  fold (after_makes E ia ib s2). intros Q. pose proof (after_ids E ia ib s2) as J. inversion Q as [[Q1 Q2]]. rewrite Q1 in J. cbn [fst] in J.
  apply make_fresh in A. apply make_fresh in B. cbn [fresh again].
  replace (ds_elems s') with (ds_elems s2) by (unfold ds_elems; now rewrite J).
  destruct (existsb (eqb a) (ds_elems s)); destruct A as [A ->]; [subst s1|rewrite A in B]; cbn [fresh again];
    destruct (existsb (eqb b) _); destruct B as [B ->]; try subst s2; rewrite ?B, ?A; auto.
Qed.
End Mild.
Section Total.
Variable K : Type.
Variable eqb : K -> K -> bool.
Variable cl : K -> K.
Lemma clone_ids_total l : forall acc, ds_clone_ids_o (mild eqb (fun k => Some (cl k))) acc l =
  (Ret (rev acc ++ map (fun e => (cl (fst e), snd e)) l), map (fun e => Got (cl (fst e))) l).
Proof.
  induction l as [|[k n] l IH]; intros acc; cbn [ds_clone_ids_o map]; [now rewrite app_nil_r|]. cbn [ed_clone mild fst snd].
  rewrite IH. cbn. now rewrite <- app_assoc.
Qed.
End Total.
