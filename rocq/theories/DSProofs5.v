(** Proofs about the disjoint set: panicking user code, exact conditions. *)
From Coq Require Import Permutation.
From Verif Require Import Base HMModel HMProofs UserSpec DSModel DSModel2 DSSpec DSRun DSProofs DSProofs2 DSProofs3 DSProofs4.
Local Open Scope outcome_scope.
Set Implicit Arguments.

Section Proofs.
Variable K : Type.
Variable eqb : K -> K -> bool.
Hypothesis L : eq_laws eqb.
Variable E : machine.
Implicit Types (s : dset K) (g : log K) (x y z a b k : K) (xs : list K).

Notation mem := (mem eqb).
Notation firsts := (firsts eqb).
Notation valid := (valid eqb E).
Notation shows := (shows eqb).
Notation joined := (joined eqb).

Notation grown := (grown eqb).

Lemma make_from evs s : ds_make_from eqb E evs s =
  match for_each (ds_make_set eqb E) (fst (delivered evs)) s with
  | (s', Ret _) => (s', if snd (delivered evs) then Panic else Ret tt)
  | (s', o) => (s', o)
  end.
Proof.
  revert s. induction evs as [|[k|] evs IH]; intros s; cbn; auto.
  destruct (ds_make_set eqb E k s) as [s' [u| | | |]]; cbn; auto.
Qed.

Lemma makes_grown xs s s' r : valid s -> (exists g, shows s g) ->
  for_each (ds_make_set eqb E) xs s = (s', r) ->
  (r = Ret tt /\ grown s xs s') \/
  (r = Panic /\ exists ys z zs, xs = ys ++ z :: zs /\ grown s ys s' /\
     ds_contains eqb z s' = false /\ ds_len s' = alloc_max E).
Proof.
  intros V [g S] H. destruct (makes_shows L xs V S H) as (g' & V' & S' & A).
  destruct A as [(Hr & -> & _)|(Hr & ys & z & zs & -> & -> & N1 & N2)].
  - left. split; [destruct r as [[]| | | |]; try discriminate; reflexivity|].
    split; intros x; [intros y; apply (adds_joined L _ x y V S V' S')|apply (adds_joined L _ x x V S V' S')].
  - right. split; [destruct r; try discriminate; reflexivity|]. exists ys, z, zs. split; auto. split; [|split].
    + split; intros x; [intros y; apply (adds_joined L _ x y V S V' S')|apply (adds_joined L _ x x V S V' S')].
    + destruct (ds_contains eqb z s') eqn:Q; auto. exfalso. apply N1.
      apply (contains_mem L z S') in Q. exact Q.
    + unfold ds_len. rewrite <- (size_len S'). exact N2.
Qed.

Lemma extend_from_end hint evs s s' r : valid s -> (exists g, shows s g) ->
  ds_extend_from eqb E hint evs s = (s', r) ->
  (s' = s /\ r = Panic /\ (hint = None \/ exists h, hint = Some h /\ alloc_max E < ds_len s + h)) \/
  (exists h, hint = Some h /\ ds_len s + h <= alloc_max E /\
    (grown s (fst (delivered evs)) s' /\ r = (if snd (delivered evs) then Panic else Ret tt) \/
     exists ys z zs, fst (delivered evs) = ys ++ z :: zs /\ grown s ys s' /\ r = Panic /\
       ds_contains eqb z s' = false /\ ds_len s' = alloc_max E)).
Proof.
  intros V [g S] H. unfold ds_extend_from in H. destruct hint as [h|].
  - rewrite (reserve_ok h V S) in H. rewrite (size_len S) in H. fold (ds_len s) in H.
    destruct (ds_len s + h <=? alloc_max E) eqn:Q.
    + apply Nat.leb_le in Q. right. exists h. split; auto. split; auto. rewrite make_from in H.
      destruct (for_each (ds_make_set eqb E) (fst (delivered evs)) s) as [s1 r1] eqn:M.
      destruct (makes_grown _ V (ex_intro _ g S) M) as [[-> G]|(-> & ys & z & zs & Hx & G & N1 & N2)];
        injection H as <- <-.
      * left. auto.
      * right. exists ys, z, zs. auto.
    + apply Nat.leb_gt in Q. injection H as <- <-. left. split; auto. split; auto. right. eauto.
  - injection H as <- <-. left. auto.
Qed.

Lemma extend_from_reach cl hint evs s s' r : valid s -> (exists g, shows s g) -> reachable eqb E cl s ->
  ds_extend_from eqb E hint evs s = (s', r) -> reachable eqb E cl s'.
Proof.
  intros V [g S] R H. unfold ds_extend_from in H. destruct hint as [h|]; [|injection H as <- <-; auto].
  rewrite (reserve_ok h V S) in H. destruct (size eqb g + h <=? alloc_max E); [|injection H as <- <-; auto].
  rewrite make_from in H.
  assert (X : exists r0, ds_step eqb E (OExtend 0 (fst (delivered evs))) s = (s', r0)).
  { cbn [ds_step]. unfold ds_extend. rewrite (reserve_ok 0 V S).
    replace (size eqb g + 0 <=? alloc_max E) with true.
    - destruct (for_each (ds_make_set eqb E) (fst (delivered evs)) s) as [s1 r1].
      unfold unit_out; cbn. destruct r1; injection H as <- <-; eauto.
    - symmetry. apply Nat.leb_le. rewrite (size_len S), Nat.add_0_r. apply V. }
  destruct X as [r0 X]. refine (r_step _ R _ X). exact Logic.I.
Qed.

Lemma refs_copy evs : map (option_map (fun val : K => val)) evs = evs.
Proof. induction evs as [|[k|] evs IH]; cbn; congruence. Qed.

Lemma extend_refs_from hint evs s : ds_extend_refs eqb E hint evs s = ds_extend_from eqb E hint evs s.
Proof. unfold ds_extend_refs, ds_extend_from. rewrite refs_copy. reflexivity. Qed.

Lemma makes_room xs s g : valid s -> shows s g -> length (firsts (added g ++ xs)) <= alloc_max E ->
  exists s', for_each (ds_make_set eqb E) xs s = (s', Ret tt).
Proof.
  intros V S N. destruct (for_each (ds_make_set eqb E) xs s) as [s' r] eqn:M.
  destruct (makes_shows L xs V S M) as (g' & V' & S' & A).
  destruct A as [(Hr & _ & _)|(_ & ys & z & zs & -> & _ & N1 & N2)].
  - destruct r as [[]| | | |]; try discriminate. eauto.
  - exfalso. replace (added g ++ ys ++ z :: zs) with (((added g ++ ys) ++ [z]) ++ zs) in N
      by (rewrite <- !app_assoc; reflexivity).
    pose proof (firsts_length_mono L ((added g ++ ys) ++ [z]) zs) as B.
    rewrite (firsts_snoc L), app_length in B.
    replace (memb eqb z (added g ++ ys)) with false in B by (symmetry; now apply memb_false).
    cbn in B. unfold DSSpec.firsts in *. lia.
Qed.

(** [from_iter] succeeds exactly when hint and different elements fit *)
Lemma from_iter_from_exact hint evs s :
  ds_from_iter_from eqb E hint evs = Ret s ->
  (exists h, hint = Some h /\ h <= alloc_max E) /\ snd (delivered evs) = false /\
  length (firsts (fst (delivered evs))) <= alloc_max E /\
  valid s /\ shows s (Log (fst (delivered evs)) []).
Proof.
  unfold ds_from_iter_from. destruct hint as [h|]; [|discriminate]. rewrite with_capacity_iff.
  destruct (h <=? alloc_max E) eqn:Q; [|discriminate]. apply Nat.leb_le in Q. cbn [obind].
  rewrite make_from. destruct (for_each (ds_make_set eqb E) (fst (delivered evs)) (ds_new K)) as [s1 r1] eqn:M.
  destruct (makes_shows L _ (new_valid eqb E) (new_shows eqb) M) as (g' & V' & S' & A).
  destruct A as [(Hr & -> & N)|(Hr & _)].
  - destruct r1; try discriminate. unfold ds_finish; cbn [fst snd].
    destruct (snd (delivered evs)); [discriminate|]. cbn. intros [= <-].
    split; eauto.
  - destruct r1; discriminate.
Qed.

Lemma from_iter_from_returns h evs : h <= alloc_max E -> snd (delivered evs) = false ->
  length (firsts (fst (delivered evs))) <= alloc_max E ->
  exists s, ds_from_iter_from eqb E (Some h) evs = Ret s.
Proof.
  intros Q P N. unfold ds_from_iter_from. rewrite with_capacity_iff.
  replace (h <=? alloc_max E) with true by (symmetry; now apply Nat.leb_le). cbn [obind].
  rewrite make_from. destruct (makes_room (fst (delivered evs)) (new_valid eqb E) (new_shows eqb)) as (s' & M); auto.
  rewrite M, P. cbn. eauto.
Qed.

Lemma from_iter_from_iff hint evs :
  (exists s, ds_from_iter_from eqb E hint evs = Ret s) <->
  (exists h, hint = Some h /\ h <= alloc_max E) /\ snd (delivered evs) = false /\
  length (firsts (fst (delivered evs))) <= alloc_max E.
Proof.
  split.
  - intros (s & H). destruct (from_iter_from_exact _ _ H) as (A & B & C & _). auto.
  - intros ((h & -> & Q) & P & N). now apply from_iter_from_returns.
Qed.

Lemma from_iter_from_obs hint evs s : ds_from_iter_from eqb E hint evs = Ret s ->
  (forall x y, joined s x y <-> mem x (fst (delivered evs)) /\ eqb x y = true) /\
  (forall x, ds_contains eqb x s = true <-> mem x (fst (delivered evs))) /\
  ds_len s = length (firsts (fst (delivered evs))).
Proof.
  intros H. destruct (from_iter_from_exact _ _ H) as ((h & -> & Q) & P & N & V & S).
  assert (X : ds_from_iter eqb E h (fst (delivered evs)) = Ret s).
  { unfold ds_from_iter_from in H. unfold ds_from_iter. rewrite with_capacity_iff in *.
    destruct (h <=? alloc_max E); [|discriminate]. cbn [obind] in *. rewrite make_from, P in H.
    destruct (for_each (ds_make_set eqb E) (fst (delivered evs)) (ds_new K)) as [s1 [[]| | | |]]; cbn in *; try discriminate.
    exact H. }
  exact (from_iter_obs L E h _ X).
Qed.

(** ** Clones that panic *)
Section Clone.
Variable clone : K -> option K.
Hypothesis CL : forall k k', clone k = Some k' -> eqb k' k = true.

Definition cl_of (k : K) : K := match clone k with Some k' => k' | None => k end.
Lemma cl_of_eq k : eqb (cl_of k) k = true.
Proof. unfold cl_of. destruct (clone k) eqn:Q; auto. apply (eq_refl' L). Qed.

Lemma delivered_cloned evs :
  delivered (map (fun ev => match ev with Some val => clone val | None => None end) evs) =
  (map cl_of (fst (delivered_clones clone evs)), snd (delivered_clones clone evs)).
Proof.
  induction evs as [|[k|] evs IH]; cbn; auto. destruct (clone k) eqn:Q; cbn; auto. rewrite IH. cbn.
  unfold cl_of at 2. rewrite Q. reflexivity.
Qed.

Lemma from_iter_refs_iff hint evs :
  (exists s, ds_from_iter_refs eqb clone E hint evs = Ret s) <->
  (exists h, hint = Some h /\ h <= alloc_max E) /\ snd (delivered_clones clone evs) = false /\
  length (firsts (fst (delivered_clones clone evs))) <= alloc_max E.
Proof.
  set (evs' := map (fun ev => match ev with Some val => clone val | None => None end) evs).
  change (ds_from_iter_refs eqb clone E hint evs) with (ds_from_iter_from eqb E hint evs').
  rewrite from_iter_from_iff. unfold evs'. rewrite delivered_cloned. cbn [fst snd].
  rewrite (firsts_cl L _ _ cl_of_eq), map_length. reflexivity.
Qed.

Lemma from_iter_refs_obs hint evs s : ds_from_iter_refs eqb clone E hint evs = Ret s ->
  (forall x y, joined s x y <-> mem x (fst (delivered_clones clone evs)) /\ eqb x y = true) /\
  (forall x, ds_contains eqb x s = true <-> mem x (fst (delivered_clones clone evs))) /\
  ds_len s = length (firsts (fst (delivered_clones clone evs))).
Proof.
  set (evs' := map (fun ev => match ev with Some val => clone val | None => None end) evs).
  change (ds_from_iter_refs eqb clone E hint evs) with (ds_from_iter_from eqb E hint evs').
  intros H. destruct (from_iter_from_obs _ _ H) as (A & B & C). unfold evs' in *. rewrite delivered_cloned in *.
  cbn [fst snd] in *. rewrite (firsts_cl L _ _ cl_of_eq), map_length in C.
  split; [|split; [|exact C]].
  - intros x y. rewrite A. rewrite (mem_cl L cl_of x _ cl_of_eq). reflexivity.
  - intros x. rewrite B. rewrite (mem_cl L cl_of x _ cl_of_eq). reflexivity.
Qed.
End Clone.
End Proofs.
