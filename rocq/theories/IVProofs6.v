(** Lemmas about the in-place interval operations with panicking comparisons. *)
From Verif Require Import Base IVModel IVModel3 IVSpec IVRun IVProofs IVProofs2 IVProofs4.
Set Implicit Arguments.

Section Panics.
Variable T : Type.
Variable cmp : T -> T -> comparison.
Variable op ep : T -> T -> bool.
Notation mk l u := (Interval (Some (NonEmpty l u))).

Lemma sep_ret l u r : are_separated_p cmp op ep l u = Ret r -> are_separated cmp l u = r.
Proof.
  unfold are_separated_p, are_separated, vgt_p, veq_p. destruct (op _ _); cbn; [discriminate|].
  destruct (vgt cmp _ _); cbn; [congruence|]. destruct (ep _ _); cbn; [discriminate|]. congruence.
Qed.
Lemma sep_fails l u : are_separated_p cmp op ep l u = Panic \/ exists r, are_separated_p cmp op ep l u = Ret r.
Proof.
  unfold are_separated_p, vgt_p, veq_p. destruct (op _ _); cbn; auto.
  destruct (vgt cmp _ _); cbn; eauto. destruct (ep _ _); cbn; eauto.
Qed.
Lemma merged_ret a b r : iv_can_be_merged_p cmp op ep a b = Ret r -> iv_can_be_merged cmp a b = r.
Proof.
  destruct a as [[[l u]|]]; [|cbn; congruence]. destruct b as [[[m v]|]]; [|cbn; congruence].
  rewrite merge_sep. unfold iv_can_be_merged_p; cbn.
  destruct (sep_fails m u) as [E|[x E]]; rewrite E; cbn; [discriminate|]. apply sep_ret in E; rewrite E.
  destruct x; [cbn; congruence|].
  destruct (sep_fails l v) as [F|[y F]]; rewrite F; cbn; [discriminate|]. apply sep_ret in F; rewrite F. congruence.
Qed.
Lemma merged_fails a b : iv_can_be_merged_p cmp op ep a b = Panic \/ exists r, iv_can_be_merged_p cmp op ep a b = Ret r.
Proof.
  destruct a as [[[l u]|]]; [|cbn; eauto]. destruct b as [[[m v]|]]; [|cbn; eauto].
  unfold iv_can_be_merged_p; cbn.
  destruct (sep_fails m u) as [E|[x E]]; rewrite E; cbn; auto. destruct x; eauto.
  destruct (sep_fails l v) as [F|[y F]]; rewrite F; cbn; eauto.
Qed.

(** the two swaps of [merge] and [span] *)
Lemma widen_ret s o j : iv_widen_p cmp op s o = (j, Ret tt) ->
  j = mk (if lower_lt cmp (lo o) (lo s) then lo o else lo s) (if upper_gt cmp (up o) (up s) then up o else up s).
Proof.
  unfold iv_widen_p, lower_lt_p, upper_gt_p. destruct (op _ _); [discriminate|].
  destruct (op (uval _) _); [discriminate|]. congruence.
Qed.
Lemma widen_fails s o j r : iv_widen_p cmp op s o = (j, r) -> r <> Ret tt ->
  r = Panic /\ (j = Interval (Some s) \/ j = mk (if lower_lt cmp (lo o) (lo s) then lo o else lo s) (up s)).
Proof.
  unfold iv_widen_p, lower_lt_p, upper_gt_p. destruct (op _ _); [intros E _; injection E as <- <-; auto|].
  destruct (op (uval _) _); intros E N; injection E as <- <-; auto. now elim N.
Qed.

Lemma merge_ret a b j r : iv_merge_p cmp op ep a b = (j, Ret r) -> iv_merge cmp a b = (j, r).
Proof.
  unfold iv_merge_p, iv_merge. destruct (merged_fails a b) as [E|[x E]]; rewrite E; [discriminate|].
  apply merged_ret in E; rewrite E. destruct x; cbn; [|congruence].
  destruct (imp a) as [s|]; [|congruence]. destruct (imp b) as [o|]; [|congruence].
  destruct (iv_widen_p cmp op s o) as [j' [[]| | | |]] eqn:W; cbn; try discriminate.
  apply widen_ret in W. subst j'. congruence.
Qed.
Lemma merge_fails a b j r : iv_merge_p cmp op ep a b = (j, r) -> (forall v, r <> Ret v) ->
  r = Panic /\ (j = a \/ exists s o, imp a = Some s /\ imp b = Some o /\ iv_can_be_merged cmp a b = true /\
                         j = mk (if lower_lt cmp (lo o) (lo s) then lo o else lo s) (up s)).
Proof.
  unfold iv_merge_p. destruct (merged_fails a b) as [E|[x E]]; rewrite E; [intros H _; injection H as <- <-; auto|].
  apply merged_ret in E. destruct x; [|intros H N; injection H as _ <-; now elim (N (inr b))].
  destruct a as [[s|]], b as [[o|]]; cbn; try (intros H N; injection H as _ <-; now elim (N (inl tt))).
  destruct (iv_widen_p cmp op s o) as [j' r'] eqn:W. intros H N; injection H as <- <-.
  assert (N' : r' <> Ret tt) by (intros ->; exact (N _ eq_refl)).
  destruct (widen_fails _ _ W N') as [-> [->| ->]]; cbn; split; auto. right; eauto 7.
Qed.
Lemma span_ret a b j : iv_span_p cmp op a b = (j, Ret tt) -> iv_span cmp a b = Ret j.
Proof.
  destruct a as [[s|]], b as [[o|]]; cbn; try congruence. intros W. apply widen_ret in W. now subst.
Qed.
Lemma span_fails a b j r : iv_span_p cmp op a b = (j, r) -> r <> Ret tt ->
  r = Panic /\ (j = a \/ exists s o, imp a = Some s /\ imp b = Some o /\
                         j = mk (if lower_lt cmp (lo o) (lo s) then lo o else lo s) (up s)).
Proof.
  destruct a as [[s|]], b as [[o|]]; cbn; try (intros H N; injection H as _ <-; now elim N).
  intros W N. destruct (widen_fails _ _ W N) as [-> [->| ->]]; split; auto. right; eauto 7.
Qed.
Lemma intersection_ret a b j : iv_intersection_p cmp op a b = (j, Ret tt) -> iv_intersection cmp a b = Ret j.
Proof.
  destruct a as [[[l u]|]], b as [[[m v]|]]; try (cbn; congruence).
  unfold iv_intersection_p, iv_intersection, iv_gt_p, iv_lt_p, lu_gt_p, ul_lt_p, lower_lt_p, upper_gt_p; cbn.
  destruct (op _ _); [discriminate|]. destruct (lu_gt cmp l v); cbn; [congruence|].
  destruct (op _ _); [discriminate|]. destruct (ul_lt cmp u m); cbn; [congruence|].
  destruct (op _ _); [discriminate|]. destruct (op _ _); [discriminate|]. congruence.
Qed.
Lemma intersection_fails a b j r : iv_intersection_p cmp op a b = (j, r) -> r <> Ret tt ->
  r = Panic /\ (j = a \/ exists s o, imp a = Some s /\ imp b = Some o /\ ul_lt cmp (up s) (lo o) = false /\
                         j = mk (if lower_lt cmp (lo s) (lo o) then lo o else lo s) (up s)).
Proof.
  destruct a as [[[l u]|]], b as [[[m v]|]]; try (cbn; intros H N; injection H as _ <-; now elim N).
  unfold iv_intersection_p, iv_gt_p, iv_lt_p, lu_gt_p, ul_lt_p, lower_lt_p, upper_gt_p; cbn.
  destruct (op _ _); [intros H N; injection H as <- <-; auto|].
  destruct (lu_gt cmp l v); cbn; [intros H N; injection H as <- <-; now elim N|].
  destruct (op _ _); [intros H N; injection H as <- <-; auto|].
  destruct (ul_lt cmp u m) eqn:U; cbn; [intros H N; injection H as <- <-; now elim N|].
  destruct (op _ _); [intros H N; injection H as <- <-; auto|].
  destruct (op _ _); intros H N; injection H as <- <-; [|now elim N]. split; auto. right. do 2 eexists. cbn. eauto.
Qed.

(** *** compound assignment *)
Lemma fix_p_ret i j : fix_after_modification_p cmp op ep i = (j, Ret tt) -> j = fix_after_modification cmp i.
Proof.
  destruct i as [[[l u]|]]; cbn; [|congruence]. unfold vgt_p, veq_p, fix_after_modification; cbn. destruct (op _ _); [discriminate|].
  destruct (ep _ _); [discriminate|]. congruence.
Qed.
(** where the two comparisons of [fix_after_modification] can stop it *)
Definition stopped_at l lc u uc (j : ends T) : Prop :=
  op l u = true /\ j = Some (l, lc, u, uc) \/
  op l u = false /\ cmp l u <> Gt /\ ep l u = true /\ j = Some (l, lc, u, uc) \/
  op l u = false /\ cmp l u = Gt /\ ep u l = true /\ j = Some (u, uc, l, lc).
Lemma fix_p_fails l lc u uc j r : fix_after_modification_p cmp op ep (ivt l lc u uc) = (j, r) -> r <> Ret tt ->
  r = Panic /\ stopped_at l lc u uc (iv_into_tuple j).
Proof.
  unfold fix_after_modification_p, ivt, vgt_p, veq_p, vgt, stopped_at; cbn.
  destruct (op l u) eqn:O; [intros H _; injection H as <- <-; cbn; auto|].
  destruct (cmp l u) eqn:C; cbn;
  (destruct (ep _ _) eqn:E; intros H N; injection H as <- <-; [|now elim N]); cbn; split; auto; right; solve [left; repeat split; auto; discriminate|auto].
Qed.
Lemma fix_p_when l lc u uc j r : fix_after_modification_p cmp op ep (ivt l lc u uc) = (j, r) ->
  r = (if op l u || (if vgt cmp l u then ep u l else ep l u) then Panic else Ret tt).
Proof.
  unfold fix_after_modification_p, ivt, vgt_p, veq_p; cbn.
  destruct (op l u); cbn; [intros H; injection H as _ <-; auto|].
  destruct (vgt cmp l u); cbn; (destruct (ep _ _); intros H; injection H as _ <-; auto).
Qed.

Variable U : Type.
(** the four compound assignments with panicking comparisons, each with its
    counterpart without *)
Definition assignments (f : T -> U -> outcome T) :
  list ((interval T -> U -> interval T * outcome unit) * (interval T -> U -> interval T * outcome unit)) :=
  [(iv_add_assign_p cmp op ep (assign_of f), iv_add_assign cmp (assign_of f));
   (iv_sub_assign_p cmp op ep (assign_of f), iv_sub_assign cmp (assign_of f));
   (iv_mul_assign_p cmp op ep (assign_of f), iv_mul_assign cmp (assign_of f));
   (iv_div_assign_p cmp op ep (assign_of f), iv_div_assign cmp (assign_of f))].

Definition map_assign_p (f : T -> outcome T) (i : interval T) : interval T * outcome unit :=
  match iv_into_tuple i with
  | Some (l, lc, u, uc) =>
      match f l with
      | Ret l' => match f u with
                  | Ret u' => fix_after_modification_p cmp op ep (ivt l' lc u' uc)
                  | e => (ivt l' lc u uc, obind e (fun _ => Ret tt))
                  end
      | e => (i, obind e (fun _ => Ret tt))
      end
  | None => (i, Ret tt)
  end.
Lemma assignments_map f run plain i k : In (run, plain) (assignments f) ->
  run i k = map_assign_p (fun x => f x k) i /\ plain i k = iv_map_assign cmp (fun x => f x k) i.
Proof.
  intros H. split.
  - destruct i as [[[[[l lc]] [[u uc]]]|]]; [|destruct H as [H|[H|[H|[H|[]]]]]; injection H as <- <-; reflexivity].
    destruct H as [H|[H|[H|[H|[]]]]]; injection H as <- <-; unfold map_assign_p; cbn [iv_into_tuple imp lo up lower_into_tuple upper_into_tuple lval lclosed uval uclosed lbound ubound bval bclosed];
    unfold iv_add_assign_p, iv_sub_assign_p, iv_mul_assign_p, iv_div_assign_p, iv_assign_p,
      lower_add_assign, lower_sub_assign, lower_mul_assign, lower_div_assign, upper_add_assign, upper_sub_assign, upper_mul_assign, upper_div_assign,
      bound_add_assign, bound_sub_assign, bound_mul_assign, bound_div_assign, assign_of;
    cbn [imp lo up lbound ubound bval bclosed];
    (destruct (f l k) eqn:L; auto; destruct (f u k) eqn:V; auto).
  - destruct H as [H|[H|[H|[H|[]]]]]; injection H as <- <-; auto using iv_add_assign_map, iv_sub_assign_map, iv_mul_assign_map, iv_div_assign_map.
Qed.
Lemma assignments_ret f run plain i k j : In (run, plain) (assignments f) -> run i k = (j, Ret tt) -> plain i k = (j, Ret tt).
Proof.
  intros H. destruct (assignments_map i k H) as [-> ->]. unfold map_assign_p, iv_map_assign.
  destruct (iv_into_tuple i) as [[[[l lc] u] uc]|]; auto.
  destruct (f l k); auto. destruct (f u k); auto. intros E. apply fix_p_ret in E. now subst.
Qed.
End Panics.
