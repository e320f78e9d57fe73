(** Proofs for C110: the keys of a counter are owned once. *)
From Coq Require Import Permutation.
From Verif Require Import Base HMModel CTModel CTModel2 CTModel3 OwnSpec OwnProofs CTModel6.
Local Open Scope outcome_scope.
Set Implicit Arguments.

Section Own.
Variable K : Type.
Variable E : machine.
Variable u : keys_do K.
Hypothesis U : kd_ok u.

Lemma set_keys' eqb k v (m : hmap K nat) : map fst (hm_set eqb k v m) = map fst m.
Proof. induction m as [|[k' v'] m IH]; cbn; [reflexivity|]. destruct (eqb k k'); cbn; congruence. Qed.
Lemma remove_keys eqb k (m : hmap K nat) : match hm_entry_of eqb k m with
  | Some e => Permutation (map fst m) (fst e :: map fst (hm_remove eqb k m)) | None => hm_remove eqb k m = m end.
Proof.
  induction m as [|[k' v'] m IH]; cbn; [reflexivity|]. destruct (eqb k k'); cbn; [reflexivity|].
  destruct (hm_entry_of eqb k m) as [e|]; [|now rewrite IH]. rewrite IH. apply perm_swap.
Qed.
Lemma rehash_keys m n kept lost key : kd_rehash u m n = Some (kept, lost) ->
  books (key :: map fst m) (drop_all (map fst lost) ++ [Gone key]) (map fst kept).
Proof.
  intros Q. apply U in Q. apply (Permutation_map fst) in Q. rewrite map_app in Q. eapply bk_app.
  - eapply bk_perm; [apply bk_gone_all with (l := key :: map fst kept)|]. rewrite <- Permutation_middle. constructor. symmetry. exact Q.
  - econstructor; [apply Permutation_refl|]. apply bk_nil.
Qed.
Lemma rehash_keys0 m n kept lost : kd_rehash u m n = Some (kept, lost) -> books (map fst m) (drop_all (map fst lost)) (map fst kept).
Proof.
  intros Q. apply U in Q. apply (Permutation_map fst) in Q. rewrite map_app in Q. eapply bk_perm; [apply bk_gone_all|]. now symmetry.
Qed.
Lemma bk_one (k : K) l : books (k :: l) [Gone k] l.
Proof. econstructor; [apply Permutation_refl|apply bk_nil]. Qed.

(** what a body does with a key in hand *)
Definition keeps (body : K -> nat -> counter K -> (counter K * outcome unit) * list (ev K)) : Prop :=
  forall k n c, books (k :: ct_keys c) (snd (body k n c)) (ct_keys (fst (fst (body k n c)))).
Lemma bump_keeps : keeps (ct_bump_o E u).
Proof.
  intros k n c. unfold ct_bump_o, ct_keys. destruct (kd_look u (ct_map c) k); [apply bk_one|].
  destruct (hm_entry _ E k (ct_map c)) as [[old|]| | | |]; try apply bk_one.
  - destruct (uadd E old n); cbn [fst snd ct_map]; rewrite ?set_keys'; apply bk_one.
  - destruct (kd_rehash u (ct_map c) 1) as [[kept lost]|] eqn:Q; [now apply rehash_keys with (n := 1)|].
    destruct (uadd E 0 n); apply bk_nil.
Qed.
Lemma lower_keeps : keeps (ct_lower_o E u).
Proof.
  intros k n c. unfold ct_lower_o, ct_keys. destruct (kd_look u (ct_map c) k); [apply bk_one|].
  destruct (hm_entry _ E k (ct_map c)) as [[old|]| | | |]; try apply bk_one.
  - destruct (old <=? n).
    + pose proof (remove_keys (kd_eq u) k (ct_map c)) as R. cbn [fst snd ct_map]. econstructor; [apply Permutation_refl|].
      destruct (hm_entry_of _ k (ct_map c)) as [e|]; [econstructor; [exact R|]|rewrite R]; apply bk_nil.
    + destruct (usub E old n); cbn [fst snd ct_map]; rewrite ?set_keys'; apply bk_one.
  - destruct (kd_rehash u (ct_map c) 1) as [[kept lost]|] eqn:Q; [now apply rehash_keys with (n := 1)|apply bk_one].
Qed.
Lemma insert_keeps k n m : books (k :: map fst m) (snd (hm_insert_o E u k n m)) (map fst (fst (fst (hm_insert_o E u k n m)))).
Proof.
  unfold hm_insert_o. destruct (kd_look u m k); [apply bk_one|].
  destruct (hm_entry _ E k m) as [[old|]| | | |]; try apply bk_one.
  - cbn [fst snd]. rewrite set_keys'. apply bk_one.
  - destruct (kd_rehash u m 1) as [[kept lost]|] eqn:Q; [now apply rehash_keys with (n := 1)|apply bk_nil].
Qed.
Lemma collect_keeps : keeps (fun key n c => match hm_insert_o E u key n (ct_map c) with
                                            | ((m, Ret _), t) => ((Counter m, Ret tt), t)
                                            | ((m, _), t) => ((Counter m, Panic), t)
                                            end).
Proof.
  intros k n c. pose proof (insert_keeps k n (ct_map c)) as H. destruct (hm_insert_o E u k n (ct_map c)) as [[m o] t]. destruct o; exact H.
Qed.
Lemma push_books k c : books (ct_keys c) (snd (ct_push_o E u k c)) (ct_keys (fst (fst (ct_push_o E u k c)))).
Proof. unfold ct_push_o. pose proof (bump_keeps k 1 c) as H. destruct (ct_bump_o E u k 1 c) as [x t]. constructor. exact H. Qed.
Lemma push_from_books evs : forall c, books (ct_keys c) (snd (ct_push_from_o E u evs c)) (ct_keys (fst (fst (ct_push_from_o E u evs c)))).
Proof.
  induction evs as [|[k|] evs IH]; intros c; cbn [ct_push_from_o]; try apply bk_nil.
  pose proof (push_books k c) as H. destruct (ct_push_o E u k c) as [[c1 o] t]. cbn [fst snd] in H. destruct o as [[]| | | |]; try exact H.
  specialize (IH c1). destruct (ct_push_from_o E u evs c1) as [x t']. eapply bk_app; eauto.
Qed.
Lemma owned_books body : keeps body -> forall rhs c,
  books (map fst rhs ++ ct_keys c) (snd (ct_for_owned_o body rhs c)) (ct_keys (fst (fst (ct_for_owned_o body rhs c)))).
Proof.
  intros B. induction rhs as [|[k n] rhs IH]; intros c; cbn [ct_for_owned_o]; [apply bk_nil|].
  pose proof (B k n c) as H. destruct (body k n c) as [[c1 o] t]. cbn [fst snd] in H. cbn [map fst app].
  assert (H' : books (k :: map fst rhs ++ ct_keys c) t (map fst rhs ++ ct_keys c1)).
  { apply (@bk_frame K (map fst rhs)) in H. eapply bk_perm_r; [eapply bk_perm; [exact H|]|].
    - cbn. constructor. apply Permutation_app_comm.
    - apply Permutation_app_comm. }
  destruct o as [[]| | | |]; try (eapply bk_app; [exact H'|apply bk_gone_all]).
  specialize (IH c1). destruct (ct_for_owned_o body rhs c1) as [x t']. eapply bk_app; eauto.
Qed.
Lemma cloned_books body : keeps body -> forall rhs c,
  books (ct_keys c) (snd (ct_for_cloned_o u body rhs c)) (ct_keys (fst (fst (ct_for_cloned_o u body rhs c)))).
Proof.
  intros B. induction rhs as [|[k n] rhs IH]; intros c; cbn [ct_for_cloned_o]; [apply bk_nil|].
  destruct (kd_clone u k) as [k'|]; [|apply bk_nil].
  pose proof (B k' n c) as H. destruct (body k' n c) as [[c1 o] t]. cbn [fst snd] in H.
  destruct o as [[]| | | |]; try (constructor; exact H).
  specialize (IH c1). destruct (ct_for_cloned_o u body rhs c1) as [x t']. cbn [fst snd]. constructor. eapply bk_app; eauto.
Qed.
Lemma taken_books body : keeps body -> forall rhs c,
  books (ct_keys c) (take_all (map fst rhs) ++ snd (ct_for_owned_o body rhs c)) (ct_keys (fst (fst (ct_for_owned_o body rhs c)))).
Proof. intros B rhs c. eapply bk_app; [apply bk_got_all|]. now apply owned_books. Qed.
Lemma finish_books l (r : (counter K * outcome unit) * list (ev K)) : books l (snd r) (ct_keys (fst (fst r))) ->
  books l (snd (finish_o r)) (match fst (finish_o r) with Ret c => ct_keys c | _ => [] end).
Proof.
  destruct r as [[c o] t]. cbn. intros H. destruct o; [exact H|..]; (eapply bk_app; [exact H|apply bk_gone_every]).
Qed.
Theorem step_books o c : books (ct_keys c) (snd (ct_step_o E u o c)) (ct_keys (fst (fst (ct_step_o E u o c)))).
Proof.
  destruct o; cbn [ct_step_o].
  - apply push_books.
  - unfold ct_extend_o. destruct hint as [h|]; [|apply bk_nil]. destruct (hm_reserve E h (ct_map c)); try apply bk_nil.
    destruct (kd_rehash u (ct_map c) h) as [[kept lost]|] eqn:Q; [exact (rehash_keys0 _ _ Q)|apply push_from_books].
  - unfold ct_add_assign_o. pose proof (taken_books bump_keeps rhs c) as H. destruct (ct_for_owned_o _ rhs c). exact H.
  - apply (cloned_books bump_keeps).
  - unfold ct_sub_assign_o. pose proof (taken_books lower_keeps rhs c) as H. destruct (ct_for_owned_o _ rhs c). exact H.
  - apply (cloned_books lower_keeps).
  - pose proof (insert_keeps k n (ct_map c)) as H. destruct (hm_insert_o E u k n (ct_map c)) as [[m o] t]. constructor. exact H.
  - destruct (kd_look u (ct_map c) k); [apply bk_nil|]. pose proof (remove_keys (kd_eq u) k (ct_map c)) as R. unfold ct_keys. cbn [fst snd ct_map].
    destruct (hm_entry_of _ k (ct_map c)) as [e|]; [econstructor; [exact R|]|rewrite R]; apply bk_nil.
  - unfold ct_keys, ct_retain, hm_retain. cbn [fst snd ct_map]. induction (ct_map c) as [|e m IH]; cbn; [apply bk_nil|].
    destruct (p (fst e) (snd e)); cbn.
    + apply (@bk_frame K [fst e]) in IH. eapply bk_perm_r; [eapply bk_perm; [exact IH|]|].
      * apply (Permutation_app_comm [fst e]).
      * apply (Permutation_app_comm _ [fst e]).
    + econstructor; [apply Permutation_refl|exact IH].
  - unfold ct_keys, ct_iter_mut, hm_map_values. cbn [fst snd ct_map]. rewrite map_map. apply bk_nil.
  - apply bk_gone_every.
Qed.
Lemma clone_all_books l : forall acc, books (map fst acc) (snd (clone_all_o u acc l)) (match fst (clone_all_o u acc l) with Ret m => map fst m | _ => [] end).
Proof.
  induction l as [|[k n] l IH]; intros acc; cbn [clone_all_o].
  - constructor. cbn. rewrite map_rev. apply Permutation_rev.
  - destruct (kd_clone u k) as [k'|].
    + specialize (IH ((k', n) :: acc)). destruct (clone_all_o u ((k', n) :: acc) l) as [o t]. constructor. exact IH.
    + cbn. eapply bk_perm; [apply bk_gone_every|]. rewrite map_rev. apply Permutation_rev.
Qed.
End Own.
Theorem run_books K E ops : Forall (fun x => kd_ok (fst x)) ops -> forall c : counter K,
  books (ct_keys c) (snd (ct_run_o E ops c)) (ct_keys (fst (ct_run_o E ops c))).
Proof.
  induction 1 as [|[u o] ops U _ IH]; intros c; cbn [ct_run_o]; [apply bk_nil|].
  cbn [fst] in U. pose proof (step_books E U o c) as H. destruct (ct_step_o E u o c) as [[c1 r] t]. cbn [fst snd] in H. specialize (IH c1).
  destruct (ct_run_o E ops c1) as [c2 t']. cbn [fst snd] in *. exact (bk_app H IH).
Qed.
