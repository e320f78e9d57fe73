(** C110: every key is owned once. *)
From Coq Require Import Permutation.
From Verif Require Import Base HMModel CTModel CTModel2 CTModel3 OwnSpec OwnProofs CTModel6 CTSpec7 CTProofs10 CTProofs11 CTProps.
Local Open Scope outcome_scope.
Set Implicit Arguments.

(** Whatever a call on a counter does - return, or unwind because [Hash], [Eq],
    [Clone] or an iterator panicked or a count overflowed - and whatever equality the
    keys have: it drops only keys that it or the counter owns, each once, and
    afterwards the counter owns exactly those left. *)
Theorem c110_every_call_keeps_the_books : forall K E u o (c : counter K), kd_ok u ->
  books (ct_keys c) (snd (ct_step_o E u o c)) (ct_keys (fst (fst (ct_step_o E u o c)))).
Proof. intros K E u o c U. exact (step_books E U o c). Qed.
Print Assumptions c110_every_call_keeps_the_books.

(** The same for histories, in which the key type may behave differently each time. *)
Theorem c110_history_keeps_the_books : forall K E ops (c : counter K), Forall (fun x => kd_ok (fst x)) ops ->
  books (ct_keys c) (snd (ct_run_o E ops c)) (ct_keys (fst (ct_run_o E ops c))).
Proof. intros K E ops c H. now apply run_books. Qed.
Print Assumptions c110_history_keeps_the_books.

(** The whole life of a counter: after it has been dropped, the keys it obtained are
    the keys dropped.  If the keys are told apart, none is dropped twice or while the
    counter still holds it. *)
Theorem c110_whole_life : forall K E ops (c : counter K) t, Forall (fun x => kd_ok (fst x)) ops ->
  ct_run_o E ops (ct_new K) = (c, t) ->
  Permutation (got t) (gone t ++ ct_keys c) /\
  (NoDup (got t) -> NoDup (gone t) /\ NoDup (ct_keys c) /\ forall k, In k (gone t) -> In k (got t) /\ ~ In k (ct_keys c)).
Proof.
  intros K E ops c t H Q. pose proof (run_books E H (ct_new K)) as B. rewrite Q in B. cbn [fst snd] in B.
  pose proof (bk_balance B) as P. cbn in P. split; [rewrite P; apply Permutation_app_comm|].
  intros N. destruct (bk_once B N) as (A1 & A2 & _). split; [exact A1|]. split; [|exact A2].
  apply (Permutation_NoDup P) in N. now apply NoDup_app_inv in N.
Qed.
Print Assumptions c110_whole_life.

(** Constructors, clones and [most_common]: the keys obtained are in the result or, if
    there is none, dropped. *)
Theorem c110_constructors : forall K E (u : keys_do K), kd_ok u ->
  (forall hint evs, let (o, t) := ct_from_iter_o E u hint evs in books [] t (match o with Ret c => ct_keys c | _ => [] end)) /\
  (forall hint evs, let (o, t) := ct_from_iter_ref_o E u hint evs in books [] t (match o with Ret c => ct_keys c | _ => [] end)) /\
  (forall rhs, let (o, t) := ct_from_o E u rhs in books [] t (match o with Ret c => ct_keys c | _ => [] end)) /\
  (forall rhs, let (o, t) := ct_from_ref_o E u rhs in books [] t (match o with Ret c => ct_keys c | _ => [] end)) /\
  (forall l, let (o, t) := ct_clone_o u l in books [] t (match o with Ret c => ct_keys c | _ => [] end)) /\
  (forall l r t, ct_most_common_o E u l r t -> books [] t (match r with Ret r' => map fst r' | _ => [] end)).
Proof.
  intros K E u U. repeat split.
  - intros hint evs. unfold ct_from_iter_o. destruct hint as [h|]; [|apply bk_nil]. unfold ct_with_capacity.
    destruct (hm_reserve E h _); cbn [obind]; try apply bk_nil.
    pose proof (finish_books _ (push_from_books E U evs (Counter []))) as H. destruct (finish_o _). exact H.
  - intros hint evs. unfold ct_from_iter_ref_o. destruct hint as [h|]; [|apply bk_nil]. unfold ct_with_capacity.
    destruct (hm_reserve E h _); cbn [obind]; try apply bk_nil.
    pose proof (finish_books _ (push_from_books E U (cloned_o u evs) (Counter []))) as H. destruct (finish_o _). exact H.
  - intros rhs. unfold ct_from_o, hm_collect_o.
    assert (H : books (map fst rhs) (snd (match hm_reserve E (length rhs) (@nil (K * nat)) with
       | Ret _ => ct_for_owned_o (fun key n c => match hm_insert_o E u key n (ct_map c) with
                                            | ((m, Ret _), t) => ((Counter m, Ret tt), t)
                                            | ((m, _), t) => ((Counter m, Panic), t)
                                            end) rhs (Counter [])
       | _ => ((Counter [], Panic), drop_all (map fst rhs)) end)) (ct_keys (fst (fst (match hm_reserve E (length rhs) (@nil (K * nat)) with
       | Ret _ => ct_for_owned_o (fun key n c => match hm_insert_o E u key n (ct_map c) with
                                            | ((m, Ret _), t) => ((Counter m, Ret tt), t)
                                            | ((m, _), t) => ((Counter m, Panic), t)
                                            end) rhs (Counter [])
       | _ => ((Counter [], Panic), drop_all (map fst rhs)) end))))).
    { destruct (hm_reserve E (length rhs) _); try apply bk_gone_every.
      eapply bk_perm; [exact (owned_books (collect_keeps E U) rhs (Counter []))|]. unfold ct_keys. cbn. now rewrite app_nil_r. }
    apply finish_books in H. destruct (finish_o _) as [o t]. cbn [fst snd] in H.
    eapply bk_app; [apply bk_got_all|]. now rewrite app_nil_r.
  - intros rhs. unfold ct_from_ref_o. destruct (hm_reserve E (length rhs) _); try apply bk_nil.
    pose proof (finish_books _ (cloned_books u (collect_keeps E U) rhs (Counter []))) as H. destruct (finish_o _). exact H.
  - intros l. unfold ct_clone_o. pose proof (clone_all_books u l []) as H. destruct (clone_all_o u [] l) as [o t]. destruct o; exact H.
  - intros l r t. unfold ct_most_common_o. pose proof (clone_all_books u l []) as H. destruct (clone_all_o u [] l) as [o t'].
    destruct o as [l'| | | |]; cbn [fst snd] in H; [intros (-> & r' & -> & P & _)|intros (-> & ->); exact H..].
    eapply bk_perm_r; [exact H|]. now apply Permutation_map.
Qed.
Print Assumptions c110_constructors.

(** The operators that consume a counter: its keys and those obtained are in the result
    or, if there is none, dropped. *)
Theorem c110_consuming_operators : forall K E (u : keys_do K) c rhs, kd_ok u ->
  (let (o, t) := ct_add_o E u c rhs in books (ct_keys c) t (match o with Ret c' => ct_keys c' | _ => [] end)) /\
  (let (o, t) := ct_add_ref_o E u c rhs in books (ct_keys c) t (match o with Ret c' => ct_keys c' | _ => [] end)) /\
  (let (o, t) := ct_sub_o E u c rhs in books (ct_keys c) t (match o with Ret c' => ct_keys c' | _ => [] end)) /\
  (let (o, t) := ct_sub_ref_o E u c rhs in books (ct_keys c) t (match o with Ret c' => ct_keys c' | _ => [] end)).
Proof.
  intros K E u c rhs U. repeat split.
  - pose proof (finish_books _ (step_books E U (WAdd rhs) c)) as H. cbn [ct_step_o] in H. fold (ct_add_o E u c rhs) in H. destruct (ct_add_o E u c rhs). exact H.
  - pose proof (finish_books _ (step_books E U (WAddRef rhs) c)) as H. cbn [ct_step_o] in H. unfold ct_add_assign_ref_o in H. fold (ct_add_ref_o E u c rhs) in H. destruct (ct_add_ref_o E u c rhs). exact H.
  - pose proof (finish_books _ (step_books E U (WSub rhs) c)) as H. cbn [ct_step_o] in H. fold (ct_sub_o E u c rhs) in H. destruct (ct_sub_o E u c rhs). exact H.
  - pose proof (finish_books _ (step_books E U (WSubRef rhs) c)) as H. cbn [ct_step_o] in H. unfold ct_sub_assign_ref_o in H. fold (ct_sub_ref_o E u c rhs) in H. destruct (ct_sub_ref_o E u c rhs). exact H.
Qed.
Print Assumptions c110_consuming_operators.

(** The first instance of a key stays: as long as nothing panics, counting drops
    exactly the keys already held, in order, and stores the others. *)
Theorem c110_first_instance_stays : forall K (eqb : K -> K -> bool) E cl (c c' : counter K) t,
  let u := kind eqb (fun k => Some (cl k)) in
  (forall hint xs, ct_extend_o E u (Some hint) (map Some xs) c = ((c', Ret tt), t) ->
     ct_keys c' = rev (fresh eqb (ct_keys c) xs) ++ ct_keys c /\ got t = xs /\ gone t = again eqb (ct_keys c) xs) /\
  (forall hint xs, ct_from_iter_o E u (Some hint) (map Some xs) = (Ret c', t) ->
     ct_keys c' = rev (fresh eqb [] xs) /\ got t = xs /\ gone t = again eqb [] xs) /\
  (forall rhs, ct_add_assign_o E u rhs c = ((c', Ret tt), t) ->
     ct_keys c' = rev (fresh eqb (ct_keys c) (map fst rhs)) ++ ct_keys c /\
     t = map Got (map fst rhs) ++ map Gone (again eqb (ct_keys c) (map fst rhs))) /\
  (forall rhs, ct_add_assign_ref_o E u rhs c = ((c', Ret tt), t) ->
     let ks := map (fun e => cl (fst e)) rhs in
     ct_keys c' = rev (fresh eqb (ct_keys c) ks) ++ ct_keys c /\ got t = ks /\ gone t = again eqb (ct_keys c) ks).
Proof.
  intros K eqb E cl c c' t u. subst u. split; [|split; [|split]].
  - intros hint xs. unfold ct_extend_o. destruct (hm_reserve E hint (ct_map c)); try discriminate. apply push_from_fresh.
  - intros hint xs. unfold ct_from_iter_o, ct_with_capacity. destruct (hm_reserve E hint _); try discriminate. cbn [obind].
    destruct (ct_push_from_o E _ (map Some xs) (Counter [])) as [[c1 o] t1] eqn:Q. unfold finish_o. destruct o as [[]| | | |]; intros X; inversion X; subst.
    apply push_from_fresh in Q. unfold ct_keys in *. cbn [ct_map map] in Q. now rewrite app_nil_r in Q.
  - intros rhs. unfold ct_add_assign_o. destruct (ct_for_owned_o _ rhs c) as [x t1] eqn:Q. intros X; inversion X; subst.
    apply owned_fresh in Q as [Q1 Q2]. now rewrite Q2.
  - intros rhs. apply cloned_fresh.
Qed.
Print Assumptions c110_first_instance_stays.

(** Subtracting never stores a key: when it returns it has dropped every key of the
    right operand (or every clone) and some that the counter held. *)
Theorem c110_subtracting_stores_nothing : forall K E (u : keys_do K) rhs c c' t,
  (ct_sub_assign_o E u rhs c = ((c', Ret tt), t) ->
     exists x, got t = map fst rhs /\ Permutation (gone t) (map fst rhs ++ x) /\ Permutation (ct_keys c) (x ++ ct_keys c')) /\
  (ct_sub_assign_ref_o E u rhs c = ((c', Ret tt), t) ->
     exists x, Permutation (gone t) (got t ++ x) /\ Permutation (ct_keys c) (x ++ ct_keys c')).
Proof.
  intros K E u rhs c c' t. split; [|apply cloned_lower_gone].
  unfold ct_sub_assign_o. destruct (ct_for_owned_o _ rhs c) as [x t1] eqn:Q. intros X; inversion X; subst.
  apply owned_lower_gone in Q as (y & A1 & A2 & A3). exists y. unfold got, gone in *. rewrite !flat_map_app, A1.
  assert (G : forall l : list K, flat_map (fun e => match e with Got k => [k] | Gone _ => [] end) (take_all l) = l) by (intros l; unfold take_all; induction l as [|h l Hl]; cbn; [|rewrite Hl]; auto).
  assert (G' : forall l : list K, flat_map (fun e => match e with Got _ => [] | Gone k => [k] end) (take_all l) = []) by (intros l; unfold take_all; induction l as [|h l Hl]; cbn; auto).
  rewrite G, G', app_nil_r. auto.
Qed.
Print Assumptions c110_subtracting_stores_nothing.

(** Forgetting the events gives the model without them: that of panicking [Hash] and
    [Eq], when no destructor panics ... *)
Theorem c110_forgetting_events_panicking_hash : forall K E (u : keys_do K) (cl : K -> K) c,
  let hp := kd_look u in let rp := kd_rehash u in let eqb := kd_eq u in let dp := fun _ : K => false in
  (forall k, kd_clone u k = Some (cl k)) ->
  (forall k, fst (ct_push_o E u k c) = ct_push_u eqb hp rp dp E k c) /\
  (forall h xs, fst (ct_extend_o E u (Some h) (map Some xs) c) = ct_extend_u eqb hp rp dp E h xs c) /\
  (forall rhs, fst (ct_add_assign_o E u rhs c) = ct_add_assign_u eqb hp rp dp E rhs c) /\
  (forall rhs, fst (ct_add_assign_ref_o E u rhs c) = ct_add_assign_ref_u eqb hp rp dp cl E rhs c) /\
  (forall rhs, fst (ct_sub_assign_o E u rhs c) = ct_sub_assign_u eqb hp rp dp E rhs c) /\
  (forall rhs, fst (ct_sub_assign_ref_o E u rhs c) = ct_sub_assign_ref_u eqb hp rp dp cl E rhs c).
Proof.
  intros K E u cl c hp rp eqb dp C. subst hp rp eqb dp. change (fun _ : K => false) with (@never K). repeat split.
  - intros k. apply push_erase.
  - intros h xs. unfold ct_extend_o, ct_extend_u. destruct (hm_reserve E h (ct_map c)); try reflexivity.
    destruct (kd_rehash u (ct_map c) h) as [[kept lost]|]; [now rewrite unwind_never|]. apply push_from_erase.
  - intros rhs. unfold ct_add_assign_o, ct_add_assign_u. rewrite <- (owned_erase (ct_bump_o E u)); [|apply bump_erase|apply bump_ret].
    now destruct (ct_for_owned_o (ct_bump_o E u) rhs c).
  - intros rhs. unfold ct_add_assign_ref_o, ct_add_assign_ref_u.
    rewrite (cloned_erase u (ct_bump_o E u) (fun e => ct_bump_u (kd_eq u) (kd_look u) (kd_rehash u) never E (fst e) (snd e))); [|intros; apply bump_erase].
    apply for_each_ext. intros a b. now rewrite C.
  - intros rhs. unfold ct_sub_assign_o, ct_sub_assign_u. rewrite <- (owned_erase (ct_lower_o E u)); [|apply lower_erase|apply lower_ret].
    now destruct (ct_for_owned_o (ct_lower_o E u) rhs c).
  - intros rhs. unfold ct_sub_assign_ref_o, ct_sub_assign_ref_u.
    rewrite (cloned_erase u (ct_lower_o E u) (fun e => ct_lower_u (kd_eq u) (kd_look u) (kd_rehash u) never E (fst e) (snd e))); [|intros; apply lower_erase].
    apply for_each_ext. intros a b. now rewrite C.
Qed.
Print Assumptions c110_forgetting_events_panicking_hash.

(** ... and that of panicking iterators and clones, when [Hash] and [Eq] do not panic. *)
Theorem c110_forgetting_events_panicking_clone : forall K E (eqb : K -> K -> bool) clone,
  let u := kind eqb clone in
  (forall hint evs, fst (ct_from_iter_o E u hint evs) = ct_from_iter_from eqb E hint evs) /\
  (forall hint evs, fst (ct_from_iter_ref_o E u hint evs) = ct_from_iter_refs eqb clone E hint evs) /\
  (forall hint evs c, fst (ct_extend_o E u hint evs c) = ct_extend_from eqb E hint evs c) /\
  (forall rhs c, fst (ct_add_assign_ref_o E u rhs c) = ct_add_assign_refs eqb clone E rhs c) /\
  (forall rhs c, fst (ct_sub_assign_ref_o E u rhs c) = ct_sub_assign_refs eqb clone E rhs c) /\
  (forall rhs c, fst (ct_add_o E u c rhs) = ct_add eqb E c rhs) /\
  (forall rhs c, fst (ct_add_ref_o E u c rhs) = ct_add_refs eqb clone E c rhs) /\
  (forall rhs c, fst (ct_sub_o E u c rhs) = ct_sub eqb E c rhs) /\
  (forall rhs c, fst (ct_sub_ref_o E u c rhs) = ct_sub_refs eqb clone E c rhs) /\
  (forall rhs, fst (ct_from_o E u rhs) = ct_from eqb E rhs) /\
  (forall k n c, fst (ct_step_o E u (WInsert k n) c) = let (c', o) := ct_insert eqb E k n c in (c', omap (fun _ => tt) o)) /\
  (forall k c, fst (ct_step_o E u (WRemove k) c) = (fst (ct_remove eqb k c), Ret tt)).
Proof.
  intros K E eqb clone u. subst u. repeat apply conj; intros.
  - apply from_iter_kind. - apply from_iter_ref_kind. - apply extend_kind. - apply add_assign_ref_kind. - apply sub_assign_ref_kind.
  - apply add_kind. - apply add_ref_kind. - apply sub_kind. - apply sub_ref_kind. - apply from_kind.
  - cbn [ct_step_o]. unfold ct_insert. rewrite <- (insert_kind E eqb clone). now destruct (hm_insert_o E _ k n (ct_map c)) as [[m o] t].
  - reflexivity.
Qed.
Print Assumptions c110_forgetting_events_panicking_clone.

(** ... and the first model, when nothing panics. *)
Theorem c110_forgetting_events_clones : forall K E (eqb : K -> K -> bool) cl,
  let u := kind eqb (fun k => Some (cl k)) in
  (forall rhs, fst (ct_from_ref_o E u rhs) = ct_from_ref eqb cl E rhs) /\
  (forall c, fst (ct_clone_o u (ct_map c)) = Ret (ct_clone cl c)) /\
  (forall c r, (exists l t, iterates (ct_map c) l /\ ct_most_common_o E u l (Ret r) t) <-> ct_most_common cl E c r).
Proof.
  intros K E eqb cl u. subst u. split; [apply from_ref_kind|]. split; [intros c; unfold ct_clone_o; now rewrite clone_all_total|].
  intros c r. unfold ct_most_common_o, ct_most_common. split.
  - intros (l & t & I & H). exists l. split; [exact I|]. rewrite clone_all_total in H. destruct H as (_ & r' & Q & H). inversion Q; subst. exact H.
  - intros (l & I & H). exists l, (map (fun e => Got (cl (fst e))) l). split; [exact I|]. rewrite clone_all_total. cbn. eauto.
Qed.
Print Assumptions c110_forgetting_events_clones.

(** Keys whose second component tells the instances apart. *)
Definition kc5 (a : key) : option key := if fst a =? 5 then None else Some (fst a, 100 + snd a).
Definition kq : keys_do key := KeysDo keq (fun _ a => snd a =? 66) (fun m n => if length m =? 4 then Some (tl m, firstn 1 m) else None) kc5.
Definition kn : keys_do key := KeysDo (fun _ _ => false) (fun _ _ => false) (fun _ _ => None) kc5.
Definition c110_ops : list (keys_do key * key_op key) :=
  [(kq, WExtend (Some 2) (map Some word)); (kq, WPush (9, 66)); (kq, WAdd [((2, 1), 5); ((8, 66), 1); ((1, 3), 4)]);
   (kq, WSubRef [((2, 7), 9); ((5, 1), 1); ((1, 4), 1)]); (kn, WPush (1, 50)); (kq, WInsert (6, 6) 3); (kq, WPush (7, 7));
   (kq, WRetain (fun k n => snd k <? 40)); (kq, WRemove (3, 0)); (kq, WPush (4, 4))].
Example c110_ex : Forall (fun x => kd_ok (fst x)) c110_ops /\
  ct_run_o Ec c110_ops (ct_new key) =
    (Counter [((4, 4), 1); ((1, 10), 3)],
     [Got (1, 10); Got (2, 20); Got (1, 11); Gone (1, 11); Got (3, 30); Got (1, 12); Gone (1, 12); Got (2, 21); Gone (2, 21);
      Got (9, 66); Gone (9, 66);
      Got (2, 1); Got (8, 66); Got (1, 3); Gone (2, 1); Gone (8, 66); Gone (1, 3);
      Got (2, 107); Gone (2, 107); Gone (2, 20); Got (1, 50); Got (6, 6); Got (7, 7); Gone (6, 6); Gone (7, 7); Gone (1, 50); Gone (3, 30); Got (4, 4)]) /\
  NoDup (got (snd (ct_run_o Ec c110_ops (ct_new key)))).
Proof.
  assert (A : kd_ok kq).
  { intros m n kept lost Q. cbn in Q. destruct m as [|a m]; [discriminate|]. cbn in Q. destruct (length m =? 3); inversion Q; subst. reflexivity. }
  assert (B : kd_ok kn) by (intros m n kept lost Q; discriminate Q).
  split; [repeat constructor; assumption|]. split; [vm_compute; reflexivity|]. vm_compute.
  repeat (constructor; [cbn; intros X; repeat destruct X as [X|X]; try discriminate X; exact X|]). constructor.
Qed.
(** a clone that panics, a consumed counter, equal instances *)
Example c110_ex_constructors : kd_ok (kind keq kc5) /\
  ct_from_iter_o Ec (kind keq kc5) (Some 3) [Some (1, 1); Some (1, 2); None; Some (2, 2)] = (Panic, [Got (1, 1); Got (1, 2); Gone (1, 2); Gone (1, 1)]) /\
  ct_from_ref_o Ec (kind keq kc5) [((1, 1), 2); ((2, 2), 3); ((5, 5), 1)] =
    (Panic, [Got (1, 101); Got (2, 102); Gone (2, 102); Gone (1, 101)]) /\
  ct_clone_o (kind keq kc5) (ct_map ca) = (Ret (Counter [((3, 130), 1); ((2, 120), 2); ((1, 110), 3)]), [Got (3, 130); Got (2, 120); Got (1, 110)]) /\
  ct_most_common_o Ec (kind keq kc5) (ct_map ca) (Ret [((1, 110), 3); ((2, 120), 2); ((3, 130), 1)]) [Got (3, 130); Got (2, 120); Got (1, 110)] /\
  ct_most_common_o Ec (kind keq kc5) [((1, 1), 1); ((5, 0), 2)] Panic [Got (1, 101); Gone (1, 101)] /\
  ct_add_ref_o Ec (kind keq kc5) ca [((1, 7), 1); ((5, 7), 1)] =
    (Panic, [Got (1, 107); Gone (1, 107); Gone (3, 30); Gone (2, 20); Gone (1, 10)]) /\
  ct_sub_o Ec (kind keq kc5) ca [((1, 7), 3); ((5, 7), 1); ((2, 3), 1)] =
    (Ret (Counter [((3, 30), 1); ((2, 20), 1)]), [Got (1, 7); Got (5, 7); Got (2, 3); Gone (1, 7); Gone (1, 10); Gone (5, 7); Gone (2, 3)]).
Proof.
  split; [apply kind_ok|]. split; [vm_compute; reflexivity|]. split; [vm_compute; reflexivity|]. split; [vm_compute; reflexivity|].
  split; [|split; [split; [reflexivity|vm_compute; reflexivity]|split; vm_compute; reflexivity]].
  unfold ct_most_common_o. assert (Q : clone_all_o (kind keq kc5) [] (ct_map ca) = (Ret [((3, 130), 1); ((2, 120), 2); ((1, 110), 3)], [Got (3, 130); Got (2, 120); Got (1, 110)])) by (vm_compute; reflexivity).
  rewrite Q. split; [reflexivity|]. eexists. split; [reflexivity|]. split; [|split].
  - change [((3, 130), 1); ((2, 120), 2); ((1, 110), 3)] with (rev [((1, 110), 3); ((2, 120), 2); ((3, 130), 1)]). symmetry. apply Permutation_rev.
  - repeat (constructor; [repeat (constructor; [eexists; eexists; split; [vm_compute; reflexivity|split; [vm_compute; reflexivity|]]; apply Nat.leb_le; vm_compute; reflexivity|]); constructor|]). constructor.
  - repeat (constructor; [eexists; vm_compute; reflexivity|]). constructor.
Qed.
Example c110_ex_first : let u := kind keq (fun k => Some (kcl k)) in
  ct_extend_o Ec u (Some 2) (map Some [(1, 5); (7, 7); (2, 0); (7, 8)]) ca =
    ((Counter [((7, 7), 2); ((3, 30), 1); ((2, 20), 3); ((1, 10), 4)], Ret tt),
     [Got (1, 5); Gone (1, 5); Got (7, 7); Got (2, 0); Gone (2, 0); Got (7, 8); Gone (7, 8)]) /\
  fresh keq (ct_keys ca) [(1, 5); (7, 7); (2, 0); (7, 8)] = [(7, 7)] /\ again keq (ct_keys ca) [(1, 5); (7, 7); (2, 0); (7, 8)] = [(1, 5); (2, 0); (7, 8)] /\
  ct_add_assign_o Ec u [((4, 40), 5); ((1, 13), 7)] ca = ((Counter [((4, 40), 5); ((3, 30), 1); ((2, 20), 2); ((1, 10), 10)], Ret tt), [Got (4, 40); Got (1, 13); Gone (1, 13)]) /\
  ct_sub_assign_ref_o Ec u [((3, 40), 5); ((1, 13), 1); ((8, 8), 1)] ca =
    ((Counter [((2, 20), 2); ((1, 10), 2)], Ret tt), [Got (3, 0); Gone (3, 0); Gone (3, 30); Got (1, 0); Gone (1, 0); Got (8, 0); Gone (8, 0)]).
Proof. repeat split; vm_compute; reflexivity. Qed.

(** When the clone of a key panics, so does the call; the clones made before are
    dropped in the order they were made.  Likewise [most_common]. *)
Theorem c110_interrupted_clone : forall K E (u : keys_do K) done k n l ks,
  map (fun e => kd_clone u (fst e)) done = map Some ks -> kd_clone u k = None ->
  ct_clone_o u (done ++ (k, n) :: l) = (Panic, map Got ks ++ map Gone ks) /\
  (forall r t, ct_most_common_o E u (done ++ (k, n) :: l) r t <-> r = Panic /\ t = map Got ks ++ map Gone ks).
Proof.
  intros K E u done k n l ks M N.
  assert (H : forall done acc ks, map (fun e => kd_clone u (fst e)) done = map Some ks ->
    clone_all_o u acc (done ++ (k, n) :: l) = (Panic, map Got ks ++ map Gone (map fst (rev acc) ++ ks))).
  { clear - N. induction done as [|[x i] d IH]; intros acc [|y ks] M; try discriminate; cbn.
    - rewrite N, app_nil_r. reflexivity.
    - cbn in M. injection M as -> M. rewrite (IH _ ks M). cbn. now rewrite (map_app fst), <- app_assoc. }
  specialize (H done [] ks M). unfold ct_clone_o, ct_most_common_o. rewrite H. cbn. split; [reflexivity|]. intros r t. tauto.
Qed.
Print Assumptions c110_interrupted_clone.

(** [remove] whose lookup panics does nothing. *)
Theorem c110_interrupted_remove : forall K E (u : keys_do K) k c, kd_look u (ct_map c) k = true ->
  ct_step_o E u (WRemove k) c = ((c, Panic), []).
Proof. intros K E u k c H. cbn. now rewrite H. Qed.
Print Assumptions c110_interrupted_remove.

(** Every call returns or panics, whatever the key type does. *)
Theorem c110_calls_return_or_panic : forall K E (u : keys_do K) o c,
  snd (fst (ct_step_o E u o c)) = Ret tt \/ snd (fst (ct_step_o E u o c)) = Panic.
Proof.
  intros K E u o c. destruct o as [k|hint evs|rhs|rhs|rhs|rhs|k n|k|p|f|]; cbn [ct_step_o fst snd]; auto.
  - unfold ct_push_o. pose proof (bump_ret E u k 1 c) as R. destruct (ct_bump_o E u k 1 c) as [[c1 o] t]. exact R.
  - unfold ct_extend_o. destruct hint as [h|]; [|auto].
    destruct (kd_rehash u (ct_map c) h) as [[? ?]|]; destruct (hm_reserve E h (ct_map c)); cbn; auto; apply push_from_ret.
  - unfold ct_add_assign_o. pose proof (@owned_ret K _ (fun k n c => bump_ret E u k n c) rhs c) as R. destruct (ct_for_owned_o _ rhs c) as [[c1 o] t]. exact R.
  - apply cloned_ret. intros k n d. apply bump_ret.
  - unfold ct_sub_assign_o. pose proof (@owned_ret K _ (fun k n c => lower_ret E u k n c) rhs c) as R. destruct (ct_for_owned_o _ rhs c) as [[c1 o] t]. exact R.
  - apply cloned_ret. intros k n d. apply lower_ret.
  - pose proof (insert_ret E u k n (ct_map c)) as R. destruct (hm_insert_o E u k n (ct_map c)) as [[m o] t]. cbn [fst snd] in *.
    destruct R as [[x ->]| ->]; auto.
  - destruct (kd_look u (ct_map c) k); auto.
Qed.
Print Assumptions c110_calls_return_or_panic.

(** the second key cannot be cloned; looking up that key panics *)
Example c110_ex_interrupted :
  let u := KeysDo keq (fun _ k => fst k =? 2) (fun _ _ => None) (fun k => if fst k =? 2 then None else Some (fst k, 0)) in
  ct_clone_o u (ct_map ca) = (Panic, [Got (3, 0); Gone (3, 0)]) /\
  ct_step_o Ec u (WRemove (2, 0)) ca = ((ca, Panic), []).
Proof. split; reflexivity. Qed.
