(** C111: every element of a disjoint set is owned once. *)
From Coq Require Import Permutation NArith.
From Verif Require Import Base HMModel DSModel DSModel2 DSModel3 OwnSpec OwnProofs DSModel6 CTSpec7 DSProofs14 DSProps.
Local Open Scope outcome_scope.
Set Implicit Arguments.

(** Whatever a call on a disjoint set does, also if it unwinds, and whatever equality
    the elements have: it drops only elements that it or the set owns, each once, and
    afterwards the set owns exactly those left. *)
Theorem c111_every_call_keeps_the_books : forall K E u o (s : dset K),
  books (ds_elems s) (snd (ds_step_o E u o s)) (ds_elems (fst (fst (ds_step_o E u o s)))).
Proof. intros K E u o s. exact (step_books E u o s). Qed.
Print Assumptions c111_every_call_keeps_the_books.

(** The whole life of a set: after it has been dropped, the elements it obtained are
    the elements dropped.  If elements are told apart, none is dropped twice or while
    the set still holds it. *)
Theorem c111_whole_life : forall K E ops (s : dset K) t, ds_run_o E ops (ds_new K) = (s, t) ->
  books [] t (ds_elems s) /\ Permutation (got t) (gone t ++ ds_elems s) /\
  (NoDup (got t) -> NoDup (gone t) /\ NoDup (ds_elems s) /\ forall k, In k (gone t) -> In k (got t) /\ ~ In k (ds_elems s)).
Proof.
  intros K E ops s t Q. pose proof (run_books E ops (ds_new K)) as B. rewrite Q in B. cbn [fst snd] in B.
  pose proof (bk_balance B) as P. cbn in P. split; [exact B|]. split; [rewrite P; apply Permutation_app_comm|].
  intros N. destruct (bk_once B N) as (A1 & A2 & _). split; [exact A1|]. split; [|exact A2].
  apply (Permutation_NoDup P) in N. now apply NoDup_app_inv in N.
Qed.
Print Assumptions c111_whole_life.

(** Constructors and clones: the elements obtained are in the result or, if there is
    none, dropped. *)
Theorem c111_constructors : forall K E (u : elems_do K),
  (forall hint evs, let (o, t) := ds_from_iter_o E u hint evs in books [] t (match o with Ret s => ds_elems s | _ => [] end)) /\
  (forall hint evs, let (o, t) := ds_from_iter_ref_o E u hint evs in books [] t (match o with Ret s => ds_elems s | _ => [] end)) /\
  (forall s, let (o, t) := ds_clone_o u s in books [] t (match o with Ret s' => ds_elems s' | _ => [] end)).
Proof.
  intros K E u. repeat split.
  - intros hint evs. unfold ds_from_iter_o. destruct hint as [h|]; [|apply bk_nil].
    destruct (ds_with_capacity K E h) as [s| | | |] eqn:W; try apply bk_nil.
    unfold ds_with_capacity in W. destruct (hm_reserve E h _); try discriminate. cbn [obind] in W. destruct (vec_reserve E h _); inversion W; subst s.
    pose proof (finish_books _ (make_from_books E u evs (DSet [] []))) as H. destruct (ds_finish_o _). exact H.
  - intros hint evs. unfold ds_from_iter_ref_o. destruct hint as [h|]; [|apply bk_nil].
    destruct (ds_with_capacity K E h) as [s| | | |] eqn:W; try apply bk_nil.
    unfold ds_with_capacity in W. destruct (hm_reserve E h _); try discriminate. cbn [obind] in W. destruct (vec_reserve E h _); inversion W; subst s.
    match goal with |- context [ds_make_from_o E u ?l _] => pose proof (finish_books _ (make_from_books E u l (DSet [] []))) as H end.
    destruct (ds_finish_o _). exact H.
  - intros s. unfold ds_clone_o. pose proof (clone_ids_books u (ds_ids s) []) as H. destruct (ds_clone_ids_o u [] (ds_ids s)) as [o t]. destruct o; exact H.
Qed.
Print Assumptions c111_constructors.

(** The first instance of an element stays: as long as nothing panics, exactly the
    elements already held are dropped, in order, and the others stored. *)
Theorem c111_first_instance_stays : forall K (eqb : K -> K -> bool) clone E (s s' : dset K) t,
  let u := mild eqb clone in
  (forall x, ds_make_set_o E u x s = ((s', Ret tt), t) ->
     ds_elems s' = fresh eqb (ds_elems s) [x] ++ ds_elems s /\ t = Got x :: map Gone (again eqb (ds_elems s) [x])) /\
  (forall a b, ds_union_o E u a b s = ((s', Ret tt), t) ->
     ds_elems s' = rev (fresh eqb (ds_elems s) [a; b]) ++ ds_elems s /\ t = [Got a; Got b] ++ map Gone (again eqb (ds_elems s) [a; b])) /\
  (forall hint xs, ds_extend_o E u (Some hint) (map Some xs) s = ((s', Ret tt), t) ->
     ds_elems s' = rev (fresh eqb (ds_elems s) xs) ++ ds_elems s /\ got t = xs /\ gone t = again eqb (ds_elems s) xs) /\
  (forall hint xs, ds_from_iter_o E u (Some hint) (map Some xs) = (Ret s', t) ->
     ds_elems s' = rev (fresh eqb [] xs) /\ got t = xs /\ gone t = again eqb [] xs).
Proof.
  intros K eqb clone E s s' t u. subst u. split; [|split; [|split]].
  - intros x. unfold ds_make_set_o. destruct (ds_make_or_get_o E _ x s) as [[s1 o] t1] eqn:Q. destruct o as [i| | | |]; intros X; inversion X; subst.
    apply make_fresh in Q. cbn [fresh again]. destruct (existsb (eqb x) (ds_elems s)); destruct Q as [A ->]; [subst s'; auto|now rewrite A].
  - intros a b. apply union_fresh.
  - intros hint xs. unfold ds_extend_o, ds_reserve. cbn [ed_room mild]. destruct (obind _ _); try discriminate. apply make_from_fresh.
  - intros hint xs. unfold ds_from_iter_o. destruct (ds_with_capacity K E hint) as [s0| | | |] eqn:W; try discriminate.
    unfold ds_with_capacity in W. destruct (hm_reserve E hint _); try discriminate. cbn [obind] in W. destruct (vec_reserve E hint _); inversion W; subst s0.
    destruct (ds_make_from_o E _ (map Some xs) (DSet [] [])) as [[s1 o] t1] eqn:Q. unfold ds_finish_o. destruct o as [[]| | | |]; intros X; inversion X; subst.
    apply make_from_fresh in Q. unfold ds_elems in *. cbn [ds_ids map] in Q. now rewrite app_nil_r in Q.
Qed.
Print Assumptions c111_first_instance_stays.

(** Forgetting the events gives the models without them. *)
Theorem c111_forgetting_events : forall K E (u : elems_do K) (s : dset K),
  let hp := ed_look u in let rp := ed_room u in let eqb := ed_eq u in let dp := fun _ : K => false in
  (forall x, fst (ds_make_set_o E u x s) = ds_make_set_u eqb hp dp E x s) /\
  (forall a b, fst (ds_union_o E u a b s) = ds_union_u eqb hp dp E a b s) /\
  (forall h xs, fst (ds_extend_o E u (Some h) (map Some xs) s) = ds_extend_u eqb hp rp dp E h xs s) /\
  (forall left, fst (ds_step_o E u (XClear K) s) = ds_clear_u dp left s).
Proof.
  intros K E u s hp rp eqb dp. subst hp rp eqb dp. repeat apply conj; intros.
  - apply make_set_erase.
  - apply union_erase.
  - unfold ds_extend_o, ds_extend_u, ds_reserve. destruct (ed_room u (ds_ids s) h); [reflexivity|]. destruct (obind _ _); try reflexivity. apply make_from_erase.
  - unfold ds_clear_u. cbn. assert (X : forall l : hmap K nat, existsb (fun _ => false) l = false) by (induction l; auto). now rewrite X.
Qed.
Print Assumptions c111_forgetting_events.
Theorem c111_forgetting_events_clones : forall K E (eqb : K -> K -> bool) clone,
  let u := mild eqb clone in
  (forall a b s, fst (ds_union_o E u a b s) = ds_union eqb E a b s) /\
  (forall hint evs, fst (ds_from_iter_o E u hint evs) = ds_from_iter_from eqb E hint evs) /\
  (forall hint evs, fst (ds_from_iter_ref_o E u hint evs) = ds_from_iter_refs eqb clone E hint evs) /\
  (forall hint evs s, fst (ds_extend_o E u hint evs s) = ds_extend_from eqb E hint evs s) /\
  (forall cl s, fst (ds_clone_o (mild eqb (fun k => Some (cl k))) s) = Ret (ds_clone cl s)).
Proof.
  intros K E eqb clone u. subst u. repeat apply conj; intros.
  - apply union_mild. - apply from_iter_mild. - apply from_iter_ref_mild. - apply extend_mild.
  - unfold ds_clone_o. now rewrite clone_ids_total.
Qed.
Print Assumptions c111_forgetting_events_clones.

(** Elements whose second component tells the instances apart; looking up those
    labelled 66 panics, those equal to 5 cannot be cloned, and no more than six fit. *)
Definition ec5 (a : elt) : option elt := if fst a =? 5 then None else Some (fst a, 100 + snd a).
Definition eq6 : elems_do elt := ElemsDo eeq (fun _ a => snd a =? 66) (fun m n => (length m =? 4) && (n =? 9)) ec5.
Definition en6 : elems_do elt := ElemsDo (fun _ _ => false) (fun _ _ => false) (fun _ _ => false) ec5.
Definition c111_ops : list (elems_do elt * elem_op elt) :=
  [(eq6, XUnion (1, 1) (2, 2)); (eq6, XUnion (1, 3) (3, 3)); (eq6, XUnion (7, 66) (8, 8)); (eq6, XUnion (4, 4) (9, 66));
   (eq6, XExtend (Some 9) [Some (5, 5)]); (eq6, XExtend (Some 1) [Some (5, 5); Some (2, 9); None; Some (6, 6)]);
   (en6, XMake (1, 10)); (en6, XMake (1, 11)); (eq6, XInUnion (1, 0) (3, 0)); (eq6, XIter (fun l => l)); (eq6, XClear elt); (eq6, XMake (1, 12))].
Example c111_ex : ds_run_o Ed c111_ops (ds_new elt) =
    (DSet [((1, 12), 0)] [Data 0 0%N],
     [Got (1, 1); Got (2, 2); Got (1, 3); Got (3, 3); Gone (1, 3); Got (7, 66); Got (8, 8); Gone (7, 66); Gone (8, 8);
      Got (4, 4); Got (9, 66); Gone (9, 66); Got (5, 5); Got (2, 9); Gone (2, 9); Got (1, 10); Got (1, 11); Gone (1, 11);
      Gone (1, 10); Gone (5, 5); Gone (4, 4); Gone (3, 3); Gone (2, 2); Gone (1, 1); Got (1, 12)]) /\
  NoDup (got (snd (ds_run_o Ed c111_ops (ds_new elt)))) /\
  ds_union_o Ed eq6 (1, 1) (2, 66) (ds_new elt) = ((DSet [((1, 1), 0)] [Data 0 0%N], Panic), [Got (1, 1); Got (2, 66); Gone (2, 66)]) /\
  ds_from_iter_ref_o Ed eq6 (Some 2) [Some (1, 1); Some (2, 2); Some (5, 5)] = (Panic, [Got (1, 101); Got (2, 102); Gone (2, 102); Gone (1, 101)]) /\
  ds_clone_o eq6 (DSet [((1, 1), 1); ((5, 5), 0)] [Data 0 1%N; Data 0 0%N]) = (Panic, [Got (1, 101); Gone (1, 101)]) /\
  ds_from_iter_o Ed (mild eeq ec5) (Some 9) (map Some [(1, 1); (2, 2)]) = (Panic, []) /\
  ds_from_iter_o Ed (mild eeq ec5) (Some 1) (map Some [(1, 1); (2, 2); (1, 3); (2, 4); (3, 5)]) =
    (Ret (DSet [((3, 5), 2); ((2, 2), 1); ((1, 1), 0)] [Data 0 0%N; Data 1 0%N; Data 2 0%N]),
     [Got (1, 1); Got (2, 2); Got (1, 3); Gone (1, 3); Got (2, 4); Gone (2, 4); Got (3, 5)]).
Proof.
  split; [vm_compute; reflexivity|]. split; [|repeat split; vm_compute; reflexivity]. vm_compute.
  repeat (constructor; [cbn; intros X; repeat destruct X as [X|X]; try discriminate X; exact X|]). constructor.
Qed.

(** When the clone of an element panics, so does the call; the clones made before are
    dropped in the order they were made. *)
Theorem c111_interrupted_clone : forall K (u : elems_do K) done k i l data ks,
  map (fun e => ed_clone u (fst e)) done = map Some ks -> ed_clone u k = None ->
  ds_clone_o u (DSet (done ++ (k, i) :: l) data) = (Panic, map Got ks ++ map Gone ks).
Proof.
  intros K u done k i l data ks M N.
  assert (H : forall done acc ks, map (fun e => ed_clone u (fst e)) done = map Some ks ->
    ds_clone_ids_o u acc (done ++ (k, i) :: l) = (Panic, map Got ks ++ map Gone (map fst (rev acc) ++ ks))).
  { clear - N. induction done as [|[x j] d IH]; intros acc [|y ks] M; try discriminate; cbn.
    - rewrite N, app_nil_r. reflexivity.
    - cbn in M. injection M as -> M. rewrite (IH _ ks M). cbn. now rewrite (map_app fst), <- app_assoc. }
  unfold ds_clone_o. cbn [ds_ids]. now rewrite (H done [] ks M).
Qed.
Print Assumptions c111_interrupted_clone.

(** The calls of a history without their events. *)
Theorem c111_forgetting_events_in_histories : forall K E (u : elems_do K) (s : dset K),
  let hp := ed_look u in let eqb := ed_eq u in let dp := fun _ : K => false in
  (forall x, fst (ds_step_o E u (XMake x) s) = ds_make_set_u eqb hp dp E x s) /\
  (forall a b, fst (ds_step_o E u (XUnion a b) s) = ds_union_u eqb hp dp E a b s) /\
  (forall a b, ds_step_o E u (XInUnion a b) s =
     ((fst (ds_in_union_u eqb hp a b s), omap (fun _ => tt) (snd (ds_in_union_u eqb hp a b s))), [])) /\
  (forall n, ds_step_o E u (XReserve K n) s = (if ed_room u (ds_ids s) n then (s, Panic) else ds_reserve E n s, [])).
Proof.
  intros K E u s hp eqb dp. subst hp eqb dp. repeat apply conj; intros; cbn [ds_step_o].
  - apply make_set_erase.
  - apply union_erase.
  - now destruct (ds_in_union_u _ _ _ _ _).
  - reflexivity.
Qed.
Print Assumptions c111_forgetting_events_in_histories.

(** [c111_ex] has an interrupted clone; here calls of a history that panic in user code *)
Example c111_ex_steps :
  ds_step_o Ed (ElemsDo eeq (fun _ k => fst k =? 2) (fun _ n => 3 <? n) ec5) (XUnion (1, 1) (2, 2)) (ds_new elt) =
    ((DSet [((1, 1), 0)] [Data 0 0%N], Panic), [Got (1, 1); Got (2, 2); Gone (2, 2)]) /\
  ds_step_o Ed (ElemsDo eeq (fun _ k => fst k =? 2) (fun _ n => 3 <? n) ec5) (XReserve elt 4) (ds_new elt) = ((ds_new elt, Panic), []) /\
  ds_step_o Ed (ElemsDo eeq (fun _ k => fst k =? 2) (fun _ n => 3 <? n) ec5) (XReserve elt 3) (ds_new elt) = ((ds_new elt, Ret tt), []).
Proof. repeat split; vm_compute; reflexivity. Qed.
