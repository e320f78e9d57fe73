(** Proofs for C103 and C104: the accesses of the calls of a disjoint set. *)
From Coq Require Import NArith.
From Verif Require Import Base HMModel HMProofs CTSpec5 CTProofs8 DSModel DSSpec DSSpec2 DSRun DSCost DSModel5 DSProofs.
Local Open Scope outcome_scope.
Local Open Scope list_scope.
Set Implicit Arguments.

(** *** Forgetting the accesses *)
Lemma er_find fuel : forall v id, fst (ds_find_t fuel v id) = ds_find fuel v id.
Proof.
  induction fuel as [|n IH]; intros v id; [reflexivity|]. cbn. destruct (vec_at v id) as [d| | | |]; try reflexivity.
  destruct (parent d =? id); [reflexivity|]. rewrite <- IH. destruct (ds_find_t n v (parent d)) as [[v1 o] t]. cbn [fst].
  destruct o as [p| | | |]; try reflexivity. destruct (vec_at v1 id); reflexivity.
Qed.

Section Access.
Variable K : Type.
Variable eqb : K -> K -> bool.
Variable E : machine.
Variable ee : bool.

Lemma er_make_or_get x s : fst (ds_make_or_get_t eqb E ee x s) = ds_make_or_get eqb E x s.
Proof.
  unfold ds_make_or_get_t, ds_make_or_get. destruct (hm_entry eqb E x (ds_ids s)) as [[i|]| | | |]; try reflexivity.
  destruct (vec_push E (ds_data s) (data_new (length (ds_ids s)))); reflexivity.
Qed.
Lemma er_make_set x s : fst (ds_make_set_t eqb E ee x s) = ds_make_set eqb E x s.
Proof. unfold ds_make_set_t, ds_make_set. rewrite <- er_make_or_get. destruct (ds_make_or_get_t eqb E ee x s) as [[s' o] t]. reflexivity. Qed.
Lemma er_find_in i (s : dset K) : fst (ds_find_in_t i s) = ds_find_in i s.
Proof. unfold ds_find_in_t, ds_find_in. rewrite <- er_find. destruct (ds_find_t (S (length (ds_data s))) (ds_data s) i) as [[v o] t]. reflexivity. Qed.
Lemma er_link a b (s : dset K) : fst (ds_link_t E a b s) = let (v, o) := ds_link E (ds_data s) a b in (DSet (ds_ids s) v, o).
Proof.
  unfold ds_link_t, ds_link. destruct (vec_at (ds_data s) a) as [da| | | |]; try reflexivity.
  destruct (vec_at (ds_data s) b) as [db| | | |]; try reflexivity.
  match goal with |- context [vec_at (ds_data s) ?i] => destruct (vec_at (ds_data s) i) as [dl| | | |]; try reflexivity end.
  match goal with |- context [vec_at ?v ?i] => destruct (vec_at v i) as [x| | | |]; try reflexivity end.
  match goal with |- context [vec_at ?v ?i] => destruct (vec_at v i) as [y| | | |]; try reflexivity end.
  destruct (rank x =? rank y)%N; [|reflexivity]. destruct (rank_incr E (rank x)); reflexivity.
Qed.
Lemma er_then A B (m : traced K A) (f : A -> traced K B) s :
  fst (then_t m f s) = match fst (m s) with (s1, Ret a) => fst (f a s1) | (s1, o) => (s1, obind o (fun _ => Panic)) end.
Proof. unfold then_t. destruct (m s) as [[s1 o] t]. cbn [fst]. destruct o; try reflexivity. destruct (f a s1). reflexivity. Qed.
Lemma er_union a b s : fst (ds_union_t eqb E ee a b s) = ds_union eqb E a b s.
Proof.
  unfold ds_union_t, ds_union. rewrite er_then, er_make_or_get. destruct (ds_make_or_get eqb E a s) as [s1 [ia| | | |]]; try reflexivity.
  rewrite er_then, er_make_or_get. destruct (ds_make_or_get eqb E b s1) as [s2 [ib| | | |]]; try reflexivity.
  rewrite er_then, er_find_in. destruct (ds_find_in ia s2) as [s3 [ra| | | |]]; try reflexivity.
  rewrite er_then, er_find_in. destruct (ds_find_in ib s3) as [s4 [rb| | | |]]; try reflexivity.
  destruct (ra =? rb); [reflexivity|]. apply er_link.
Qed.
Lemma er_in_union a b s : fst (ds_in_union_t eqb a b s) = ds_in_union eqb a b s.
Proof.
  unfold ds_in_union_t, ds_in_union. rewrite er_then. cbn [fst ds_get_t]. destruct (hm_get eqb a (ds_ids s)) as [ia|]; [|reflexivity].
  rewrite er_then. cbn [fst ds_get_t]. destruct (hm_get eqb b (ds_ids s)) as [ib|]; [|reflexivity].
  rewrite er_then, er_find_in. destruct (ds_find_in ia s) as [s1 [ra| | | |]]; try reflexivity.
  rewrite er_then, er_find_in. destruct (ds_find_in ib s1) as [s2 [rb| | | |]]; reflexivity.
Qed.
Lemma er_group (l : hmap K nat) : forall m s, fst (ds_group_t E l m s) = ds_group E l s m.
Proof.
  induction l as [|[k i] l IH]; intros m s; [reflexivity|]. cbn [ds_group_t ds_group]. rewrite er_then, er_find_in.
  destruct (ds_find_in i s) as [s1 [r| | | |]]; try reflexivity. destruct (ds_group_push E r k m) as [m1 [[]| | | |]]; try reflexivity. apply IH.
Qed.
Lemma er_makes xs : forall s, fst (ds_makes_t eqb E ee xs s) = for_each (ds_make_set eqb E) xs s.
Proof.
  induction xs as [|x xs IH]; intros s; [reflexivity|]. cbn [ds_makes_t for_each]. rewrite er_then, er_make_set.
  destruct (ds_make_set eqb E x s) as [s1 [[]| | | |]]; try reflexivity. apply IH.
Qed.
Lemma er_extend h xs s : fst (ds_extend_t eqb E ee h xs s) = ds_extend eqb E h xs s.
Proof.
  unfold ds_extend_t, ds_extend. rewrite er_then. cbn [ds_reserve_t fst]. unfold ds_reserve.
  destruct (vec_reserve E h (ds_data s)) as [[]| | | |] eqn:Q; cbn [obind]; try (unfold vec_reserve in Q; destruct (_ <=? _) in Q; discriminate); [|reflexivity].
  unfold hm_reserve. destruct (length (ds_ids s) + h <=? alloc_max E); [|reflexivity]. apply er_makes.
Qed.
Lemma er_extend_ref h xs s : fst (ds_extend_ref_t eqb E ee h xs s) = ds_extend_ref eqb E h xs s.
Proof. unfold ds_extend_ref_t, ds_extend_ref. rewrite map_id. apply er_extend. Qed.
Lemma er_step o s : fst (ds_step_t eqb E ee o s) = ds_step eqb E o s.
Proof.
  destruct o; cbn [ds_step_t ds_step fst]; try reflexivity.
  - now rewrite er_make_set.
  - now rewrite er_union.
  - now rewrite er_extend.
  - now rewrite er_extend_ref.
  - rewrite <- er_in_union. destruct (ds_in_union_t eqb a b s) as [[s1 r] t]. reflexivity.
  - unfold ds_into_iter_t, ds_into_iter, ds_build_sets. rewrite <- er_group. destruct (ds_group_t E (order (ds_ids s)) [] s) as [[s1 r] t]. reflexivity.
Qed.
Lemma er_run ops : forall s, fst (ds_run_t eqb E ee ops s) = ds_run eqb E ops s.
Proof.
  induction ops as [|o ops IH]; intros s; [reflexivity|]. cbn. rewrite <- er_step. destruct (ds_step_t eqb E ee o s) as [[s1 r] t]. cbn [fst].
  rewrite <- IH. destruct (ds_run_t eqb E ee ops s1) as [[s2 tr] t']. reflexivity.
Qed.
Lemma with_capacity_shape n : ds_with_capacity K E n = Ret (ds_new K) \/ ds_with_capacity K E n = Panic.
Proof. unfold ds_with_capacity, hm_reserve, vec_reserve. cbn. destruct (n <=? alloc_max E); auto. Qed.
Lemma er_from_iter h xs : fst (ds_from_iter_t eqb E ee h xs) = ds_from_iter eqb E h xs.
Proof.
  unfold ds_from_iter_t, ds_from_iter, ds_with_capacity_t. destruct (with_capacity_shape h) as [-> | ->]; cbn [obind]; [|reflexivity].
  rewrite <- er_makes. destruct (ds_makes_t eqb E ee xs (ds_new K)). reflexivity.
Qed.
Lemma from_iter_ref_map cl h xs : ds_from_iter_ref_t eqb cl E ee h xs = ds_from_iter_t eqb E ee h (map cl xs).
Proof. reflexivity. Qed.

(** *** Lookups *)
Lemma looked_app (t t' : list (access K)) : looked (t ++ t') = looked t ++ looked t'.
Proof. apply flat_map_app. Qed.
Lemma nodes_app (t t' : list (access K)) : nodes (t ++ t') = nodes t ++ nodes t'.
Proof. apply flat_map_app. Qed.
Lemma ids_app (t t' : list (access K)) : ids_demanded (t ++ t') = ids_demanded t ++ ids_demanded t'.
Proof. apply flat_map_app. Qed.
Lemma data_app (t t' : list (access K)) : data_demanded (t ++ t') = data_demanded t ++ data_demanded t'.
Proof. apply flat_map_app. Qed.
Lemma looked_nodes ns : looked (map (fun i => Node i) ns : list (access K)) = [].
Proof. induction ns; cbn; auto. Qed.
Lemma nodes_nodes ns : nodes (map (fun i => Node i) ns : list (access K)) = ns.
Proof. induction ns; cbn; [auto|]. f_equal. auto. Qed.
Lemma ids_nodes ns : ids_demanded (map (fun i => Node i) ns : list (access K)) = [].
Proof. induction ns; cbn; auto. Qed.
Lemma data_nodes ns : data_demanded (map (fun i => Node i) ns : list (access K)) = [].
Proof. induction ns; cbn; auto. Qed.

Lemma lk_make_or_get x s : looked (snd (ds_make_or_get_t eqb E ee x s)) = [x].
Proof.
  unfold ds_make_or_get_t. destruct (ee || negb (hm_contains eqb x (ds_ids s))); destruct (hm_entry eqb E x (ds_ids s)) as [[i|]| | | |]; try reflexivity;
    destruct (vec_push E (ds_data s) (data_new (length (ds_ids s)))); reflexivity.
Qed.
Lemma lk_make x s : looked (snd (ds_make_set_t eqb E ee x s)) = [x].
Proof. rewrite <- (lk_make_or_get x s). unfold ds_make_set_t. destruct (ds_make_or_get_t eqb E ee x s) as [[s' o] t]. reflexivity. Qed.
Lemma find_in_snd i (s : dset K) : snd (ds_find_in_t i s) = map (fun i => Node i) (snd (ds_find_t (S (length (ds_data s))) (ds_data s) i)).
Proof. unfold ds_find_in_t. destruct (ds_find_t (S (length (ds_data s))) (ds_data s) i) as [[v o] t]. reflexivity. Qed.
Lemma lk_find i (s : dset K) : looked (snd (ds_find_in_t i s)) = [].
Proof. rewrite find_in_snd. apply looked_nodes. Qed.
Lemma link_snd a b (s : dset K) : exists ns, snd (ds_link_t E a b s) = map (fun i => Node i) ns /\ length ns <= 6.
Proof.
  unfold ds_link_t. repeat match goal with |- context [match ?x with _ => _ end] => destruct x end; eexists; (split; [reflexivity|cbn; lia]).
Qed.
Lemma lk_link a b (s : dset K) : looked (snd (ds_link_t E a b s)) = [].
Proof. destruct (link_snd a b s) as (ns & -> & _). apply looked_nodes. Qed.
Lemma snd_then A B (m : traced K A) (f : A -> traced K B) s :
  snd (then_t m f s) = snd (m s) ++ match fst (m s) with (s1, Ret a) => snd (f a s1) | _ => [] end.
Proof. unfold then_t. destruct (m s) as [[s1 o] t]. cbn [fst snd]. destruct o; cbn [snd]; rewrite ?app_nil_r; auto. destruct (f a s1). reflexivity. Qed.

(** the keys in [ks] are looked up in order, all of them if the call returns *)
Definition in_order (ks : list K) {A} (o : outcome A) (us : list K) : Prop :=
  exists rest, ks = us ++ rest /\ ((exists r, o = Ret r) -> rest = []).

Lemma lk_makes xs : forall s, in_order xs (snd (fst (ds_makes_t eqb E ee xs s))) (looked (snd (ds_makes_t eqb E ee xs s))).
Proof.
  induction xs as [|x xs IH]; intros s; [exists []; auto|]. cbn [ds_makes_t]. rewrite snd_then, er_then, looked_app, lk_make. cbn [app].
  destruct (fst (ds_make_set_t eqb E ee x s)) as [s1 o]. destruct o as [u| | | |].
  - destruct (IH s1) as (rest & A & B). exists rest. split; [cbn; now rewrite A at 1|]. exact B.
  - exists xs. split; [reflexivity|]. intros [r Q]. discriminate.
  - exists xs. split; [reflexivity|]. intros [r Q]. discriminate.
  - exists xs. split; [reflexivity|]. intros [r Q]. discriminate.
  - exists xs. split; [reflexivity|]. intros [r Q]. discriminate.
Qed.
Lemma lk_reserve n (s : dset K) : looked (snd (ds_reserve_t E n s)) = [].
Proof. cbn. destruct (vec_reserve E n (ds_data s)); reflexivity. Qed.
Lemma lk_extend h xs s : in_order xs (snd (fst (ds_extend_t eqb E ee h xs s))) (looked (snd (ds_extend_t eqb E ee h xs s))).
Proof.
  unfold ds_extend_t. rewrite snd_then, er_then, looked_app, lk_reserve. cbn [app]. destruct (fst (ds_reserve_t E h s)) as [s1 o].
  destruct o as [u| | | |]; [apply lk_makes|..]; exists xs; (split; [reflexivity|]); intros [r Q]; discriminate.
Qed.
Lemma lk_union a b s : in_order [a; b] (snd (fst (ds_union_t eqb E ee a b s))) (looked (snd (ds_union_t eqb E ee a b s))).
Proof.
  unfold ds_union_t. rewrite snd_then, er_then, looked_app, lk_make_or_get. cbn [app].
  destruct (fst (ds_make_or_get_t eqb E ee a s)) as [s1 [ia| | | |]]; try (exists [b]; split; [reflexivity|]; intros [r Q]; discriminate).
  exists []. split; [|auto]. rewrite snd_then, looked_app, lk_make_or_get. cbn [app]. do 2 f_equal.
  destruct (fst (ds_make_or_get_t eqb E ee b s1)) as [s2 [ib| | | |]]; try reflexivity.
  rewrite snd_then, looked_app, lk_find. cbn [app]. destruct (fst (ds_find_in_t ia s2)) as [s3 [ra| | | |]]; try reflexivity.
  rewrite snd_then, looked_app, lk_find. cbn [app]. destruct (fst (ds_find_in_t ib s3)) as [s4 [rb| | | |]]; try reflexivity.
  destruct (ra =? rb); [reflexivity|]. rewrite lk_link. reflexivity.
Qed.
Lemma lk_get x (s : dset K) : looked (snd (ds_get_t eqb x s)) = [x].
Proof. reflexivity. Qed.
Lemma lk_in_union a b s : looked (snd (ds_in_union_t eqb a b s)) = if ds_contains eqb a s then [a; b] else [a].
Proof.
  unfold ds_in_union_t. rewrite snd_then, looked_app, lk_get. cbn [ds_get_t fst app]. unfold ds_contains, hm_contains.
  destruct (hm_get eqb a (ds_ids s)) as [ia|]; [|reflexivity].
  rewrite snd_then, looked_app, lk_get. cbn [ds_get_t fst app]. do 2 f_equal.
  destruct (hm_get eqb b (ds_ids s)) as [ib|]; [|reflexivity].
  rewrite snd_then, looked_app, lk_find. cbn [app]. destruct (fst (ds_find_in_t ia s)) as [s3 [ra| | | |]]; try reflexivity.
  rewrite snd_then, looked_app, lk_find. cbn [app]. destruct (fst (ds_find_in_t ib s3)) as [s4 [rb| | | |]]; reflexivity.
Qed.
Lemma lk_group (l : hmap K nat) : forall m s, looked (snd (ds_group_t E l m s)) = [].
Proof.
  induction l as [|[k i] l IH]; intros m s; [reflexivity|]. cbn [ds_group_t]. rewrite snd_then, looked_app, lk_find. cbn [app].
  destruct (fst (ds_find_in_t i s)) as [s1 [r| | | |]]; try reflexivity. destruct (ds_group_push E r k m) as [m1 [[]| | | |]]; try reflexivity. apply IH.
Qed.

Lemma lk_step o s : exists rest, handled o = looked (snd (ds_step_t eqb E ee o s)) ++ rest /\
  ((exists r, snd (ds_step eqb E o s) = Ret r) -> rest = [] \/ exists a b, o = OInUnion a b /\ ds_contains eqb a s = false).
Proof.
  rewrite <- (er_step o s).
  destruct o; cbn [ds_step_t handled fst snd unit_out].
  - rewrite lk_make. exists []. auto.
  - destruct (lk_union a b s) as (rest & A & B). exists rest. split; [exact A|]. intros [r Q]. left. apply B.
    destruct (snd (fst (ds_union_t eqb E ee a b s))); try discriminate. eauto.
  - destruct (lk_extend hint xs s) as (rest & A & B). exists rest. split; [exact A|]. intros [r Q]. left. apply B.
    destruct (snd (fst (ds_extend_t eqb E ee hint xs s))); try discriminate. eauto.
  - unfold ds_extend_ref_t. rewrite map_id. fold (ds_extend_t eqb E ee hint xs).
    destruct (lk_extend hint xs s) as (rest & A & B). exists rest. split; [exact A|]. intros [r Q]. left. apply B.
    destruct (snd (fst (ds_extend_t eqb E ee hint xs s))); try discriminate. eauto.
  - exists []. auto.
  - rewrite lk_reserve. exists []. auto.
  - exists []. auto.
  - pose proof (lk_in_union a b s) as X. destruct (ds_in_union_t eqb a b s) as [[s1 r] t]. cbn [snd] in *. rewrite X.
    destruct (ds_contains eqb a s) eqn:C; [exists []; auto|]. exists [b]. split; [reflexivity|]. intros _. right. eauto.
  - exists []. auto.
  - exists []. auto.
  - unfold ds_into_iter_t. pose proof (lk_group (order (ds_ids s)) [] s) as X.
    destruct (ds_group_t E (order (ds_ids s)) [] s) as [[s1 r] t]. cbn [snd fst] in *. rewrite X. exists []. auto.
Qed.

(** *** The number of accesses *)
Lemma find_count fuel : forall v i, length (snd (ds_find_t fuel v i)) <= 2 * find_calls fuel v i.
Proof.
  induction fuel as [|n IH]; intros v i; [cbn; lia|]. cbn [ds_find_t find_calls]. destruct (vec_at v i) as [d| | | |]; cbn [snd length]; try lia.
  destruct (parent d =? i); [cbn; lia|]. specialize (IH v (parent d)). destruct (ds_find_t n v (parent d)) as [[v1 o] t]. cbn [snd] in IH.
  destruct o as [p| | | |]; cbn [snd length]; try lia. destruct (vec_at v1 i); cbn [snd length]; rewrite ?app_length; cbn [length]; lia.
Qed.
Lemma find_in_count i (s : dset K) : length (snd (ds_find_in_t i s)) <= 2 * calls_in i s.
Proof. rewrite find_in_snd, map_length. apply find_count. Qed.
Lemma make_or_get_count x s : length (snd (ds_make_or_get_t eqb E ee x s)) <= 4.
Proof.
  unfold ds_make_or_get_t. destruct (ee || negb (hm_contains eqb x (ds_ids s))); destruct (hm_entry eqb E x (ds_ids s)) as [[i|]| | | |]; cbn; try lia;
    destruct (vec_push E (ds_data s) (data_new (length (ds_ids s)))); cbn; lia.
Qed.
Lemma make_count x s : length (snd (ds_make_set_t eqb E ee x s)) <= 4.
Proof. pose proof (make_or_get_count x s) as H. unfold ds_make_set_t. destruct (ds_make_or_get_t eqb E ee x s) as [[s' o] t]. exact H. Qed.
Lemma makes_count xs : forall s, length (snd (ds_makes_t eqb E ee xs s)) <= 4 * length xs.
Proof.
  induction xs as [|x xs IH]; intros s; [cbn; lia|]. cbn [ds_makes_t length]. rewrite snd_then, app_length.
  pose proof (make_count x s). destruct (fst (ds_make_set_t eqb E ee x s)) as [s1 [u| | | |]]; cbn [length]; try lia. specialize (IH s1). lia.
Qed.
Lemma extend_count h xs s : length (snd (ds_extend_t eqb E ee h xs s)) <= 2 + 4 * length xs.
Proof.
  unfold ds_extend_t. rewrite snd_then, app_length. assert (length (snd (ds_reserve_t E h s)) <= 2).
  { cbn. destruct (vec_reserve E h (ds_data s)); cbn; lia. }
  destruct (fst (ds_reserve_t E h s)) as [s1 [u| | | |]]; cbn [length]; try lia. pose proof (makes_count xs s1). lia.
Qed.
Lemma union_count a b s : length (snd (ds_union_t eqb E ee a b s)) <= 14 + 2 * op_calls eqb E (OUnion a b) s.
Proof.
  unfold ds_union_t. cbn [op_calls]. rewrite snd_then, app_length, er_make_or_get. pose proof (make_or_get_count a s).
  destruct (ds_make_or_get eqb E a s) as [s1 [ia| | | |]]; cbn [length]; try lia.
  rewrite snd_then, app_length, er_make_or_get. pose proof (make_or_get_count b s1).
  destruct (ds_make_or_get eqb E b s1) as [s2 [ib| | | |]]; cbn [length]; try lia.
  unfold calls_two. rewrite snd_then, app_length, er_find_in. pose proof (find_in_count ia s2).
  destruct (ds_find_in ia s2) as [s3 [ra| | | |]]; cbn [length]; try lia.
  rewrite snd_then, app_length, er_find_in. pose proof (find_in_count ib s3).
  destruct (ds_find_in ib s3) as [s4 [rb| | | |]]; cbn [length]; try lia.
  destruct (ra =? rb); cbn [snd length]; [lia|]. destruct (link_snd ra rb s4) as (ns & -> & L). rewrite map_length. lia.
Qed.
Lemma in_union_count a b s : length (snd (ds_in_union_t eqb a b s)) <= 2 + 2 * op_calls eqb E (OInUnion a b) s.
Proof.
  unfold ds_in_union_t. cbn [op_calls]. rewrite snd_then, app_length. cbn [ds_get_t fst snd length].
  destruct (hm_get eqb a (ds_ids s)) as [ia|]; [|cbn; lia]. rewrite snd_then, app_length. cbn [ds_get_t fst snd length].
  destruct (hm_get eqb b (ds_ids s)) as [ib|]; [|cbn; lia].
  unfold calls_two. rewrite snd_then, app_length, er_find_in. pose proof (find_in_count ia s).
  destruct (ds_find_in ia s) as [s3 [ra| | | |]]; cbn [length]; try lia.
  rewrite snd_then, app_length, er_find_in. pose proof (find_in_count ib s3).
  destruct (ds_find_in ib s3) as [s4 [rb| | | |]]; cbn [snd length]; lia.
Qed.
Lemma group_count (l : hmap K nat) : forall m s, length (snd (ds_group_t E l m s)) <= 2 * calls_group l s.
Proof.
  induction l as [|[k i] l IH]; intros m s; [cbn; lia|]. cbn [ds_group_t calls_group]. rewrite snd_then, app_length, er_find_in.
  pose proof (find_in_count i s). destruct (ds_find_in i s) as [s1 [r| | | |]]; cbn [length]; try lia.
  destruct (ds_group_push E r k m) as [m1 [[]| | | |]]; cbn [snd length]; try lia. specialize (IH m1 s1). lia.
Qed.
Lemma step_count o s : length (snd (ds_step_t eqb E ee o s)) <= 4 + 10 * op_unions o + 4 * visited o 0 + 2 * op_calls eqb E o s.
Proof.
  destruct o; cbn [ds_step_t visited op_unions fst snd unit_out].
  - pose proof (make_count x s). cbn [op_calls]. lia.
  - pose proof (union_count a b s). lia.
  - pose proof (extend_count hint xs s). cbn [op_calls]. lia.
  - unfold ds_extend_ref_t. rewrite map_id. pose proof (extend_count hint xs s) as H. unfold ds_extend_t in H. cbn [op_calls]. lia.
  - cbn; lia.
  - cbn. destruct (vec_reserve E n (ds_data s)); cbn; lia.
  - cbn; lia.
  - pose proof (in_union_count a b s) as H. destruct (ds_in_union_t eqb a b s) as [[s1 r] t]. cbn [snd] in *. lia.
  - cbn; lia.
  - cbn; lia.
  - unfold ds_into_iter_t. pose proof (group_count (order (ds_ids s)) [] s) as X. cbn [op_calls].
    destruct (ds_group_t E (order (ds_ids s)) [] s) as [[s1 r] t]. cbn [snd fst] in *. lia.
Qed.
Lemma run_count ops : forall s, length (snd (ds_run_t eqb E ee ops s)) <=
  4 * length ops + 10 * run_unions ops + 4 * run_visited eqb E ops s + 2 * run_calls eqb E ops s.
Proof.
  induction ops as [|o ops IH]; intros s; [cbn; lia|]. cbn [ds_run_t length run_visited run_calls].
  pose proof (step_count o s) as H. rewrite <- (er_step o s). destruct (ds_step_t eqb E ee o s) as [[s1 r] t]. cbn [fst snd] in *.
  specialize (IH s1). destruct (ds_run_t eqb E ee ops s1) as [[s2 tr] t']. cbn [snd] in *. rewrite app_length.
  unfold run_unions in *. cbn [map list_sum fold_right] in *. fold (list_sum (map (@op_unions K) ops)).
  assert (visited o 0 <= visited o (ds_len s)) by (destruct o; cbn; lia). lia.
Qed.
End Access.
