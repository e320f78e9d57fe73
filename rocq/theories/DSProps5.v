(** Property theorem C87: a disjoint set whose [clear] was interrupted by a
    panicking destructor can still be used. *)
From Coq Require Import Permutation NArith.
From Verif Require Import Base HMModel HMProofs UserSpec2 DSModel DSModel3 DSSpec DSRun DSRun2 DSProofs DSProofs2 DSProofs3 DSProofs4 DSProofs5 DSProofs6 DSProofs7 DSProps DSProps4.
Local Open Scope outcome_scope.

(** ** C87 *)
(** [in_union] is an equivalence on the elements held *)
Theorem c87_in_union_is_an_equivalence : forall K (eqb : K -> K -> bool) cl E s,
  eq_laws eqb -> ranks_fit E -> (forall k, eqb (cl k) k = true) -> survivor eqb E cl s ->
  (forall x, joined eqb s x x <-> ds_contains eqb x s = true) /\
  (forall x y, eqb x y = true -> ds_contains eqb x s = true -> joined eqb s x y) /\
  (forall x y, joined eqb s x y -> joined eqb s y x) /\
  (forall x y z, joined eqb s x y -> joined eqb s y z -> joined eqb s x z).
Proof.
  intros K eqb cl E s L U CL R. pose proof (survivor_sound L U CL R) as V.
  split; [|split; [|split]]; intros *; rewrite !(fun x y => joined_rel x y V).
  - apply (rel_refl x V).
  - exact (rel_eq L x y V).
  - apply rel_sym.
  - apply rel_trans.
Qed.
Print Assumptions c87_in_union_is_an_equivalence.

(** [contains] says, panics included, what [in_union] says of the element and
    itself *)
Theorem c85_contains : forall K (eqb : K -> K -> bool) hp cl E x s,
  eq_laws eqb -> ranks_fit E -> (forall k, eqb (cl k) k = true) -> survivor eqb E cl s ->
  ds_contains_u eqb hp x s = snd (ds_in_union_u eqb hp x x s).
Proof.
  intros K eqb hp cl E x s L U CL R. pose proof (survivor_sound L U CL R) as V.
  rewrite c85_questions. unfold ds_contains_u. destruct (hp (ds_ids s) x) eqn:H; cbn [orb]; [reflexivity|].
  rewrite andb_false_r. destruct (in_union_sound x x V) as (v & b & Q & _). rewrite Q. cbn [snd].
  destruct (c87_in_union_is_an_equivalence _ eqb cl E s L U CL R) as [J _]. specialize (J x).
  unfold joined in J. rewrite Q in J. cbn [snd] in J.
  destruct b, (ds_contains eqb x s); auto; [destruct J as [J _]; specialize (J eq_refl); discriminate|].
  destruct J as [_ J]. specialize (J eq_refl). discriminate.
Qed.
Print Assumptions c85_contains.

Example c85_contains_ex : survivor eeq Ed ecl ds_a /\ ds_contains_u eeq ehp (e 7) ds_a = Panic /\
  ds_contains_u eeq ehp (e' 4) ds_a = Ret true /\ ds_contains_u eeq ehp (e 9) ds_a = Ret false.
Proof. split; [apply v_reachable, run_reach; [apply r_new|apply no_iter_ok; reflexivity]|]. repeat split. Qed.

(** no call does anything but return or panic; questions return and change no
    answer *)
Theorem c87_every_call_returns_or_panics : forall K (eqb : K -> K -> bool) cl E s o s' r,
  eq_laws eqb -> ranks_fit E -> (forall k, eqb (cl k) k = true) -> survivor eqb E cl s ->
  op_ok o -> ds_step eqb E o s = (s', r) ->
  (r = Panic \/ exists v, r = Ret v) /\
  (is_query o = true -> alike eqb s s' /\ exists v, r = Ret v).
Proof.
  intros K eqb cl E s o s' r L U CL R Ok H. pose proof (survivor_sound L U CL R) as V.
  destruct (step_sound L U o V Ok H) as (_ & C & Q). split; auto.
  intros X. destruct (Q X) as [A Y]. split; auto. exact (asks_alike V A).
Qed.
Print Assumptions c87_every_call_returns_or_panics.

(** [make_set] adds its element, or panics because the map or the vector is
    full; in the second case the element is there all the same.  How the other
    elements are related does not change. *)
Theorem c87_make_set : forall K (eqb : K -> K -> bool) cl E x s s' r,
  eq_laws eqb -> ranks_fit E -> (forall k, eqb (cl k) k = true) -> survivor eqb E cl s ->
  ds_make_set eqb E x s = (s', r) ->
  (r = Ret tt /\ with_element eqb x s s') \/
  (r = Panic /\ ds_contains eqb x s = false /\ length (ds_data s) = alloc_max E /\ with_element eqb x s s') \/
  (r = Panic /\ ds_contains eqb x s = false /\ ds_len s = alloc_max E /\ s' = s).
Proof.
  intros K eqb cl E x s s' r L U CL R H. pose proof (survivor_sound L U CL R) as V.
  destruct (make_set_plus L x V H) as [V' [(-> & P)|[(-> & P & F & N)|(-> & P & F & N)]]].
  - left. split; auto. now apply (plus_with V V').
  - right; left. split; auto. split; auto. split; auto. now apply (plus_with V V').
  - right; right. auto.
Qed.
Print Assumptions c87_make_set.

(** [union] merges exactly the sets of its two elements, once these are added *)
Theorem c87_union : forall K (eqb : K -> K -> bool) cl E a b s s' r,
  eq_laws eqb -> ranks_fit E -> (forall k, eqb (cl k) k = true) -> survivor eqb E cl s ->
  ds_union eqb E a b s = (s', r) ->
  (r = Panic /\ for_each (ds_make_set eqb E) [a; b] s = (s', Panic)) \/
  (r = Ret tt /\ exists s2, for_each (ds_make_set eqb E) [a; b] s = (s2, Ret tt) /\ merged eqb a b s2 s').
Proof.
  intros K eqb cl E a b s s' r L U CL R H. pose proof (survivor_sound L U CL R) as V.
  destruct (union_sound L U a b V H) as [V' [C|(-> & s2 & M & V2 & F)]]; auto.
  right. split; auto. exists s2. split; auto. exact (fused_merged V2 V' F).
Qed.
Print Assumptions c87_union.

(** iteration yields the sets of that equivalence *)
Theorem c87_iteration : forall K (eqb : K -> K -> bool) cl E s order pick s' r,
  eq_laws eqb -> ranks_fit E -> (forall k, eqb (cl k) k = true) -> survivor eqb E cl s ->
  (forall l, Permutation l (order l)) -> (forall l, Permutation l (pick l)) ->
  ds_step eqb E (OIter order pick) s = (s', r) ->
  exists ss, r = Ret (RSets ss) /\ sets_of eqb s ss.
Proof.
  intros K eqb cl E s order pick s' r L U CL R Po Pp H. pose proof (survivor_sound L U CL R) as V.
  destruct (iter_sound U order pick V Po) as (v & Hi & Lk & G). unfold ds_step in H. rewrite Hi in H. cbv beta iota delta [omap obind] in H.
  rewrite drain_all in H by lia. injection H as <- <-. eexists. split; [reflexivity|].
  exact (gok_sets L V (Po _) G (Pp _)).
Qed.
Print Assumptions c87_iteration.

(** a search ends after as many nested calls as the vector has slots *)
Theorem c87_search_ends : forall K (eqb : K -> K -> bool) cl E s i,
  eq_laws eqb -> ranks_fit E -> (forall k, eqb (cl k) k = true) -> survivor eqb E cl s ->
  i < length (ds_data s) ->
  exists v r, ds_find (length (ds_data s)) (ds_data s) i = (v, Ret r).
Proof.
  intros K eqb cl E s i L U CL R Li. exact (find_linear (survivor_sound L U CL R) Li).
Qed.
Print Assumptions c87_search_ends.

(** old sets {1,5}, {4}; after the failed [clear] the elements 11, 12, 13, 14
    are added (11, 13 and 14 come in one set) and 12 and 13 united *)
Definition Ev : machine := Machine 255 9 true.
Lemma run_survivor ops s : survivor eeq Ev ecl s -> Forall (@op_ok elt) ops ->
  survivor eeq Ev ecl (fst (ds_run eeq Ev ops s)).
Proof.
  revert s. induction ops as [|o ops IH]; intros s R Ok; simpl; auto.
  inversion Ok as [|? ? O1 O2]; subst. destruct (ds_step eeq Ev o s) as [s1 r] eqn:H.
  specialize (IH s1 (v_step _ R O1 H) O2). destruct (ds_run eeq Ev ops s1). exact IH.
Qed.
Definition ds_v : dset elt := fst (ds_run eeq Ev [OMake (e 11); OMake (e 12); OMake (e 13); OMake (e 14); OMake (e 15)]
  (fst (ds_clear_u edp [] DSProps4.ds_c))).
Lemma ds_v_survivor : survivor eeq Ev ecl ds_v.
Proof.
  apply run_survivor; [|apply no_iter_ok; reflexivity].
  eapply v_clear with (dp := edp) (gone := ds_ids DSProps4.ds_c) (left := []) (s := DSProps4.ds_c);
    [|rewrite app_nil_r; apply Permutation_refl|apply surjective_pairing].
  apply run_survivor; [apply v_reachable, r_new|apply no_iter_ok; reflexivity].
Qed.

Example c87_ex : ranks_fit Ev /\ snd (ds_clear_u edp [] DSProps4.ds_c) = Panic /\ survivor eeq Ev ecl ds_v /\
  joined eeq ds_v (e 11) (e 14) /\ joined eeq ds_v (e 14) (e 13) /\ joined eeq ds_v (e 12) (e 15) /\
  ~ joined eeq ds_v (e 11) (e 12) /\
  snd (ds_step eeq Ev (OIter (fun l => l) (fun l => l)) ds_v) = Ret (RSets [[e 14; e 13; e 11]; [e 15; e 12]]) /\
  (** the vector, unlike the map, keeps growing: one more element fits, the
      second is stored but panics *)
  ds_len ds_v = 5 /\ length (ds_data ds_v) = 8 /\
  snd (ds_make_set eeq Ev (e 16) ds_v) = Ret tt /\
  (let s1 := fst (ds_make_set eeq Ev (e 16) ds_v) in
   snd (ds_make_set eeq Ev (e 17) s1) = Panic /\
   ds_contains eeq (e 17) (fst (ds_make_set eeq Ev (e 17) s1)) = true /\
   joined eeq (fst (ds_make_set eeq Ev (e 17) s1)) (e 17) (e 14) /\
   fst (ds_union eeq Ev (e 17) (e 12) s1) = fst (ds_make_set eeq Ev (e 17) s1) /\
   (** asking for it again does not panic *)
   snd (ds_union eeq Ev (e 17) (e 12) (fst (ds_make_set eeq Ev (e 17) s1))) = Ret tt /\
   joined eeq (fst (ds_union eeq Ev (e 17) (e 12) (fst (ds_make_set eeq Ev (e 17) s1)))) (e 15) (e 11)).
Proof. split; [reflexivity|]. split; [reflexivity|]. split; [exact ds_v_survivor|].
  repeat (split; [solve [vm_compute; first [reflexivity|discriminate]]|]). vm_compute. reflexivity. Qed.

(** Searches are not logarithmic any more (compare C56).  The elements 0, 1, 2,
    ... added after a failed [clear] of a set with one element form a chain. *)
Definition chain (k : nat) : dset nat := DSet (rev (map (fun i => (i, i)) (seq 0 k))) (stale [data_new 0] k).

Lemma chain_new k : hm_entry_of Nat.eqb k (rev (map (fun i => (i, i)) (seq 0 k))) = None.
Proof.
  destruct (hm_entry_of Nat.eqb k (rev (map (fun i => (i, i)) (seq 0 k)))) as [[a i]|] eqn:Q; auto.
  apply entry_of_some in Q. destruct Q as [I Q]. apply in_rev, in_map_iff in I. destruct I as (j & X & I).
  apply in_seq in I. apply Nat.eqb_eq in Q. inversion X. lia.
Qed.

Lemma make_fresh E x (ids : hmap nat nat) v : hm_entry_of Nat.eqb x ids = None ->
  length ids + 1 <= alloc_max E -> length v + 1 <= alloc_max E ->
  ds_make_set Nat.eqb E x (DSet ids v) =
    (DSet ((x, length ids) :: ids) (v ++ [data_new (length ids)]), Ret tt).
Proof.
  intros N Li Lv. unfold ds_make_set, ds_make_or_get, hm_entry, hm_get, hm_reserve, vec_push. cbn [ds_ids ds_data].
  rewrite N. cbn [option_map]. apply Nat.leb_le in Li, Lv. rewrite Li, Lv. reflexivity.
Qed.

Lemma chain_step E k : k + 2 <= alloc_max E -> ds_make_set Nat.eqb E k (chain k) = (chain (S k), Ret tt).
Proof.
  intros Le.
  assert (Ln : length (rev (map (fun i => (i, i)) (seq 0 k))) = k) by now rewrite rev_length, map_length, seq_length.
  unfold chain at 1. rewrite make_fresh; [|apply chain_new|lia|rewrite stale_length; cbn [length]; lia].
  rewrite Ln. unfold chain, stale. rewrite seq_S, !map_app, rev_app_distr, app_assoc. reflexivity.
Qed.

Lemma chain_survivor E k : k + 1 <= alloc_max E -> survivor Nat.eqb E (fun n => n) (chain k).
Proof.
  induction k as [|k IH]; intros Le.
  - assert (M : ds_make_set Nat.eqb E 7 (ds_new nat) = (DSet [(7, 0)] [data_new 0], Ret tt)).
    { apply make_fresh; [reflexivity| |]; cbn; lia. }
    eapply v_clear with (dp := fun _ => true) (gone := [(7, 0)]) (left := []) (s := DSet [(7, 0)] [data_new 0]) (r := Panic).
    + eapply v_step with (o := OMake 7); [apply v_reachable, r_new|exact I|]. cbn [ds_step]. now rewrite M.
    + apply Permutation_refl.
    + reflexivity.
  - eapply v_step with (o := OMake k); [apply IH; lia|exact I|]. cbn [ds_step].
    rewrite chain_step by lia. reflexivity.
Qed.

(** with [n] elements, [n] nested calls can be needed *)
Theorem c87_search_can_be_linear : forall E n, 0 < n -> n + 1 <= alloc_max E ->
  exists s i x, survivor Nat.eqb E (fun k => k) s /\ ds_len s = n /\ hm_get Nat.eqb x (ds_ids s) = Some i /\
    snd (ds_find (n - 1) (ds_data s) i) = NoFuel.
Proof.
  intros E n Hn Le. exists (chain n), (n - 1), (n - 1). split; [now apply chain_survivor|].
  split; [cbn; now rewrite rev_length, map_length, seq_length|]. split.
  - destruct n as [|n]; [lia|]. replace (S n - 1) with n by lia. cbn [chain ds_ids].
    rewrite seq_S, map_app, rev_app_distr. cbn [map rev app]. unfold hm_get. cbn [hm_entry_of fst Nat.add]. rewrite Nat.eqb_refl. reflexivity.
  - apply find_deep with (d := n - 1) (r := 0); [|lia]. apply chain_rootd. lia.
Qed.
Print Assumptions c87_search_can_be_linear.

Theorem c87_search_is_logarithmic_refuted : ~ (forall K (eqb : K -> K -> bool) cl E s x i,
  eq_laws eqb -> ranks_fit E -> (forall k, eqb (cl k) k = true) -> survivor eqb E cl s ->
  hm_get eqb x (ds_ids s) = Some i ->
  exists v r, ds_find (S (Nat.log2 (ds_len s))) (ds_data s) i = (v, Ret r)).
Proof.
  intros H.
  assert (R : survivor Nat.eqb Ev (fun k => k) (chain 5)) by (apply chain_survivor; apply Nat.leb_le; reflexivity).
  destruct (H nat Nat.eqb (fun k => k) Ev (chain 5) 4 4 nat_laws eq_refl Nat.eqb_refl R eq_refl) as (v & r & X).
  vm_compute in X. discriminate.
Qed.
Print Assumptions c87_search_is_logarithmic_refuted.

Example c87_chain_ex : 0 < 5 /\ 5 + 1 <= alloc_max Ev /\ ds_data (chain 3) = [Data 0 0; Data 0 0; Data 1 0; Data 2 0] /\
  snd (ds_find 2 (ds_data (chain 3)) 2) = NoFuel /\ snd (ds_find 3 (ds_data (chain 3)) 2) = Ret 0.
Proof. repeat split; cbn; lia. Qed.
