(** Property theorems C97: disjoint sets of elements whose [Eq] and [Hash] answer
    otherwise at every lookup, also within one call. *)
From Coq Require Import Permutation.
From Verif Require Import Base HMModel DSModel CTModel4 DSModel4 DSSpec DSRun DSRun3 DSRun4 DSProofs DSProofs2 DSProofs3 DSProofs8 DSProps DSProps6.
Local Open Scope list_scope.

(** ** C97 *)
Lemma loop_map S A B (f : A -> B) (g : B -> S -> S * outcome unit) l : forall s,
  for_each g (map f l) s = for_each (fun a => g (f a)) l s.
Proof. induction l as [|a l IH]; intros s; cbn; auto. destruct (g (f a) s) as [s' [[]| | | |]]; auto. Qed.

(** Elements that answer alike at every lookup: the calls of [DSModel]. *)
Theorem c97_unchanging_equality : forall K (eqb : K -> K -> bool) cl E,
  (forall a b s, ds_union_q E (eqb, a) (eqb, b) s = ds_union eqb E a b s) /\
  (forall a b s, ds_in_union_q (eqb, a) (eqb, b) s = ds_in_union eqb a b s) /\
  (forall h xs s, ds_extend_q E h (map (pair eqb) xs) s = ds_extend eqb E h xs s) /\
  (forall h xs s, ds_extend_ref_q E h (map (pair eqb) xs) s = ds_extend_ref eqb E h xs s) /\
  (forall h xs, ds_from_iter_q E h (map (pair eqb) xs) = ds_from_iter eqb E h xs) /\
  (forall h xs, ds_from_iter_ref_q cl E h (map (pair eqb) xs) = ds_from_iter_ref eqb cl E h xs).
Proof.
  intros K eqb cl E. split; [reflexivity|]. split; [reflexivity|].
  split; [|split; [|split]]; intros; unfold ds_extend_q, ds_extend, ds_extend_ref_q, ds_extend_ref, ds_from_iter_q, ds_from_iter, ds_from_iter_ref_q, ds_from_iter_ref.
  - destruct (ds_reserve E h s) as [s1 []]; auto. now rewrite loop_map.
  - destruct (ds_reserve E h s) as [s1 []]; auto. now rewrite !map_id, loop_map.
  - destruct (ds_with_capacity K E h); cbn; auto. now rewrite loop_map.
  - destruct (ds_with_capacity K E h); cbn; auto. now rewrite !loop_map.
Qed.
Print Assumptions c97_unchanging_equality.

(** A key together with the answers to its lookup is a key whose equality obeys no
    law: the calls are those of [DSModel] on such keys. *)
Section Carry.
Variable K : Type.
Variable E : machine.
Notation Q := ((K -> K -> bool) * K)%type.
Definition own (a b : Q) : bool := fst a (snd a) (snd b).
Definition forget (s : dset Q) : dset K := DSet (map (fun e => (snd (fst e), snd e)) (ds_ids s)) (ds_data s).
Definition dress (s : dset K) : dset Q := DSet (map (fun e => ((fun _ _ => false, fst e), snd e)) (ds_ids s)) (ds_data s).

Lemma forget_dress s : forget (dress s) = s.
Proof. destruct s as [ids v]. unfold forget, dress. cbn. rewrite map_map. cbn. f_equal. rewrite <- (map_id ids) at 2. apply map_ext. now intros []. Qed.
Lemma dress_slots s t : slots_of s t <-> slots_of (dress s) t.
Proof. unfold slots_of, dress. cbn. rewrite map_map. cbn. tauto. Qed.
Lemma forget_slots s t : slots_of (forget s) t <-> slots_of s t.
Proof. unfold slots_of, forget. cbn. rewrite map_map. cbn. tauto. Qed.

Lemma own_get (x : Q) (m : hmap Q nat) : hm_get (fst x) (snd x) (map (fun e => (snd (fst e), snd e)) m) = hm_get own x m.
Proof.
  unfold hm_get. induction m as [|[[q k] v] m IH]; cbn; auto. unfold own at 1. cbn. destruct (fst x (snd x) k); auto.
Qed.
Lemma own_slot (x : Q) s : slot (fst x) (forget s) (snd x) = slot own s x.
Proof. unfold slot, forget. cbn [ds_ids]. rewrite own_get, map_length. reflexivity. Qed.

Lemma own_make (x : Q) s : ds_make_or_get (fst x) E (snd x) (forget s) =
  (forget (fst (ds_make_or_get own E x s)), snd (ds_make_or_get own E x s)).
Proof.
  unfold ds_make_or_get, hm_entry. cbn [forget ds_ids ds_data]. rewrite own_get, map_length.
  destruct (hm_get own x (ds_ids s)); cbn; auto. unfold hm_reserve. rewrite map_length.
  destruct (_ <=? _); cbn; auto. destruct (vec_push E (ds_data s) _); cbn; auto.
Qed.
Lemma own_make_set (x : Q) s : ds_make_set (fst x) E (snd x) (forget s) =
  (forget (fst (ds_make_set own E x s)), snd (ds_make_set own E x s)).
Proof. unfold ds_make_set. rewrite own_make. destruct (ds_make_or_get own E x s); auto. Qed.
Lemma own_find i s : ds_find_in i (forget s) = (forget (fst (ds_find_in i s)), snd (ds_find_in i s)).
Proof. unfold ds_find_in, forget. cbn [ds_data ds_ids]. destruct (ds_find _ _ _). reflexivity. Qed.

Lemma own_union (a b : Q) s : ds_union_q E a b (forget s) = (forget (fst (ds_union own E a b s)), snd (ds_union own E a b s)).
Proof.
  unfold ds_union_q, ds_union. rewrite own_make. destruct (ds_make_or_get own E a s) as [s1 [ia| | | |]]; cbn [fst snd]; auto.
  rewrite own_make. destruct (ds_make_or_get own E b s1) as [s2 [ib| | | |]]; cbn [fst snd]; auto.
  rewrite own_find. destruct (ds_find_in ia s2) as [s3 [ra| | | |]]; cbn [fst snd]; auto.
  rewrite own_find. destruct (ds_find_in ib s3) as [s4 [rb| | | |]]; cbn [fst snd]; auto.
  destruct (ra =? rb); auto. unfold forget at 1 2. cbn [ds_data ds_ids]. destruct (ds_link E (ds_data s4) ra rb). reflexivity.
Qed.
Lemma own_in_union (a b : Q) s : ds_in_union_q a b (forget s) = (forget (fst (ds_in_union own a b s)), snd (ds_in_union own a b s)).
Proof.
  unfold ds_in_union_q, ds_in_union. cbn [forget ds_ids]. rewrite !own_get. change (DSet _ (ds_data s)) with (forget s).
  destruct (hm_get own a (ds_ids s)) as [ia|]; auto. destruct (hm_get own b (ds_ids s)) as [ib|]; auto.
  rewrite own_find. destruct (ds_find_in ia s) as [s3 [ra| | | |]]; cbn [fst snd]; auto.
  rewrite own_find. destruct (ds_find_in ib s3) as [s4 [rb| | | |]]; cbn [fst snd]; auto.
Qed.
Lemma own_loop xs : forall s, for_each (ds_make_set_q E) xs (forget s) =
  (forget (fst (for_each (ds_make_set own E) xs s)), snd (for_each (ds_make_set own E) xs s)).
Proof.
  induction xs as [|x xs IH]; intros s; cbn [for_each]; auto. unfold ds_make_set_q at 1. rewrite own_make_set.
  destruct (ds_make_set own E x s) as [s1 [[]| | | |]]; cbn [fst snd]; auto.
Qed.
Lemma own_reserve n s : ds_reserve E n (forget s) = (forget s, snd (ds_reserve E n s)).
Proof. unfold ds_reserve, forget, hm_reserve. cbn [ds_data ds_ids snd]. now rewrite map_length. Qed.
Lemma own_extend h xs s : ds_extend_q E h xs (forget s) = (forget (fst (ds_extend own E h xs s)), snd (ds_extend own E h xs s)).
Proof.
  unfold ds_extend_q, ds_extend. rewrite own_reserve. unfold ds_reserve. cbn [snd].
  destruct (obind _ _); auto. apply own_loop.
Qed.
Lemma own_extend_ref h xs s : ds_extend_ref_q E h xs (forget s) = (forget (fst (ds_extend_ref own E h xs s)), snd (ds_extend_ref own E h xs s)).
Proof.
  unfold ds_extend_ref_q, ds_extend_ref. rewrite own_reserve. unfold ds_reserve. cbn [snd].
  destruct (obind _ _); auto. rewrite !map_id. apply own_loop.
Qed.
Lemma own_slots xs : forall s, slots_q E (forget s) xs = slots E own s xs.
Proof.
  induction xs as [|[q x] xs IH]; intros s; cbn [slots slots_q]; auto. f_equal.
  - exact (own_slot (q, x) s).
  - rewrite <- IH. f_equal. exact (f_equal fst (own_make_set (q, x) s)).
Qed.
End Carry.

(** Every call does and answers what the same call does on the slots its lookups
    found; an element not found takes the next slot. *)
Theorem c97_calls_follow_the_slots : forall K E (o : qop K) s t s' r,
  ranks_fit E -> reachable Nat.eqb E (fun n => n) t -> slots_of s t ->
  qop_ok o -> ds_step_q E o s = (s', r) ->
  exists o' t' r', on_slots_q E s o o' /\ op_ok o' /\ ds_step Nat.eqb E o' t = (t', r') /\
    reachable Nat.eqb E (fun n => n) t' /\ slots_of s' t' /\ same_answer s r r'.
Proof.
  intros K E o s t s' r U R S Ok H.
  assert (G : forall (o0 : op ((K -> K -> bool) * K)) s1 r1, op_ok o0 -> ds_step (@own K) E o0 (dress _ s) = (s1, r1) ->
    s' = forget _ s1 -> (forall r', same_answer (dress _ s) r1 r' -> same_answer s r r') ->
    exists o' t' r', on_slots E (@own K) (dress _ s) o0 o' /\ op_ok o' /\ ds_step Nat.eqb E o' t = (t', r') /\
      reachable Nat.eqb E (fun n => n) t' /\ slots_of s' t' /\ same_answer s r r').
  { intros o0 s1 r1 Ok0 H0 -> Hr. destruct (c92_calls_follow_the_slots _ _ _ _ _ _ _ _ U R (proj1 (dress_slots _ _ _) S) Ok0 H0)
      as (o' & t' & r' & N & Ok' & H' & R' & S' & A).
    exists o', t', r'. do 4 (split; auto). split; [now apply forget_slots|auto]. }
  assert (FD := forget_dress _ s).
  assert (SU : forall (x : outcome unit) r', same_answer (dress _ s) (omap (fun _ => RUnit) x) r' -> same_answer s (omap (fun _ => RUnit) x) r').
  { intros [[]| | | |] [[]| | | |]; cbn; auto. }
  assert (SB : forall (x : outcome bool) r', same_answer (dress _ s) (omap RBool x) r' -> same_answer s (omap RBool x) r').
  { intros [| | | |] [[]| | | |]; cbn; auto. }
  destruct o as [a b|a b|h xs|h xs|q o]; cbn [ds_step_q] in H.
  - unfold unit_out in H. rewrite <- FD, own_union in H. injection H as <- <-.
    destruct (G (OUnion a b) _ _ I eq_refl eq_refl) as (o' & t' & r' & N & Z); [apply SU|].
    exists o', t', r'. split; auto. inversion N; subst. rewrite <- own_slot, FD.
    destruct a as [q a], b as [q' b]. replace (slot (@own K) (fst (ds_make_set (@own K) E (q, a) (dress _ s))) (q', b)) with (slot q' (fst (ds_make_set q E a s)) b); [constructor|].
    transitivity (slot (fst (q', b)) (fst (ds_make_set (fst (q, a)) E (snd (q, a)) (forget _ (dress _ s)))) (snd (q', b))); [now rewrite FD|].
    rewrite own_make_set. cbn [fst]. apply (own_slot _ (q', b)).
  - rewrite <- FD, own_in_union in H. injection H as <- <-.
    destruct (G (OInUnion a b) (fst (ds_in_union (@own K) a b (dress _ s))) (omap RBool (snd (ds_in_union (@own K) a b (dress _ s)))) I) as (o' & t' & r' & N & Z); auto.
    { cbn. now destruct (ds_in_union _ _ _ _). }
    exists o', t', r'. split; auto. inversion N; subst. rewrite <- !own_slot, FD. destruct a, b. constructor.
  - unfold unit_out in H. rewrite <- FD, own_extend in H. injection H as <- <-.
    destruct (G (OExtend h xs) _ _ I eq_refl eq_refl) as (o' & t' & r' & N & Z); [apply SU|].
    exists o', t', r'. split; auto. inversion N; subst. rewrite <- own_slots, FD. constructor.
  - unfold unit_out in H. rewrite <- FD, own_extend_ref in H. injection H as <- <-.
    destruct (G (OExtendRef h xs) _ _ I eq_refl eq_refl) as (o' & t' & r' & N & Z); [apply SU|].
    exists o', t', r'. split; auto. inversion N; subst. rewrite <- own_slots, FD. constructor.
  - destruct (c92_calls_follow_the_slots _ _ _ _ _ _ _ _ U R S Ok H) as (o' & t' & r' & N & Z).
    exists o', t', r'. split; auto. now constructor.
Qed.
Print Assumptions c97_calls_follow_the_slots.

(** Whatever the lookups answered, the forest is that of a disjoint set of slot
    numbers, with lawful equality, that saw some history of its own. *)
Theorem c97_forest : forall K E (s : dset K),
  ranks_fit E -> fickle E s ->
  exists t, reachable Nat.eqb E (fun n => n) t /\ slots_of s t.
Proof.
  intros K E s U F.
  assert (N : forall h (xs : list ((K -> K -> bool) * K)) s, ds_from_iter_q E h xs = Ret s -> exists t, reachable Nat.eqb E (fun n => n) t /\ slots_of s t).
  { intros h xs s0 H. unfold ds_from_iter_q in H. destruct (ds_with_capacity K E h) as [s1| | | |] eqn:W; try discriminate. cbn in H.
    assert (s1 = forget _ (ds_new _)) by (unfold ds_with_capacity in W; destruct (hm_reserve _ _ _); try discriminate; cbn in W;
      destruct (vec_reserve _ _ _); try discriminate; cbn in W; now injection W).
    subst s1. rewrite own_loop in H. unfold ds_finish in H. cbn [fst snd] in H.
    assert (X : ds_from_iter (@own K) E h xs = Ret (fst (for_each (ds_make_set (@own K) E) xs (ds_new _)))).
    { unfold ds_from_iter. unfold ds_with_capacity in *. unfold hm_reserve in *. cbn [length] in *. destruct (_ <=? _); try discriminate. cbn [obind] in *.
      destruct (vec_reserve _ _ _); try discriminate. cbn [obind] in *. unfold ds_finish. change (DSet [] []) with (ds_new ((K -> K -> bool) * K)).
      destruct (snd (for_each _ _ _)); try discriminate. reflexivity. }
    destruct (c92_forest _ _ _ U ltac:(eapply w_from_iter; exact X)) as (t & Rt & S). exists t. split; auto.
    destruct (snd (for_each _ _ _)); try discriminate. cbn in H. injection H as <-. now apply forget_slots. }
  induction F as [|n s H|h xs s H|cl h xs s H|cl s F IH|s ids F IH P|o s s' r F IH Ok H].
  - exists (ds_new nat). split; [constructor|split; constructor].
  - destruct (c92_forest _ _ _ U ltac:(eapply w_with_capacity; exact H)) as (t & X). eauto.
  - eauto.
  - apply (N h (map (clone_item cl) xs)). exact H.
  - destruct IH as (t & R & S). exists t. split; auto. destruct S as [D Pm]. split; auto. unfold ds_clone. cbn. rewrite map_map. exact Pm.
  - destruct IH as (t & R & [D Pm]). exists t. split; auto. split; auto. cbn. eapply Permutation_trans; [|exact Pm].
    apply Permutation_map. now apply Permutation_sym.
  - destruct IH as (t & R & S). destruct (c97_calls_follow_the_slots _ _ _ _ _ _ _ U R S Ok H) as (o' & t' & r' & _ & _ & _ & A & B & _). eauto.
Qed.
Print Assumptions c97_forest.

Lemma slots_q_length K E xs : forall s : dset K, length (slots_q E s xs) = length xs.
Proof. induction xs as [|[q x] xs IH]; intros s; cbn; auto. Qed.

(** No call does anything but return or panic for lack of room. *)
Theorem c97_every_call_returns : forall K E (o : qop K) s s' r,
  ranks_fit E -> fickle E s -> qop_ok o -> ds_step_q E o s = (s', r) ->
  (r = Panic \/ exists v, r = Ret v) /\
  (ds_len s + q_demand o <= alloc_max E -> exists v, r = Ret v).
Proof.
  intros K E o s s' r U R Ok H. destruct (c97_forest _ _ _ U R) as (t & Rt & S).
  destruct (c97_calls_follow_the_slots _ _ _ _ _ _ _ U Rt S Ok H) as (o' & t' & r' & N & Ok' & H' & _ & _ & A).
  destruct (c56_every_call_returns _ Nat.eqb (fun n => n) E t o' t' r' nat_laws U Nat.eqb_refl Rt Ok' H') as [B C].
  assert (X : forall v, r' = Ret v -> exists v, r = Ret v).
  { intros v ->. destruct r as [w| | | |]; cbn in A; [eauto|contradiction..]. }
  assert (D : demand o' = q_demand o).
  { destruct N as [| | | |q o o' N]; cbn; rewrite ?slots_q_length; auto. exact (same_demand _ _ _ _ _ _ N). }
  split.
  - destruct B as [->|[v B]]; [|right; eauto]. destruct r as [[]| | | |]; cbn in A; auto; contradiction.
  - intros Le. rewrite D in C. unfold ds_len in *. rewrite (sl_len S) in C. destruct (C Le) as [v Hv]. eauto.
Qed.
Print Assumptions c97_every_call_returns.

(** [union] with the first element not found and the second found by a lookup that
    says yes to everything; then a query whose two lookups disagree *)
Definition never (a b : nat) : bool := false.
Definition always (a b : nat) : bool := true.
Definition ops97 : list (qop nat) :=
  [QExtend 0 [(never, 5); (never, 5); (always, 9)]; QUnion (never, 7) (Nat.eqb, 7); QUnion (Nat.eqb, 5) (never, 5);
   QInUnion (Nat.eqb, 7) (always, 0); QInUnion (Nat.eqb, 5) (always, 0); QInUnion (never, 7) (always, 0); QCall always (OMake 3);
   QCall Nat.eqb OLen; QCall Nat.eqb (OIter (fun l => l) (fun l => l))].
Definition ds97 : dset nat := fst (ds_run_q Ed ops97 (ds_new nat)).

Lemma run_fickle ops s : fickle Ed s -> Forall (@qop_ok nat) ops -> fickle Ed (fst (ds_run_q Ed ops s)).
Proof.
  revert s. induction ops as [|o ops IH]; intros s R Ok; simpl; auto.
  inversion Ok as [|? ? O1 O2]; subst. destruct (ds_step_q Ed o s) as [s1 r] eqn:H.
  specialize (IH s1 (k_step _ R O1 H) O2). destruct (ds_run_q Ed ops s1). exact IH.
Qed.

Example c97_ex : ranks_fit Ed /\ fickle Ed ds97 /\
  ds_ids ds97 = [(5, 3); (7, 2); (5, 1); (5, 0)] /\
  snd (ds_run_q Ed ops97 (ds_new nat)) =
    [Ret RUnit; Ret RUnit; Ret RUnit; Ret (RBool false); Ret (RBool true); Ret (RBool false); Ret RUnit; Ret (RNat 4);
     Ret (RSets [[5]; [7]; [5; 5]])].
Proof.
  split; [reflexivity|]. split; [|vm_compute; repeat split].
  apply run_fickle; [apply k_new|]. unfold ops97. repeat constructor; auto.
Qed.
