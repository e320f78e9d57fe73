(** Property theorem C92: the disjoint set and elements whose [Hash] and [Eq]
    break their contracts. *)
From Coq Require Import Permutation NArith.
From Verif Require Import Base HMModel HMProofs DSModel DSSpec DSRun DSRun3 DSProofs DSProofs2 DSProofs3 DSProofs4 DSProofs8 DSProps.
Local Open Scope outcome_scope.

(** ** C92 *)
(** Whatever the lookups answered, the forest is that of a disjoint set of slot
    numbers, with lawful equality, that saw some history of its own. *)
Theorem c92_forest : forall K E (s : dset K),
  ranks_fit E -> lawless E s ->
  exists t, reachable Nat.eqb E (fun n => n) t /\ slots_of s t.
Proof. exact (fun K E s U R => lawless_slots U R). Qed.
Print Assumptions c92_forest.

(** Every call does and answers what the same call does on the slots its lookups
    found; an element not found takes the next slot. *)
Theorem c92_calls_follow_the_slots : forall K (eqb : K -> K -> bool) E o s t s' r,
  ranks_fit E -> reachable Nat.eqb E (fun n => n) t -> slots_of s t ->
  op_ok o -> ds_step eqb E o s = (s', r) ->
  exists o' t' r', on_slots E eqb s o o' /\ op_ok o' /\ ds_step Nat.eqb E o' t = (t', r') /\
    reachable Nat.eqb E (fun n => n) t' /\ slots_of s' t' /\ same_answer s r r'.
Proof. exact (fun K eqb E o s t s' r U R S Ok H => step_slots U eqb o S R Ok H). Qed.
Print Assumptions c92_calls_follow_the_slots.

Lemma slots_length K E (eqb : K -> K -> bool) xs s : length (slots E eqb s xs) = length xs.
Proof. revert s. induction xs as [|x xs IH]; intros s; cbn; auto. Qed.

Lemma same_demand K E (eqb : K -> K -> bool) s o o' : on_slots E eqb s o o' -> demand o' = demand o.
Proof. intros []; cbn; auto; now rewrite slots_length. Qed.

(** no call does anything but return or panic for lack of room *)
Theorem c92_every_call_returns : forall K (eqb : K -> K -> bool) E o s s' r,
  ranks_fit E -> lawless E s -> op_ok o -> ds_step eqb E o s = (s', r) ->
  (r = Panic \/ exists v, r = Ret v) /\
  (ds_len s + demand o <= alloc_max E -> exists v, r = Ret v).
Proof.
  intros K eqb E o s s' r U R Ok H. destruct (c92_forest _ _ _ U R) as (t & Rt & S).
  destruct (c92_calls_follow_the_slots _ _ _ _ _ _ _ _ U Rt S Ok H) as (o' & t' & r' & N & Ok' & H' & _ & _ & A).
  destruct (c56_every_call_returns _ Nat.eqb (fun n => n) E t o' t' r' nat_laws U Nat.eqb_refl Rt Ok' H') as [B C].
  assert (X : forall v, r' = Ret v -> exists v, r = Ret v).
  { intros v ->. destruct r as [w| | | |]; cbn in A; [eauto|contradiction..]. }
  split.
  - destruct B as [->|[v B]]; [|right; eauto]. destruct r as [[]| | | |]; cbn in A; auto; contradiction.
  - intros Le. rewrite (same_demand _ _ _ _ _ _ N) in C. unfold ds_len in *. rewrite (sl_len S) in C.
    destruct (C Le) as [v Hv]. eauto.
Qed.
Print Assumptions c92_every_call_returns.

(** searches stay logarithmic in the number of elements stored *)
Theorem c92_searches_are_logarithmic : forall K E (s : dset K) i,
  ranks_fit E -> lawless E s -> i < ds_len s ->
  exists v r, ds_find (S (Nat.log2 (ds_len s))) (ds_data s) i = (v, Ret r).
Proof.
  intros K E s i U R Li. destruct (c92_forest _ _ _ U R) as (t & Rt & S).
  assert (Ln : ds_len t = ds_len s) by (unfold ds_len; exact (sl_len S)).
  pose proof (c56_recursion_depth_is_logarithmic _ Nat.eqb (fun n => n) E t i nat_laws U Nat.eqb_refl Rt) as X.
  rewrite Ln, (proj1 S) in X. auto.
Qed.
Print Assumptions c92_searches_are_logarithmic.

(** every element stored has a slot of its own *)
Theorem c92_slots_are_distinct : forall K E (s : dset K),
  ranks_fit E -> lawless E s ->
  Permutation (map snd (ds_ids s)) (seq 0 (ds_len s)) /\ length (ds_data s) = ds_len s.
Proof.
  intros K E s U R. destruct (c92_forest _ _ _ U R) as (t & Rt & S).
  pose proof (reach_valid U Rt) as (_ & Ld & _ & P & _). destruct S as [D Q].
  assert (Ln : length (ds_ids t) = ds_len s) by exact (sl_len (conj D Q)).
  rewrite Ln in *. rewrite D in Ld. split; auto. eapply Permutation_trans; [|exact P].
  replace (map snd (ds_ids s)) with (map snd (map (fun e => (snd e, snd e)) (ds_ids s))) by (rewrite map_map; reflexivity).
  now apply Permutation_map.
Qed.
Print Assumptions c92_slots_are_distinct.

(** iteration delivers every entry once, those of joined slots together *)
Theorem c92_iteration : forall K (eqb : K -> K -> bool) E s t order pick s' r,
  ranks_fit E -> reachable Nat.eqb E (fun n => n) t -> slots_of s t ->
  op_ok (OIter order pick) -> ds_step eqb E (OIter order pick) s = (s', r) ->
  exists G, r = Ret (RSets (map (map fst) G)) /\ Permutation (ds_ids s) (concat G) /\
    Forall (fun q => q <> []) G /\
    (forall k i k' j, In (k, i) (ds_ids s) -> In (k', j) (ds_ids s) ->
       (joined Nat.eqb t i j <-> exists q, In q G /\ In (k, i) q /\ In (k', j) q)).
Proof.
  intros K eqb E s t order pick s' r U R S Ok H.
  destruct (c92_calls_follow_the_slots _ _ _ _ _ _ _ _ U R S Ok H) as (o' & t' & r' & N & Ok' & H' & _ & _ & A).
  inversion N as [| | | | | | | | | |? ? order' pick' Q1 Q2]; subst. destruct Ok' as [Po Pp].
  destruct (c55_iteration_yields_the_partition _ Nat.eqb (fun n => n) E t order' pick' nat_laws U Nat.eqb_refl R Po Pp)
    as (t2 & ts & H2 & F & D & _ & Ln & J).
  rewrite H' in H2. injection H2 as <- ->. destruct r as [[| | |ss]| | | |]; cbn in A; try contradiction.
  destruct A as (G & -> & -> & P). exists G. split; auto. split; auto. split.
  - rewrite Forall_map in F. eapply Forall_impl; [|exact F]. intros q X ->. now apply X.
  - intros k i k' j I1 I2. rewrite J. split.
    + intros (q & Iq & (i' & X1 & X2) & (j' & Y1 & Y2)). apply Nat.eqb_eq in X2, Y2. subst i' j'.
      apply in_map_iff in Iq. destruct Iq as (g & <- & Ig). apply in_map_iff in X1, Y1.
      destruct X1 as ([k1 i1] & X & X1), Y1 as ([k2 j1] & Y & Y1). cbn in X, Y. subst i1 j1.
      assert (One : forall k1 k2 n, In (k1, n) (ds_ids s) -> In (k2, n) (ds_ids s) -> k1 = k2).
      { assert (ND : NoDup (map snd (ds_ids s))).
        { destruct (reach_valid U R) as (_ & _ & _ & Pm & _). destruct S as [_ Ps].
          replace (map snd (ds_ids s)) with (map snd (map (fun e => (snd e, snd e)) (ds_ids s))) by (rewrite map_map; reflexivity).
          eapply Permutation_NoDup; [|apply seq_NoDup]. eapply Permutation_trans; [apply Permutation_sym, Pm|].
          apply Permutation_map. now apply Permutation_sym. }
        clear -ND. induction (ds_ids s) as [|[k n] l IH]; intros k1 k2 m X Y; cbn in *; [contradiction|].
        inversion ND as [|? ? N1 N2]; subst. destruct X as [X|X], Y as [Y|Y].
        - congruence.
        - injection X as <- <-. exfalso. apply N1. apply in_map_iff. exists (k2, n). auto.
        - injection Y as <- <-. exfalso. apply N1. apply in_map_iff. exists (k1, n). auto.
        - eauto. }
      assert (Sub : forall e, In e g -> In e (ds_ids s)).
      { intros e Ie. apply (Permutation_in _ (Permutation_sym P)). apply in_concat. exists g. auto. }
      rewrite (One k k1 i I1 (Sub _ X1)), (One k' k2 j I2 (Sub _ Y1)). exists g. auto.
    + intros (q & Iq & X & Y). exists (map snd q). split; [now apply in_map|]. split.
      * exists i. split; [exact (in_map snd _ _ X)|apply Nat.eqb_refl].
      * exists j. split; [exact (in_map snd _ _ Y)|apply Nat.eqb_refl].
Qed.
Print Assumptions c92_iteration.

(** A relation that is neither reflexive nor symmetric nor transitive: a number
    is found under the numbers one below it.  5 is stored twice. *)
Definition odd_eq (a b : nat) : bool := S a =? b.
Definition ops92 : list (op nat) :=
  [OMake 5; OMake 5; OUnion 4 7; OMake 2; OInUnion 6 4; OInUnion 5 5; OContains 5; OContains 1; OUnion 1 8; OLen;
   OIter (fun l => l) (fun l => l)].
Definition ds92 : dset nat := fst (ds_run odd_eq Ed ops92 (ds_new nat)).

Lemma run_lawless (eqb : nat -> nat -> bool) ops s : lawless Ed s -> Forall (@op_ok nat) ops ->
  lawless Ed (fst (ds_run eqb Ed ops s)).
Proof.
  revert s. induction ops as [|o ops IH]; intros s R Ok; simpl; auto.
  inversion Ok as [|? ? O1 O2]; subst. destruct (ds_step eqb Ed o s) as [s1 r] eqn:H.
  specialize (IH s1 (w_step eqb _ R O1 H) O2). destruct (ds_run eqb Ed ops s1). exact IH.
Qed.

Example c92_ex : ranks_fit Ed /\ lawless Ed ds92 /\
  snd (ds_run odd_eq Ed ops92 (ds_new nat)) =
    [Ret (RUnit); Ret RUnit; Ret RUnit; Ret RUnit; Ret (RBool true); Ret (RBool false); Ret (RBool false);
     Ret (RBool true); Ret RUnit; Ret (RNat 5); Ret (RSets [[5]; [7; 5]; [8; 2]])] /\
  ds_ids ds92 = [(8, 4); (2, 3); (7, 2); (5, 1); (5, 0)] /\
  (** the same in terms of slots *)
  (let t := fst (ds_run Nat.eqb Ed [OMake 0; OMake 1; OUnion 1 2; OMake 3; OInUnion 2 1; OUnion 3 4;
                                    OIter (fun l => l) (fun l => l)] (ds_new nat)) in
   ds_data t = ds_data ds92 /\ map (fun e => (snd e, snd e)) (ds_ids ds92) = ds_ids t).
Proof.
  split; [reflexivity|]. split; [|vm_compute; repeat split].
  apply run_lawless; [apply w_new|]. unfold ops92. repeat constructor; auto.
Qed.
