(** Property theorems C121: the hash function does not matter. *)
From Coq Require Import Permutation NArith.
From Verif Require Import Base HMModel HMProofs HTModel HTProofs HTRun HTProofs2 CTModel CTSpec CTSpec9 CTRun CTProofs2 CTProps CTProps10
  DSModel DSSpec DSSpec3 DSRun DSProofs2 DSProofs3 DSProofs4 DSProps DSProps11.
Local Open Scope outcome_scope.

(** [Hash] agrees with [Eq]: equal keys have equal hash values *)
Definition consistent {K} (eqb : K -> K -> bool) (hash : K -> N) : Prop := forall a b, eqb a b = true -> hash a = hash b.

(** ** Two ways of running a table used in the examples *)
(** linear probing, at most 7/8 of the slots used, array doubled *)
Definition linear : scheme := Scheme
  (fun h n i => (N.to_nat (h mod N.of_nat n) + i) mod n)
  (fun w d n => 8 * (w + d) <=? 7 * n)
  (fun w => 4 + 2 * w).
(** from the other end, no slot to spare *)
Definition tight : scheme := Scheme
  (fun h n i => n - 1 - (N.to_nat (h mod N.of_nat n) + i) mod n)
  (fun w d n => w <=? n)
  (fun w => w).

Lemma round n c p : p < n -> exists i, i < n /\ (c + i) mod n = p.
Proof.
  intros H. exists ((p + (n - c mod n)) mod n). split; [apply Nat.mod_upper_bound; lia|].
  pose proof (Nat.mod_upper_bound c n ltac:(lia)) as B.
  rewrite Nat.add_mod_idemp_r by lia. rewrite (Nat.div_mod_eq c n) at 1.
  replace (n * (c / n) + c mod n + (p + (n - c mod n))) with (p + (c / n + 1) * n) by nia.
  rewrite Nat.mod_add by lia. now apply Nat.mod_small.
Qed.

Lemma linear_laws : scheme_laws linear.
Proof.
  constructor; cbn [linear probe roomy slots_for].
  - intros h n p H. now apply round.
  - intros h n i H. apply Nat.mod_upper_bound. lia.
  - intros w d n H. apply Nat.leb_le in H. lia.
  - intros w. lia.
Qed.

Lemma tight_laws : scheme_laws tight.
Proof.
  constructor; cbn [tight probe roomy slots_for].
  - intros h n p H. destruct (round n (N.to_nat (h mod N.of_nat n)) (n - 1 - p)) as (i & I & Q); [lia|].
    exists i. split; auto. rewrite Q. lia.
  - intros h n i H. lia.
  - intros w d n H. now apply Nat.leb_le.
  - auto.
Qed.

(** published test vectors of 64-bit FNV-1a *)
Example c121_ex_fnv : fnv [] = 0xcbf29ce484222325%N /\ fnv [97]%N = 0xaf63dc4c8601ec8c%N /\
  fnv [102; 111; 111; 98; 97; 114]%N = 0x85944171f73967e8%N.
Proof. vm_compute. auto. Qed.

(** hash functions for keys whose tag equality ignores *)
Definition by_fnv (k : nat * nat) : N := fnv (u32_bytes (fst k)).
Definition all_collide (k : nat * nat) : N := 7.
Definition by_tag (k : nat * nat) : N := N.of_nat (snd k).
Lemma by_fnv_ok : consistent keq by_fnv.
Proof. intros a b H. apply Nat.eqb_eq in H. unfold by_fnv. congruence. Qed.
Lemma all_collide_ok : consistent keq all_collide.
Proof. intros a b H. reflexivity. Qed.

(** ** Counters *)

(** A counter on a hash table is a finite map from keys to counts, whatever the hash function
    (consistent with equality), the probe sequence and the growth of the table are: in every
    history every call leaves the map and ends as C51 says for counters. *)
Theorem c121_any_hash_gives_a_counter : forall K (eqb : K -> K -> bool) cl hash P E cap ops,
  eq_laws eqb -> (forall k, eqb (cl k) k = true) -> consistent eqb hash -> scheme_laws P -> 1 <= usize_max E ->
  Forall (CTSpec.op_ok eqb E) ops ->
  match tc_with_capacity hash P E cap with
  | Ret t0 => cap <= alloc_max E /\
      CTSpec.history eqb E cl ops empty (fun k => ht_entry_of eqb hash P k (fst (tc_run eqb cl hash P E ops t0)))
        (snd (tc_run eqb cl hash P E ops t0))
  | Panic => alloc_max E < cap
  | _ => False
  end.
Proof.
  intros K eqb cl hash P E cap ops L CL HH PL U Ok.
  pose proof (@Rm_with_capacity K nat eqb hash P E L PL cap) as W. unfold tc_with_capacity.
  destruct (ht_with_capacity nat hash P E cap) as [t0| | | |]; try contradiction.
  - destruct W as [[O Q] S]. unfold hm_reserve in S. cbn in S.
    destruct (cap <=? alloc_max E) eqn:B; [|discriminate]. apply Nat.leb_le in B. split; auto.
    destruct (tc_run eqb cl hash P E ops t0) as [t tr] eqn:T. cbn [fst snd].
    apply Permutation_sym, Permutation_nil in Q.
    assert (V : ct_valid eqb E (cimg t0)).
    { unfold cimg. rewrite Q. split; [split; constructor|]. apply Nat.le_0_l. }
    destruct (tc_history cl L HH PL CL U O V Ok T) as (_ & _ & H). unfold cimg in H. rewrite Q in H. exact H.
  - unfold hm_reserve in W. cbn in W. destruct (cap <=? alloc_max E) eqn:B; [discriminate|]. now apply Nat.leb_gt.
Qed.
Print Assumptions c121_any_hash_gives_a_counter.

Definition c121_ops : list (CTSpec.op key) :=
  [OPush (5, 50); OInsert (2, 9) 40; OPush (5, 51); CTSpec.OExtend 3 [(7, 1); (9, 1); (7, 2)]; ORemove (5, 0); OGet (9, 9);
   OSub (ct_map cb'); OPush (5, 52); OGetKeyValue (5, 0); OGetMut (7, 0) (fun n => Nat.min 255 (n + 3)); ORetain (fun _ n => n <? 20);
   OAdd (ct_map cb'); CTSpec.OLen; OIndex (2, 0); CTSpec.OReserve 15; OIndex (7, 3); OSubRef [((4, 1), 5); ((5, 1), 9)];
   CTSpec.OContains (4, 4); CTSpec.OIter (fun l => l)].
Lemma c121_ops_ok : Forall (CTSpec.op_ok keq Ec) c121_ops.
Proof.
  repeat (apply Forall_cons; [cbn [CTSpec.op_ok]; try exact I|]); try apply Forall_nil.
  - apply Nat.leb_le; reflexivity.
  - apply cb_valid.
  - intros n. apply (Nat.le_min_l 255).
  - apply cb_valid.
  - split; [repeat constructor|]. repeat constructor; cbn; apply Nat.leb_le; reflexivity.
  - intros l. apply Permutation_refl.
Qed.
(** the run on a new counter, if there is one *)
Definition counter_run (hash : key -> N) (P : scheme) (cap : nat) (ops : list (CTSpec.op key)) :=
  match tc_with_capacity hash P Ec cap with Ret t => tc_run keq kcl hash P Ec ops t | _ => ([], []) end.
(** FNV with linear probing; the table is replaced three times and keeps two marks *)
Example c121_ex : counter_run by_fnv linear 1 c121_ops =
  ([Empty; Deleted; Deleted; Empty; Full (9, 1) 1; Empty; Empty; Empty; Full (1, 13) 7; Empty; Empty; Empty; Full (7, 1) 5; Empty],
   [Ret CTSpec.RUnit; Ret (ROpt None); Ret CTSpec.RUnit; Ret CTSpec.RUnit; Ret (ROpt (Some 2)); Ret (ROpt (Some 1));
    Ret CTSpec.RUnit; Ret CTSpec.RUnit; Ret (REntry (Some (5, 52, 1))); Ret (CTSpec.RBool true); Ret CTSpec.RUnit;
    Ret CTSpec.RUnit; Ret (CTSpec.RNat 5); Panic; Panic; Ret (CTSpec.RNat 5); Ret CTSpec.RUnit; Ret (CTSpec.RBool false);
    Ret (RList [((9, 1), 1); ((1, 13), 7); ((7, 1), 5)])]).
Proof. vm_compute. reflexivity. Qed.
Example c121_ex_hypotheses : eq_laws keq /\ (forall k, keq (kcl k) k = true) /\ consistent keq by_fnv /\
  scheme_laws linear /\ 1 <= usize_max Ec /\ Forall (CTSpec.op_ok keq Ec) c121_ops.
Proof. exact (conj keq_laws (conj kcl_eq (conj by_fnv_ok (conj linear_laws (conj (proj1 (Nat.leb_le 1 255) eq_refl) c121_ops_ok))))). Qed.

(** [Counter] and [FastCounter], and any two other hash functions, probe sequences, ways of
    growing and initial capacities, cannot be told apart: they give the same answers in every
    history (up to the order of traversals) and hold the same counts at the end. *)
Theorem c121_hash_does_not_matter_for_counters : forall K (eqb : K -> K -> bool) cl E hash P cap t hash' P' cap' t' ops,
  eq_laws eqb -> (forall k, eqb (cl k) k = true) -> 1 <= usize_max E ->
  consistent eqb hash -> scheme_laws P -> tc_with_capacity hash P E cap = Ret t ->
  consistent eqb hash' -> scheme_laws P' -> tc_with_capacity hash' P' E cap' = Ret t' ->
  Forall (CTSpec.op_ok eqb E) ops -> Forall (blind eqb) ops ->
  Forall2 (CTSpec9.same_answer eqb) (snd (tc_run eqb cl hash P E ops t)) (snd (tc_run eqb cl hash' P' E ops t')) /\
  forall k, ht_get eqb hash P k (fst (tc_run eqb cl hash P E ops t)) = ht_get eqb hash' P' k (fst (tc_run eqb cl hash' P' E ops t')).
Proof.
  intros K eqb cl E hash P cap t hash' P' cap' t' ops L CL U HH PL W HH' PL' W' Ok Bl.
  pose proof (c121_any_hash_gives_a_counter K eqb cl hash P E cap ops L CL HH PL U Ok) as H. rewrite W in H.
  pose proof (c121_any_hash_gives_a_counter K eqb cl hash' P' E cap' ops L CL HH' PL' U Ok) as H'. rewrite W' in H'.
  destruct (history_det L Bl (f := empty) (g := empty) (fun _ => I) (proj2 H) (proj2 H')) as [T Li]. split; auto.
  intros k. specialize (Li k). cbn in Li. unfold ht_get, like_entry in *.
  destruct (ht_entry_of eqb hash P k _) as [[a n]|], (ht_entry_of eqb hash' P' k _) as [[b m]|]; cbn; try contradiction; auto.
  destruct Li. congruence.
Qed.
Print Assumptions c121_hash_does_not_matter_for_counters.

(** every key with the same hash value, a table without spare slots *)
Example c121_ex_counters : counter_run all_collide tight 0 c121_ops =
  ([Full (7, 1) 5; Deleted; Deleted; Full (1, 13) 7; Full (9, 1) 1],
   [Ret CTSpec.RUnit; Ret (ROpt None); Ret CTSpec.RUnit; Ret CTSpec.RUnit; Ret (ROpt (Some 2)); Ret (ROpt (Some 1));
    Ret CTSpec.RUnit; Ret CTSpec.RUnit; Ret (REntry (Some (5, 52, 1))); Ret (CTSpec.RBool true); Ret CTSpec.RUnit;
    Ret CTSpec.RUnit; Ret (CTSpec.RNat 5); Panic; Panic; Ret (CTSpec.RNat 5); Ret CTSpec.RUnit; Ret (CTSpec.RBool false);
    Ret (RList [((7, 1), 5); ((1, 13), 7); ((9, 1), 1)])]) /\ Forall (blind keq) c121_ops.
Proof. split; [vm_compute; reflexivity|]. repeat (apply Forall_cons; [cbn; auto|]). apply Forall_nil. Qed.

(** Consistency of hash and equality is needed: with a hash function that tells equal keys
    apart a counter is no map from keys to counts (equal keys are counted apart). *)
Theorem c121_inconsistent_hash_refuted : ~ (forall K (eqb : K -> K -> bool) cl hash P E cap ops t,
  eq_laws eqb -> (forall k, eqb (cl k) k = true) -> scheme_laws P -> 1 <= usize_max E ->
  Forall (CTSpec.op_ok eqb E) ops -> tc_with_capacity hash P E cap = Ret t ->
  CTSpec.history eqb E cl ops empty (fun k => ht_entry_of eqb hash P k (fst (tc_run eqb cl hash P E ops t)))
    (snd (tc_run eqb cl hash P E ops t))).
Proof.
  intros H. set (ops := [OPush (5, 1); OPush (5, 2); CTSpec.OLen] : list (CTSpec.op key)).
  assert (Ok : Forall (CTSpec.op_ok keq Ec) ops) by (repeat constructor).
  assert (Bl : Forall (blind keq) ops) by (repeat constructor).
  assert (U : 1 <= usize_max Ec) by (apply Nat.leb_le; reflexivity).
  pose proof (H key keq kcl by_tag linear Ec 0 ops _ keq_laws kcl_eq linear_laws U Ok eq_refl) as B.
  pose proof (c121_any_hash_gives_a_counter key keq kcl by_fnv linear Ec 0 ops keq_laws kcl_eq by_fnv_ok linear_laws U Ok) as G.
  destruct (tc_with_capacity by_fnv linear Ec 0) as [t| | | |] eqn:W; try (vm_compute in W; discriminate W).
  destruct (history_det keq_laws Bl (f := empty) (g := empty) (fun _ => I) B (proj2 G)) as [T _].
  vm_compute in W. injection W as <-. revert T. vm_compute. intros T.
  inversion T as [|? ? ? ? _ T1]; subst. inversion T1 as [|? ? ? ? _ T2]; subst. inversion T2 as [|? ? ? ? A _]; subst. discriminate A.
Qed.
Print Assumptions c121_inconsistent_hash_refuted.

(** ** Disjoint sets *)

(** A disjoint set on a hash table keeps the partition generated by the pairs united, whatever
    the hash function (consistent with equality), the probe sequence and the growth are. *)
Theorem c121_any_hash_gives_a_disjoint_set : forall K (eqb : K -> K -> bool) hash P E cap ops,
  eq_laws eqb -> consistent eqb hash -> scheme_laws P -> ranks_fit E -> Forall (@DSSpec.op_ok K) ops ->
  match td_with_capacity hash P E cap with
  | Ret s0 => cap <= alloc_max E /\ exists g,
      DSSpec.history eqb E ops (@empty_log K) g (snd (td_run eqb hash P E ops s0)) /\
      (forall x, ht_contains eqb hash P x (td_ids (fst (td_run eqb hash P E ops s0))) = true <-> mem eqb x (added g)) /\
      (forall x y, td_joined eqb hash P (fst (td_run eqb hash P E ops s0)) x y <-> together eqb g x y)
  | Panic => alloc_max E < cap
  | _ => False
  end.
Proof.
  intros K eqb hash P E cap ops L HH PL RF Ok.
  pose proof (@Rm_with_capacity K nat eqb hash P E L PL cap) as W. unfold td_with_capacity.
  destruct (ht_with_capacity nat hash P E cap) as [t0| | | |]; try contradiction; cbn.
  - destruct W as [[O Q] S]. unfold hm_reserve in S. unfold vec_reserve. cbn [length Nat.add] in *.
    destruct (cap <=? alloc_max E) eqn:B; [|discriminate]. apply Nat.leb_le in B. cbn. split; auto.
    destruct (td_run eqb hash P E ops (TDSet t0 [])) as [s tr] eqn:T. cbn [fst snd].
    apply Permutation_sym, Permutation_nil in Q.
    assert (I0 : img (TDSet t0 []) = ds_new K) by (unfold img; cbn [td_ids td_data]; now rewrite Q).
    assert (V : DSProofs2.valid eqb E (img (TDSet t0 []))) by (rewrite I0; apply DSProofs2.new_valid).
    assert (Sh : shows eqb (img (TDSet t0 [])) (@empty_log K)) by (rewrite I0; apply new_shows).
    destruct (td_history (s := TDSet t0 []) L HH PL RF O V Sh Ok T) as (O' & V' & g & S' & H). exists g. split; auto. split.
    + intros x. now apply td_contains.
    + intros x y. rewrite (td_joined_joined L HH PL s x y O'). exact (joined_together L x y V' S').
  - unfold hm_reserve in W. cbn in W. destruct (cap <=? alloc_max E) eqn:B; [discriminate|]. now apply Nat.leb_gt.
Qed.
Print Assumptions c121_any_hash_gives_a_disjoint_set.

Definition c121_set_ops : list (DSSpec.op key) :=
  [OUnion (1, 1) (2, 1); OMake (3, 1); DSSpec.OExtend 2 [(4, 1); (1, 2); (5, 1)]; OUnion (5, 9) (1, 9); OInUnion (2, 0) (5, 0);
   OInUnion (3, 0) (5, 0); DSSpec.OContains (6, 0); DSSpec.OLen; OMake (6, 6); OMake (7, 7); DSSpec.OReserve 1; DSSpec.OIsEmpty;
   DSSpec.OIter (fun l => l) (fun l => l); DSSpec.OClear; OInUnion (2, 0) (5, 0); OUnion (5, 5) (5, 6); DSSpec.OLen].
(** the run on a new disjoint set, if there is one *)
Definition set_run (hash : key -> N) (P : scheme) (cap : nat) (ops : list (DSSpec.op key)) :=
  match td_with_capacity hash P Ed cap with Ret t => snd (td_run keq hash P Ed ops t) | _ => [] end.
Lemma c121_set_ops_ok : Forall (@DSSpec.op_ok key) c121_set_ops.
Proof. repeat (apply Forall_cons; [cbn; try exact I; try (split; intros; apply Permutation_refl)|]). apply Forall_nil. Qed.

(** the answers but for the sets handed out *)
Definition c121_answers (ss : list (list key)) : list (outcome (DSSpec.out key)) :=
  [Ret DSSpec.RUnit; Ret DSSpec.RUnit; Ret DSSpec.RUnit; Ret DSSpec.RUnit; Ret (DSSpec.RBool true); Ret (DSSpec.RBool false);
   Ret (DSSpec.RBool false); Ret (DSSpec.RNat 5); Ret DSSpec.RUnit; Panic; Panic; Ret (DSSpec.RBool false); Ret (RSets ss);
   Ret DSSpec.RUnit; Ret (DSSpec.RBool false); Ret DSSpec.RUnit; Ret (DSSpec.RNat 1)].

Example c121_ex_set : set_run by_fnv linear 0 c121_set_ops =
  c121_answers [[(3, 1)]; [(6, 6)]; [(4, 1)]; [(5, 1); (1, 1); (2, 1)]] /\
  eq_laws keq /\ consistent keq by_fnv /\ scheme_laws linear /\ ranks_fit Ed /\ Forall (@DSSpec.op_ok key) c121_set_ops.
Proof.
  split; [vm_compute; reflexivity|].
  exact (conj keq_laws (conj by_fnv_ok (conj linear_laws (conj Ed_fit c121_set_ops_ok)))).
Qed.

(** [DisjointSet] and [FastDisjointSet], and any two other hash functions, cannot be told apart. *)
Theorem c121_hash_does_not_matter_for_disjoint_sets : forall K (eqb : K -> K -> bool) E hash P cap s hash' P' cap' s' ops,
  eq_laws eqb -> ranks_fit E ->
  consistent eqb hash -> scheme_laws P -> td_with_capacity hash P E cap = Ret s ->
  consistent eqb hash' -> scheme_laws P' -> td_with_capacity hash' P' E cap' = Ret s' ->
  Forall (@DSSpec.op_ok K) ops ->
  Forall2 (DSSpec3.same_answer eqb) (snd (td_run eqb hash P E ops s)) (snd (td_run eqb hash' P' E ops s')) /\
  forall x y, td_joined eqb hash P (fst (td_run eqb hash P E ops s)) x y <->
              td_joined eqb hash' P' (fst (td_run eqb hash' P' E ops s')) x y.
Proof.
  intros K eqb E hash P cap s hash' P' cap' s' ops L RF HH PL W HH' PL' W' Ok.
  assert (NEW : forall hash P cap s, scheme_laws P -> td_with_capacity hash P E cap = Ret s ->
    ok eqb hash P (td_ids s) /\ img s = ds_new K).
  { clear - L. intros hash P cap s PL W. unfold td_with_capacity in W. pose proof (@Rm_with_capacity K nat eqb hash P E L PL cap) as R.
    destruct (ht_with_capacity nat hash P E cap) as [t0| | | |]; try discriminate. cbn in W. unfold vec_reserve in W.
    destruct (length [] + cap <=? alloc_max E); [|discriminate]. injection W as <-. destruct R as [[O Q] _].
    apply Permutation_sym, Permutation_nil in Q. split; auto. unfold img. cbn [td_ids td_data]. now rewrite Q. }
  destruct (NEW _ _ _ _ PL W) as [O I0]. destruct (NEW _ _ _ _ PL' W') as [O' I0']. clear NEW W W'.
  assert (V : DSProofs2.valid eqb E (img s)) by (rewrite I0; apply DSProofs2.new_valid).
  assert (V' : DSProofs2.valid eqb E (img s')) by (rewrite I0'; apply DSProofs2.new_valid).
  assert (Sh : shows eqb (img s) (@empty_log K)) by (rewrite I0; apply new_shows).
  assert (Sh' : shows eqb (img s') (@empty_log K)) by (rewrite I0'; apply new_shows).
  assert (A : alike eqb (@empty_log K) (@empty_log K)) by (split; reflexivity).
  clear I0 I0'. revert Sh Sh' A. generalize (@empty_log K) at 1 3 as g. generalize (@empty_log K) as h.
  revert s s' O O' V V'. induction Ok as [|o ops O1 Ok IH]; intros s s' O O' V V' h g Sh Sh' A.
  - cbn. split; [constructor|]. intros x y. rewrite (td_joined_joined L HH PL s x y O), (td_joined_joined L HH' PL' s' x y O').
    rewrite (joined_together L x y V Sh), (joined_together L x y V' Sh'). apply A.
  - cbn. destruct (td_step eqb hash P E o s) as [s1 r] eqn:Q. destruct (td_step eqb hash' P' E o s') as [s1' r'] eqn:Q'.
    destruct (td_step_ok L HH PL RF o O V Sh O1 Q) as (Oa & Va & ga & Sa & Aa).
    destruct (td_step_ok L HH' PL' RF o O' V' Sh' O1 Q') as (Ob & Vb & gb & Sb & Ab).
    destruct (DSProps11.allowed_det eqb L E o g h ga gb r r' (proj1 (proj2 Sh)) (proj1 (proj2 Sh')) A Aa Ab) as [SA AL].
    destruct (IH s1 s1' Oa Ob Va Vb gb ga Sa Sb AL) as [F J].
    destruct (td_run eqb hash P E ops s1) as [s2 tr2], (td_run eqb hash' P' E ops s1') as [s2' tr2']. cbn in *. split; auto.
Qed.
Print Assumptions c121_hash_does_not_matter_for_disjoint_sets.

Example c121_ex_sets : set_run all_collide tight 3 c121_set_ops =
  c121_answers [[(6, 6)]; [(3, 1)]; [(5, 1); (2, 1); (1, 1)]; [(4, 1)]] /\
  consistent keq all_collide /\ scheme_laws tight.
Proof. split; [vm_compute; reflexivity|]. exact (conj all_collide_ok tight_laws). Qed.
