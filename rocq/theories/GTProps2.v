(** Property theorems C125: counters and disjoint sets on the hash table of today's std. *)
From Coq Require Import Permutation NArith.
From Verif Require Import Base HMModel HMProofs HTModel HTProofs HTRun HTProofs2 HTProps CTModel CTSpec CTSpec9 CTRun CTProofs2 CTProps CTProps10
  DSModel DSSpec DSSpec3 DSRun DSProofs2 DSProofs3 DSProofs4 DSProps DSProps11.
From Verif Require Import GTModel GTModel2 GTRun2 GTProofs GTProofs2 GTProofs3 GTProofs5.
Local Open Scope outcome_scope.

(** ** Counters *)

(** A counter on a table searched in groups is a finite map from keys to counts, whatever the
    hash function (consistent with equality) and the width of the groups are: every call of every
    history ends as C51 says for counters. *)
Theorem c125_counter_on_groups : forall K (eqb : K -> K -> bool) cl hash w E cap ops,
  eq_laws eqb -> (forall k, eqb (cl k) k = true) -> consistent eqb hash -> (exists x, w = 2 ^ x) -> 1 <= usize_max E ->
  Forall (CTSpec.op_ok eqb E) ops ->
  match gc_with_capacity hash w E cap with
  | Ret t0 => cap <= alloc_max E /\
      CTSpec.history eqb E cl ops empty (fun k => g_entry_of eqb hash w k (fst (gc_run eqb cl hash w E ops t0)))
        (snd (gc_run eqb cl hash w E ops t0))
  | Panic => alloc_max E < cap
  | _ => False
  end.
Proof.
  intros K eqb cl hash w E cap ops L CL HH PL U Ok.
  pose proof (@Rg_with_capacity K nat eqb hash w E L PL cap) as X. unfold gc_with_capacity.
  destruct (g_with_capacity nat hash w E cap) as [t0| | | |]; try contradiction; auto.
  destruct X as [[O Q] B]. split; auto.
  destruct (gc_run eqb cl hash w E ops t0) as [t tr] eqn:T. cbn [fst snd].
  apply Permutation_sym, Permutation_nil in Q.
  assert (V : ct_valid eqb E (cimg t0)).
  { unfold cimg. rewrite Q. split; [split; constructor|]. apply Nat.le_0_l. }
  destruct (gc_history cl L HH PL CL U O V Ok T) as (_ & _ & H). unfold cimg in H. rewrite Q in H. exact H.
Qed.
Print Assumptions c125_counter_on_groups.

(** the run on a new counter, if there is one *)
Definition group_run (hash : key -> N) (w cap : nat) (ops : list (CTSpec.op key)) :=
  match gc_with_capacity hash w Ec cap with Ret t => gc_run keq kcl hash w Ec ops t | _ => ([], []) end.
(** the calls of C121, groups of two: the table is replaced, two marks are left *)
Definition c125_answers (l : list (key * nat)) : list (outcome (CTSpec.out key)) :=
  [Ret CTSpec.RUnit; Ret (ROpt None); Ret CTSpec.RUnit; Ret CTSpec.RUnit; Ret (ROpt (Some 2)); Ret (ROpt (Some 1));
   Ret CTSpec.RUnit; Ret CTSpec.RUnit; Ret (REntry (Some (5, 52, 1))); Ret (CTSpec.RBool true); Ret CTSpec.RUnit;
   Ret CTSpec.RUnit; Ret (CTSpec.RNat 5); Panic; Panic; Ret (CTSpec.RNat 5); Ret CTSpec.RUnit; Ret (CTSpec.RBool false);
   Ret (RList l)].
Example c125_ex : group_run all_collide 2 1 c121_ops =
  ([Deleted; Full (7, 1) 5; Full (9, 1) 1; Empty; Empty; Full (1, 13) 7; Empty; Deleted],
   c125_answers [((7, 1), 5); ((9, 1), 1); ((1, 13), 7)]).
Proof. vm_compute. reflexivity. Qed.
Example c125_ex_hypotheses : eq_laws keq /\ (forall k, keq (kcl k) k = true) /\ consistent keq all_collide /\
  (exists x, 2 = 2 ^ x) /\ 1 <= usize_max Ec /\ Forall (CTSpec.op_ok keq Ec) c121_ops.
Proof.
  exact (conj keq_laws (conj kcl_eq (conj all_collide_ok (conj (ex_intro _ 1 eq_refl)
    (conj (proj1 (Nat.leb_le 1 255) eq_refl) c121_ops_ok))))).
Qed.

(** The table does not matter: counters on a table searched in groups give the same answers as
    counters on any table of C121 and as counters on groups of another width, whatever the hash
    functions and initial capacities are, and hold the same counts at the end. *)
Theorem c125_table_does_not_matter_for_counters : forall K (eqb : K -> K -> bool) cl E hash w cap t ops,
  eq_laws eqb -> (forall k, eqb (cl k) k = true) -> 1 <= usize_max E ->
  consistent eqb hash -> (exists x, w = 2 ^ x) -> gc_with_capacity hash w E cap = Ret t ->
  Forall (CTSpec.op_ok eqb E) ops -> Forall (blind eqb) ops ->
  (forall hash' P cap' t', consistent eqb hash' -> scheme_laws P -> tc_with_capacity hash' P E cap' = Ret t' ->
     Forall2 (CTSpec9.same_answer eqb) (snd (gc_run eqb cl hash w E ops t)) (snd (tc_run eqb cl hash' P E ops t')) /\
     forall k, g_get eqb hash w k (fst (gc_run eqb cl hash w E ops t)) = ht_get eqb hash' P k (fst (tc_run eqb cl hash' P E ops t'))) /\
  (forall hash' w' cap' t', consistent eqb hash' -> (exists x, w' = 2 ^ x) -> gc_with_capacity hash' w' E cap' = Ret t' ->
     Forall2 (CTSpec9.same_answer eqb) (snd (gc_run eqb cl hash w E ops t)) (snd (gc_run eqb cl hash' w' E ops t')) /\
     forall k, g_get eqb hash w k (fst (gc_run eqb cl hash w E ops t)) = g_get eqb hash' w' k (fst (gc_run eqb cl hash' w' E ops t'))).
Proof.
  intros K eqb cl E hash w cap t ops L CL U HH W2 C Ok Bl.
  pose proof (c125_counter_on_groups K eqb cl hash w E cap ops L CL HH W2 U Ok) as H. rewrite C in H.
  split; intros hash' P cap' t' HH' PL' C'.
  - pose proof (c121_any_hash_gives_a_counter K eqb cl hash' P E cap' ops L CL HH' PL' U Ok) as H'. rewrite C' in H'.
    destruct (history_det L Bl (f := empty) (g := empty) (fun _ => I) (proj2 H) (proj2 H')) as [T Li]. split; auto.
    intros k. specialize (Li k). cbn in Li. unfold ht_get, g_get, like_entry in *.
    destruct (g_entry_of eqb hash w k _) as [[a n]|], (ht_entry_of eqb hash' P k _) as [[b m]|]; cbn; try contradiction; auto.
    destruct Li. congruence.
  - pose proof (c125_counter_on_groups K eqb cl hash' P E cap' ops L CL HH' PL' U Ok) as H'. rewrite C' in H'.
    destruct (history_det L Bl (f := empty) (g := empty) (fun _ => I) (proj2 H) (proj2 H')) as [T Li]. split; auto.
    intros k. specialize (Li k). cbn in Li. unfold ht_get, g_get, like_entry in *.
    destruct (g_entry_of eqb hash w k _) as [[a n]|], (g_entry_of eqb hash' P k _) as [[b m]|]; cbn; try contradiction; auto.
    destruct Li. congruence.
Qed.
Print Assumptions c125_table_does_not_matter_for_counters.

(** sixteen bytes at a time and FNV; linear probing has another order of the entries *)
Example c125_ex_counters : snd (group_run by_fnv 16 0 c121_ops) = c125_answers [((7, 1), 5); ((9, 1), 1); ((1, 13), 7)] /\
  snd (counter_run by_fnv linear 1 c121_ops) = c125_answers [((9, 1), 1); ((1, 13), 7); ((7, 1), 5)] /\
  Forall (blind keq) c121_ops.
Proof. split; [vm_compute; reflexivity|]. split; [vm_compute; reflexivity|]. repeat (apply Forall_cons; [cbn; auto|]). apply Forall_nil. Qed.

(** ** Disjoint sets *)

(** A disjoint set on such a table keeps the partition generated by the pairs united. *)
Theorem c125_disjoint_set_on_groups : forall K (eqb : K -> K -> bool) hash w E cap ops,
  eq_laws eqb -> consistent eqb hash -> (exists x, w = 2 ^ x) -> ranks_fit E -> Forall (@DSSpec.op_ok K) ops ->
  match gd_with_capacity hash w E cap with
  | Ret s0 => cap <= alloc_max E /\ exists g,
      DSSpec.history eqb E ops (@empty_log K) g (snd (gd_run eqb hash w E ops s0)) /\
      (forall x, g_contains eqb hash w x (td_ids (fst (gd_run eqb hash w E ops s0))) = true <-> mem eqb x (added g)) /\
      (forall x y, gd_joined eqb hash w (fst (gd_run eqb hash w E ops s0)) x y <-> together eqb g x y)
  | Panic => alloc_max E < cap
  | _ => False
  end.
Proof.
  intros K eqb hash w E cap ops L HH PL RF Ok.
  pose proof (@Rg_with_capacity K nat eqb hash w E L PL cap) as X. unfold gd_with_capacity.
  destruct (g_with_capacity nat hash w E cap) as [t0| | | |]; try contradiction; cbn; auto.
  destruct X as [[O Q] B]. unfold vec_reserve. cbn [length Nat.add] in *.
  rewrite (proj2 (Nat.leb_le _ _) B). cbn. split; auto.
  destruct (gd_run eqb hash w E ops (TDSet t0 [])) as [s tr] eqn:T. cbn [fst snd].
  apply Permutation_sym, Permutation_nil in Q.
  assert (I0 : img (TDSet t0 []) = ds_new K) by (unfold img; cbn [td_ids td_data]; now rewrite Q).
  assert (V : DSProofs2.valid eqb E (img (TDSet t0 []))) by (rewrite I0; apply DSProofs2.new_valid).
  assert (Sh : shows eqb (img (TDSet t0 [])) (@empty_log K)) by (rewrite I0; apply new_shows).
  destruct (gd_history (s := TDSet t0 []) L HH PL RF O V Sh Ok T) as (O' & V' & g & S' & H). exists g. split; auto. split.
  - intros x. now apply gd_contains.
  - intros x y. rewrite (gd_joined_joined L HH s x y O'). exact (joined_together L x y V' S').
Qed.
Print Assumptions c125_disjoint_set_on_groups.

(** the run on a new disjoint set, if there is one *)
Definition group_set_run (hash : key -> N) (w cap : nat) (ops : list (DSSpec.op key)) :=
  match gd_with_capacity hash w Ed cap with Ret t => snd (gd_run keq hash w Ed ops t) | _ => [] end.
Example c125_ex_set : group_set_run by_fnv 8 0 c121_set_ops =
  c121_answers [[(3, 1)]; [(6, 6)]; [(4, 1)]; [(5, 1); (1, 1); (2, 1)]] /\
  eq_laws keq /\ consistent keq by_fnv /\ (exists x, 8 = 2 ^ x) /\ ranks_fit Ed /\ Forall (@DSSpec.op_ok key) c121_set_ops.
Proof.
  split; [vm_compute; reflexivity|].
  exact (conj keq_laws (conj by_fnv_ok (conj (ex_intro _ 3 eq_refl) (conj Ed_fit c121_set_ops_ok)))).
Qed.

(** two ways of running calls that both keep a log *)
Lemma logs_agree {K} (eqb : K -> K -> bool) (L : eq_laws eqb) E {S1 S2} (inv1 : S1 -> log K -> Prop) (inv2 : S2 -> log K -> Prop)
  (step1 : DSSpec.op K -> S1 -> S1 * outcome (DSSpec.out K)) (step2 : DSSpec.op K -> S2 -> S2 * outcome (DSSpec.out K))
  (run1 : list (DSSpec.op K) -> S1 -> S1 * list (outcome (DSSpec.out K)))
  (run2 : list (DSSpec.op K) -> S2 -> S2 * list (outcome (DSSpec.out K))) :
  (forall s, run1 [] s = (s, [])) -> (forall s, run2 [] s = (s, [])) ->
  (forall o ops s, run1 (o :: ops) s = (fst (run1 ops (fst (step1 o s))), snd (step1 o s) :: snd (run1 ops (fst (step1 o s))))) ->
  (forall o ops s, run2 (o :: ops) s = (fst (run2 ops (fst (step2 o s))), snd (step2 o s) :: snd (run2 ops (fst (step2 o s))))) ->
  (forall s g, inv1 s g -> DSProofs2.log_ok eqb g) -> (forall s g, inv2 s g -> DSProofs2.log_ok eqb g) ->
  (forall o s g, inv1 s g -> DSSpec.op_ok o -> exists g', inv1 (fst (step1 o s)) g' /\ DSSpec.allowed eqb E o g g' (snd (step1 o s))) ->
  (forall o s g, inv2 s g -> DSSpec.op_ok o -> exists g', inv2 (fst (step2 o s)) g' /\ DSSpec.allowed eqb E o g g' (snd (step2 o s))) ->
  forall ops, Forall (@DSSpec.op_ok K) ops -> forall s1 s2 g h, inv1 s1 g -> inv2 s2 h -> alike eqb g h ->
  Forall2 (DSSpec3.same_answer eqb) (snd (run1 ops s1)) (snd (run2 ops s2)) /\
  exists g' h', inv1 (fst (run1 ops s1)) g' /\ inv2 (fst (run2 ops s2)) h' /\ alike eqb g' h'.
Proof.
  intros N1 N2 R1 R2 L1 L2 H1 H2 ops Ok. induction Ok as [|o ops O Ok IH]; intros s1 s2 g h I1 I2 A.
  - rewrite N1, N2. cbn. split; [constructor|eauto].
  - rewrite R1, R2. destruct (H1 o s1 g I1 O) as (g' & I1' & A1). destruct (H2 o s2 h I2 O) as (h' & I2' & A2).
    destruct (DSProps11.allowed_det eqb L E o g h g' h' _ _ (L1 _ _ I1) (L2 _ _ I2) A A1 A2) as [SA AL].
    destruct (IH _ _ _ _ I1' I2' AL) as [F J]. cbn. split; auto.
Qed.

Definition t_inv {K} (eqb : K -> K -> bool) hash P E (s : tdset K) (g : log K) : Prop :=
  ok eqb hash P (td_ids s) /\ DSProofs2.valid eqb E (img s) /\ shows eqb (img s) g.
Definition g_inv {K} (eqb : K -> K -> bool) hash w E (s : tdset K) (g : log K) : Prop :=
  GTProofs2.gok eqb hash w (td_ids s) /\ DSProofs2.valid eqb E (img s) /\ shows eqb (img s) g.

Lemma t_new {K} (eqb : K -> K -> bool) hash P E cap s : eq_laws eqb -> scheme_laws P -> td_with_capacity hash P E cap = Ret s ->
  t_inv eqb hash P E s (@empty_log K).
Proof.
  intros L PL C. unfold td_with_capacity in C. pose proof (@Rm_with_capacity K nat eqb hash P E L PL cap) as R.
  destruct (ht_with_capacity nat hash P E cap) as [t0| | | |]; try discriminate. cbn in C. unfold vec_reserve in C.
  destruct (length [] + cap <=? alloc_max E); [|discriminate]. injection C as <-. destruct R as [[O Q] _].
  apply Permutation_sym, Permutation_nil in Q. split; auto.
  assert (I0 : img (TDSet t0 []) = ds_new K) by (unfold img; cbn [td_ids td_data]; now rewrite Q).
  rewrite I0. split; [apply DSProofs2.new_valid|apply new_shows].
Qed.

Lemma g_new {K} (eqb : K -> K -> bool) hash w E cap s : eq_laws eqb -> (exists x, w = 2 ^ x) -> gd_with_capacity hash w E cap = Ret s ->
  g_inv eqb hash w E s (@empty_log K).
Proof.
  intros L PL C. unfold gd_with_capacity in C. pose proof (@Rg_with_capacity K nat eqb hash w E L PL cap) as R.
  destruct (g_with_capacity nat hash w E cap) as [t0| | | |]; try discriminate. cbn in C. unfold vec_reserve in C.
  destruct (length [] + cap <=? alloc_max E); [|discriminate]. injection C as <-. destruct R as [[O Q] _].
  apply Permutation_sym, Permutation_nil in Q. split; auto.
  assert (I0 : img (TDSet t0 []) = ds_new K) by (unfold img; cbn [td_ids td_data]; now rewrite Q).
  rewrite I0. split; [apply DSProofs2.new_valid|apply new_shows].
Qed.

Lemma t_next {K} (eqb : K -> K -> bool) hash P E o s g : eq_laws eqb -> consistent eqb hash -> scheme_laws P -> ranks_fit E ->
  t_inv eqb hash P E s g -> DSSpec.op_ok o ->
  exists g', t_inv eqb hash P E (fst (@td_step K eqb hash P E o s)) g' /\ DSSpec.allowed eqb E o g g' (snd (td_step eqb hash P E o s)).
Proof.
  intros L HH PL RF (O & V & Sh) Ok. destruct (td_step eqb hash P E o s) as [s1 r] eqn:Q.
  destruct (td_step_ok L HH PL RF o O V Sh Ok Q) as (Oa & Va & ga & Sa & Aa). exists ga. split; auto. split; auto.
Qed.

Lemma g_next {K} (eqb : K -> K -> bool) hash w E o s g : eq_laws eqb -> consistent eqb hash -> (exists x, w = 2 ^ x) -> ranks_fit E ->
  g_inv eqb hash w E s g -> DSSpec.op_ok o ->
  exists g', g_inv eqb hash w E (fst (@gd_step K eqb hash w E o s)) g' /\ DSSpec.allowed eqb E o g g' (snd (gd_step eqb hash w E o s)).
Proof.
  intros L HH PL RF (O & V & Sh) Ok. destruct (gd_step eqb hash w E o s) as [s1 r] eqn:Q.
  destruct (gd_step_ok L HH PL RF o O V Sh Ok Q) as (Oa & Va & ga & Sa & Aa). exists ga. split; auto. split; auto.
Qed.

Lemma t_cons {K} (eqb : K -> K -> bool) hash P E o ops s : td_run eqb hash P E (o :: ops) s =
  (fst (td_run eqb hash P E ops (fst (@td_step K eqb hash P E o s))),
   snd (td_step eqb hash P E o s) :: snd (td_run eqb hash P E ops (fst (td_step eqb hash P E o s)))).
Proof. cbn [td_run]. destruct (td_step eqb hash P E o s) as [s1 r]. cbn. now destruct (td_run eqb hash P E ops s1). Qed.

Lemma g_cons {K} (eqb : K -> K -> bool) hash w E o ops s : gd_run eqb hash w E (o :: ops) s =
  (fst (gd_run eqb hash w E ops (fst (@gd_step K eqb hash w E o s))),
   snd (gd_step eqb hash w E o s) :: snd (gd_run eqb hash w E ops (fst (gd_step eqb hash w E o s)))).
Proof. cbn [gd_run]. destruct (gd_step eqb hash w E o s) as [s1 r]. cbn. now destruct (gd_run eqb hash w E ops s1). Qed.

(** The table does not matter for disjoint sets either. *)
Theorem c125_table_does_not_matter_for_disjoint_sets : forall K (eqb : K -> K -> bool) E hash w cap s ops,
  eq_laws eqb -> ranks_fit E -> consistent eqb hash -> (exists x, w = 2 ^ x) -> gd_with_capacity hash w E cap = Ret s ->
  Forall (@DSSpec.op_ok K) ops ->
  (forall hash' P cap' s', consistent eqb hash' -> scheme_laws P -> td_with_capacity hash' P E cap' = Ret s' ->
     Forall2 (DSSpec3.same_answer eqb) (snd (gd_run eqb hash w E ops s)) (snd (td_run eqb hash' P E ops s')) /\
     forall x y, gd_joined eqb hash w (fst (gd_run eqb hash w E ops s)) x y <-> td_joined eqb hash' P (fst (td_run eqb hash' P E ops s')) x y) /\
  (forall hash' w' cap' s', consistent eqb hash' -> (exists x, w' = 2 ^ x) -> gd_with_capacity hash' w' E cap' = Ret s' ->
     Forall2 (DSSpec3.same_answer eqb) (snd (gd_run eqb hash w E ops s)) (snd (gd_run eqb hash' w' E ops s')) /\
     forall x y, gd_joined eqb hash w (fst (gd_run eqb hash w E ops s)) x y <->
                 gd_joined eqb hash' w' (fst (gd_run eqb hash' w' E ops s')) x y).
Proof.
  intros K eqb E hash w cap s ops L RF HH W2 C Ok. pose proof (g_new eqb hash w E cap s L W2 C) as G0.
  assert (A : alike eqb (@empty_log K) (@empty_log K)) by (split; reflexivity).
  split; intros hash' P cap' s' HH' PL' C'.
  - pose proof (t_new eqb hash' P E cap' s' L PL' C') as T0.
    destruct (logs_agree eqb L E (g_inv eqb hash w E) (t_inv eqb hash' P E) (gd_step eqb hash w E) (td_step eqb hash' P E)
      (gd_run eqb hash w E) (td_run eqb hash' P E) (fun _ => eq_refl) (fun _ => eq_refl) (g_cons eqb hash w E) (t_cons eqb hash' P E)
      (fun s g I => proj1 (proj2 (proj2 (proj2 I)))) (fun s g I => proj1 (proj2 (proj2 (proj2 I))))
      (fun o s g => g_next eqb hash w E o s g L HH W2 RF) (fun o s g => t_next eqb hash' P E o s g L HH' PL' RF)
      ops Ok s s' _ _ G0 T0 A) as [F (g & h & (Ga & Gb & Gc) & (Ta & Tb & Tc) & Al)].
    split; auto. intros x y. rewrite (gd_joined_joined L HH _ x y Ga), (td_joined_joined L HH' PL' _ x y Ta).
    rewrite (joined_together L x y Gb Gc), (joined_together L x y Tb Tc). apply Al.
  - pose proof (g_new eqb hash' P E cap' s' L PL' C') as T0.
    destruct (logs_agree eqb L E (g_inv eqb hash w E) (g_inv eqb hash' P E) (gd_step eqb hash w E) (gd_step eqb hash' P E)
      (gd_run eqb hash w E) (gd_run eqb hash' P E) (fun _ => eq_refl) (fun _ => eq_refl) (g_cons eqb hash w E) (g_cons eqb hash' P E)
      (fun s g I => proj1 (proj2 (proj2 (proj2 I)))) (fun s g I => proj1 (proj2 (proj2 (proj2 I))))
      (fun o s g => g_next eqb hash w E o s g L HH W2 RF) (fun o s g => g_next eqb hash' P E o s g L HH' PL' RF)
      ops Ok s s' _ _ G0 T0 A) as [F (g & h & (Ga & Gb & Gc) & (Ta & Tb & Tc) & Al)].
    split; auto. intros x y. rewrite (gd_joined_joined L HH _ x y Ga), (gd_joined_joined L HH' _ x y Ta).
    rewrite (joined_together L x y Gb Gc), (joined_together L x y Tb Tc). apply Al.
Qed.
Print Assumptions c125_table_does_not_matter_for_disjoint_sets.

Example c125_ex_sets : group_set_run all_collide 4 3 c121_set_ops =
  c121_answers [[(6, 6)]; [(4, 1)]; [(1, 1); (5, 1); (2, 1)]; [(3, 1)]] /\
  consistent keq all_collide /\ (exists x, 4 = 2 ^ x).
Proof. split; [vm_compute; reflexivity|]. exact (conj all_collide_ok (ex_intro _ 2 eq_refl)). Qed.
