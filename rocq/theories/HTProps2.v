(** Property theorems C122: what lookups in hash tables cost.  Theorems of C121
    on counters with different hash functions. *)
From Coq Require Import Permutation NArith.
From Verif Require Import Base HMModel HMProofs HTModel HTModel2 HTProofs HTRun HTProofs2 HTProofs3 HTProps CTModel CTSpec CTSpec9
  CTRun CTProofs2 CTProps CTProps10 DSModel DSSpec DSRun DSProofs2 DSProofs3 DSProps.
Local Open Scope outcome_scope.

(** ** Tables a program can hold *)
Lemma tc_reached {K} (eqb : K -> K -> bool) cl hash P E cap ops t0 :
  eq_laws eqb -> (forall k, eqb (cl k) k = true) -> consistent eqb hash -> scheme_laws P -> 1 <= usize_max E ->
  Forall (CTSpec.op_ok eqb E) ops -> tc_with_capacity hash P E cap = Ret t0 ->
  let t := fst (tc_run eqb cl hash P E ops t0) in ok eqb hash P t /\ ct_valid eqb E (cimg t).
Proof.
  intros L CL HH PL U Ok W t. subst t. unfold tc_with_capacity in W.
  pose proof (@Rm_with_capacity K nat eqb hash P E L PL cap) as R. rewrite W in R. destruct R as [[O Q] _].
  apply Permutation_sym, Permutation_nil in Q.
  assert (V : ct_valid eqb E (cimg t0)).
  { unfold cimg. rewrite Q. split; [split; constructor|]. apply Nat.le_0_l. }
  destruct (tc_run eqb cl hash P E ops t0) as [t tr] eqn:T.
  destruct (tc_history cl L HH PL CL U O V Ok T) as (O' & V' & _). auto.
Qed.

Lemma new_ok {K} (eqb : K -> K -> bool) hash P E cap t0 : eq_laws eqb -> scheme_laws P ->
  @tc_with_capacity K hash P E cap = Ret t0 -> ok eqb hash P t0 /\ ht_entries t0 = [].
Proof.
  intros L PL W. unfold tc_with_capacity in W. pose proof (@Rm_with_capacity K nat eqb hash P E L PL cap) as R.
  rewrite W in R. destruct R as [[O Q] _]. apply Permutation_sym, Permutation_nil in Q. auto.
Qed.

Lemma new_set_ok {K} (eqb : K -> K -> bool) hash P E cap s0 : eq_laws eqb -> scheme_laws P ->
  @td_with_capacity K hash P E cap = Ret s0 -> ok eqb hash P (td_ids s0) /\ ht_entries (td_ids s0) = [].
Proof.
  intros L PL W. unfold td_with_capacity in W. pose proof (@Rm_with_capacity K nat eqb hash P E L PL cap) as R.
  destruct (ht_with_capacity nat hash P E cap) as [t| | | |]; cbn [obind] in W; try discriminate W.
  destruct (vec_reserve E cap _); cbn [obind] in W; try discriminate W. injection W as <-. cbn [td_ids].
  destruct R as [[O Q] _]. apply Permutation_sym, Permutation_nil in Q. auto.
Qed.

(** ** C122 *)

(** A lookup in a counter compares the key with each stored key at most once; it stops at the
    key it finds; if the key is absent it is compared with every stored key that has its hash
    value. *)
Theorem c122_lookup_compares : forall K (eqb : K -> K -> bool) cl hash P E cap ops t0 k,
  eq_laws eqb -> (forall k, eqb (cl k) k = true) -> consistent eqb hash -> scheme_laws P -> 1 <= usize_max E ->
  Forall (CTSpec.op_ok eqb E) ops -> tc_with_capacity hash P E cap = Ret t0 ->
  let t := fst (tc_run eqb cl hash P E ops t0) in
  let same k' := N.eqb (hash k') (hash k) in
  (exists rest, Permutation (ht_asks eqb hash P k t ++ rest) (map fst (ht_entries t))) /\
  (forall k' n, ht_entry_of eqb hash P k t = Some (k', n) ->
   exists before, ht_asks eqb hash P k t = before ++ [k'] /\ Forall (fun x => eqb k x = false) before) /\
  (ht_get eqb hash P k t = None ->
   Permutation (filter same (ht_asks eqb hash P k t)) (filter same (map fst (ht_entries t)))).
Proof.
  intros K eqb cl hash P E cap ops t0 k L CL HH PL U Ok W t same.
  destruct (tc_reached eqb cl hash P E cap ops t0 L CL HH PL U Ok W) as [O _]. fold t in O. split; [|split].
  - now apply asks_sub.
  - intros k' n. apply asks_found.
  - intros G. apply (asks_same PL); auto. rewrite <- (entry_of_entries L HH PL k O).
    unfold ht_get in G. now destruct (ht_entry_of eqb hash P k t).
Qed.
Print Assumptions c122_lookup_compares.

(** a lookup that finds its key at once, and one of an absent key in a table where all collide *)
Example c122_ex : ht_asks keq by_fnv linear (9, 0) (fst (counter_run by_fnv linear 1 c121_ops)) = [(9, 1)] /\
  ht_asks keq all_collide tight (8, 0) (fst (counter_run all_collide tight 0 c121_ops)) = [(7, 1); (9, 1); (1, 13)] /\
  ht_get keq all_collide tight (8, 0) (fst (counter_run all_collide tight 0 c121_ops)) = None.
Proof. vm_compute. auto. Qed.

Section Cost.
Variables K V St : Type.
Variable eqb : K -> K -> bool.
Variable hash : K -> N.
Variable P : scheme.
Hypothesis L : eq_laws eqb.
Hypothesis HH : consistent eqb hash.
Hypothesis PL : scheme_laws P.
(** the table of a state, a step that looks one key up, and the cost of a list of steps *)
Variable tbl : St -> table K V.
Variable step : K -> St -> St.
Variable cost : list K -> St -> nat.
Hypothesis cost_nil : forall s, cost [] s = 0.
Hypothesis cost_cons : forall x r s, cost (x :: r) s = length (ht_asks eqb hash P x (tbl s)) + cost r (step x s).
Hypothesis step_ok : forall x s, ok eqb hash P (tbl s) ->
  ok eqb hash P (tbl (step x s)) /\ ht_len (tbl (step x s)) <= S (ht_len (tbl s)).

Lemma cost_le xs s : ok eqb hash P (tbl s) ->
  2 * cost xs s + length xs <= length xs * (2 * ht_len (tbl s) + length xs).
Proof.
  revert s. induction xs as [|x xs IH]; intros s O; [rewrite cost_nil; cbn; lia|]. rewrite cost_cons. cbn [length].
  pose proof (asks_le eqb hash PL x (tbl s)) as A. destruct (step_ok x s O) as [O' Le].
  specialize (IH _ O'). nia.
Qed.

Variable fits : nat -> St -> Prop.
Hypothesis step_new : forall x n s, ok eqb hash P (tbl s) -> hm_entry_of eqb x (ht_entries (tbl s)) = None ->
  fits (S n) s -> fits n (step x s) /\ exists v, Permutation ((x, v) :: ht_entries (tbl s)) (ht_entries (tbl (step x s))).

Lemma cost_colliding xs s h : ok eqb hash P (tbl s) ->
  (forall x, In x xs \/ In x (map fst (ht_entries (tbl s))) -> hash x = h) ->
  distinct eqb xs -> (forall x, In x xs -> hm_entry_of eqb x (ht_entries (tbl s)) = None) ->
  fits (length xs) s ->
  2 * cost xs s + length xs = length xs * (2 * ht_len (tbl s) + length xs).
Proof.
  revert s. induction xs as [|x xs IH]; intros s O Hh D Ab Le; [rewrite cost_nil; cbn; lia|].
  rewrite cost_cons. cbn [length] in *.
  inversion D as [|? ? F D2]; subst. rewrite Forall_forall in F.
  destruct (step_new x (length xs) s O (Ab x (or_introl eq_refl)) Le) as (Le2 & v & Pe).
  assert (A : length (ht_asks eqb hash P x (tbl s)) = ht_len (tbl s)).
  { pose proof (asks_same PL x O (Ab x (or_introl eq_refl))) as Q.
    assert (ALL : forall l, (forall y, In y l -> In y (map fst (ht_entries (tbl s)))) -> filter (fun k' => N.eqb (hash k') (hash x)) l = l).
    { induction l as [|y l IHl]; cbn; intros H; auto. rewrite (proj2 (N.eqb_eq (hash y) (hash x))).
      2: { now rewrite (Hh y (or_intror (H y (or_introl eq_refl)))), (Hh x (or_introl (or_introl eq_refl))). } f_equal. apply IHl. intros z Z. apply H. now right. }
    destruct (asks_sub eqb hash PL x (tbl s)) as [rest Su].
    rewrite !ALL in Q; auto.
    - apply Permutation_length in Q. now rewrite map_length in Q.
    - intros y Hy. eapply Permutation_in; [exact Su|]. apply in_or_app. auto. }
  destruct (step_ok x s O) as [O' _].
  assert (Le' : ht_len (tbl (step x s)) = S (ht_len (tbl s))).
  { unfold ht_len. now rewrite <- (Permutation_length Pe). }
  rewrite A. specialize (IH _ O'). rewrite Le' in IH.
  assert (G : 2 * cost xs (step x s) + length xs = length xs * (2 * S (ht_len (tbl s)) + length xs)); [|nia].
  apply IH; auto.
  - intros y [Y|Y]; [apply Hh; cbn; auto|]. apply (Permutation_in y (Permutation_sym (Permutation_map fst Pe))) in Y.
    cbn in Y. apply Hh. destruct Y as [->|Y]; cbn; auto.
  - intros y Y. apply entry_of_none. intros e I. apply (Permutation_in _ (Permutation_sym Pe)) in I. destruct I as [<-|I]; cbn [fst].
    + rewrite (eqb_sym L). now apply F.
    + specialize (Ab y (or_intror Y)). rewrite entry_of_none in Ab. eauto.
Qed.
End Cost.

Section Steps.
Variable K : Type.
Variable eqb : K -> K -> bool.
Variable hash : K -> N.
Variable P : scheme.
Variable E : machine.
Hypothesis L : eq_laws eqb.
Hypothesis HH : consistent eqb hash.
Hypothesis PL : scheme_laws P.

Lemma push_step x t : ok eqb hash P t -> let t' := fst (tc_push eqb hash P E x t) in
  ok eqb hash P t' /\ ht_len t' <= S (ht_len t).
Proof.
  intros O. destruct (tc_push eqb hash P E x t) as [t' o] eqn:Q. cbn [fst].
  assert (R : Rc eqb hash P t (Counter (ht_entries t))) by (split; auto).
  destruct (sim_bump E L HH PL _ _ R Q) as (c' & B & R'). split; [apply R'|].
  destruct R' as [_ Pe]. unfold ht_len. rewrite (Permutation_length Pe). revert B. unfold ct_bump. cbn [ct_map].
  destruct (hm_entry eqb E x (ht_entries t)) as [[old|]| | | |]; [destruct (uadd E old 1)|destruct (uadd E 0 1)|..];
    intros [= <- _]; cbn [ct_map hm_insert_vacant length]; rewrite ?length_set; auto.
Qed.

Lemma push_new x n t : 1 <= usize_max E -> ok eqb hash P t -> hm_entry_of eqb x (ht_entries t) = None ->
  S n + ht_len t <= alloc_max E -> n + ht_len (fst (tc_push eqb hash P E x t)) <= alloc_max E /\
  exists v, Permutation ((x, v) :: ht_entries t) (ht_entries (fst (tc_push eqb hash P E x t))).
Proof.
  intros U O Ab Le. destruct (push_step x t O) as [_ Le2]. split; [lia|]. exists 1.
  destruct (tc_push eqb hash P E x t) as [t' o] eqn:Q. cbn [fst] in *.
  assert (R : Rc eqb hash P t (Counter (ht_entries t))) by (split; auto).
  destruct (sim_bump E L HH PL _ _ R Q) as (c' & B & R'). revert B. unfold ct_bump, hm_entry, hm_get. cbn [ct_map].
  rewrite Ab. cbn [option_map obind]. unfold hm_reserve. fold (ht_len t).
  destruct (Nat.leb_spec (ht_len t + 1) (alloc_max E)); [cbn [obind]|lia].
  unfold uadd. cbn [Nat.add]. destruct (Nat.leb_spec 1 (usize_max E)); [|lia]. intros [= <- _].
  apply Permutation_sym, R'.
Qed.

Lemma make_step x s : ok eqb hash P (td_ids s) -> let s' := fst (td_make_set eqb hash P E x s) in
  ok eqb hash P (td_ids s') /\ ht_len (td_ids s') <= S (ht_len (td_ids s)).
Proof.
  intros O. destruct (td_make_set eqb hash P E x s) as [s' o] eqn:Q. cbn [fst].
  assert (R : Rd eqb hash P s (DSet (ht_entries (td_ids s)) (td_data s))) by (split; split; auto).
  destruct (sim_make_set E L HH PL _ R Q) as (c' & B & R'). split; [apply R'|].
  destruct R' as [[_ Pe] _]. unfold ht_len. rewrite (Permutation_length Pe). revert B. unfold ds_make_set, ds_make_or_get.
  cbn [ds_ids ds_data].
  destruct (hm_entry eqb E x (ht_entries (td_ids s))) as [[old|]| | | |]; [|destruct (vec_push E (td_data s) _)|..];
    intros [= <- _]; cbn [ds_ids hm_insert_vacant length]; auto.
Qed.

Lemma make_new x n s : ok eqb hash P (td_ids s) -> hm_entry_of eqb x (ht_entries (td_ids s)) = None ->
  S n + ht_len (td_ids s) <= alloc_max E -> n + ht_len (td_ids (fst (td_make_set eqb hash P E x s))) <= alloc_max E /\
  exists v, Permutation ((x, v) :: ht_entries (td_ids s)) (ht_entries (td_ids (fst (td_make_set eqb hash P E x s)))).
Proof.
  intros O Ab Le. destruct (make_step x s O) as [_ Le2]. split; [lia|]. exists (ht_len (td_ids s)).
  destruct (td_make_set eqb hash P E x s) as [s' o] eqn:Q. cbn [fst] in *.
  assert (R : Rd eqb hash P s (DSet (ht_entries (td_ids s)) (td_data s))) by (split; split; auto).
  destruct (sim_make_set E L HH PL _ R Q) as (c' & B & R'). revert B. unfold ds_make_set, ds_make_or_get, hm_entry, hm_get.
  cbn [ds_ids ds_data]. rewrite Ab. cbn [option_map obind]. unfold hm_reserve. fold (ht_len (td_ids s)).
  destruct (Nat.leb_spec (ht_len (td_ids s) + 1) (alloc_max E)); [cbn [obind]|lia].
  destruct (vec_push E (td_data s) _); intros [= <- _]; apply Permutation_sym, R'.
Qed.
End Steps.

(** Counting [n] values compares keys at most [n (n - 1) / 2] times, whatever the hash function:
    growing and rehashing compare none. *)
Theorem c122_counting_costs_at_most : forall K (eqb : K -> K -> bool) hash P E cap t0 xs,
  eq_laws eqb -> consistent eqb hash -> scheme_laws P -> tc_with_capacity hash P E cap = Ret t0 ->
  2 * tc_pushes_cost eqb hash P E xs t0 <= length xs * (length xs - 1).
Proof.
  intros K eqb hash P E cap t0 xs L HH PL W. destruct (new_ok eqb hash P E cap t0 L PL W) as [O Q].
  pose proof (cost_le K nat _ eqb hash P PL (fun t => t) (fun x t => fst (tc_push eqb hash P E x t)) (tc_pushes_cost eqb hash P E)
    (fun _ => eq_refl) (fun _ _ _ => eq_refl) (push_step K eqb hash P E L HH PL) xs t0 O) as C. unfold ht_len in C. rewrite Q in C. cbn [length] in C. nia.
Qed.
Print Assumptions c122_counting_costs_at_most.

(** This is reached by different values of one hash value, in every table: a hash function whose
    collisions can be found lets others choose keys for which counting takes quadratic time. *)
Theorem c122_colliding_keys_cost : forall K (eqb : K -> K -> bool) hash P E cap t0 xs h,
  eq_laws eqb -> consistent eqb hash -> scheme_laws P -> 1 <= usize_max E -> tc_with_capacity hash P E cap = Ret t0 ->
  distinct eqb xs -> (forall x, In x xs -> hash x = h) -> length xs <= alloc_max E ->
  2 * tc_pushes_cost eqb hash P E xs t0 = length xs * (length xs - 1).
Proof.
  intros K eqb hash P E cap t0 xs h L HH PL U W D Hh Le. destruct (new_ok eqb hash P E cap t0 L PL W) as [O Q].
  pose proof (cost_colliding K nat _ eqb hash P L PL (fun t => t) (fun x t => fst (tc_push eqb hash P E x t)) (tc_pushes_cost eqb hash P E)
    (fun _ => eq_refl) (fun _ _ _ => eq_refl) (push_step K eqb hash P E L HH PL) (fun n t => n + ht_len t <= alloc_max E)
    (fun x n t => push_new K eqb hash P E L HH PL x n t U) xs t0 h O) as C. unfold ht_len in C. rewrite Q in C. cbn [length] in C.
  assert (X : 2 * tc_pushes_cost eqb hash P E xs t0 + length xs = length xs * (2 * 0 + length xs)); [|nia].
  apply C; auto; [|lia]. intros x [I|[]]. auto.
Qed.
Print Assumptions c122_colliding_keys_cost.

(** ten keys: few comparisons with FNV and spare slots, all with a constant hash or without
    spare slots *)
Definition ten : list key := map (fun n => (n, n)) (seq 0 10).
(** the cost on a new counter *)
Definition pushes_cost (hash : key -> N) (P : scheme) (xs : list key) : nat :=
  match tc_with_capacity hash P Ec 0 with Ret t => tc_pushes_cost keq hash P Ec xs t | _ => 0 end.
Example c122_ex_cost : pushes_cost by_fnv linear ten = 8 /\ pushes_cost by_fnv tight ten = 45 /\
  pushes_cost all_collide linear ten = 45 /\ pushes_cost all_collide tight ten = 45 /\
  distinct keq ten /\ length ten <= alloc_max Ec.
Proof.
  split; [vm_compute; reflexivity|]. split; [vm_compute; reflexivity|]. split; [vm_compute; reflexivity|].
  split; [vm_compute; reflexivity|]. split; [repeat constructor|apply Nat.leb_le; reflexivity].
Qed.

(** The same for making the elements of a disjoint set. *)
Theorem c122_making_sets_costs_at_most : forall K (eqb : K -> K -> bool) hash P E cap s0 xs,
  eq_laws eqb -> consistent eqb hash -> scheme_laws P -> td_with_capacity hash P E cap = Ret s0 ->
  2 * td_makes_cost eqb hash P E xs s0 <= length xs * (length xs - 1).
Proof.
  intros K eqb hash P E cap s0 xs L HH PL W. destruct (new_set_ok eqb hash P E cap s0 L PL W) as [O Q].
  pose proof (cost_le K nat _ eqb hash P PL (@td_ids K) (fun x t => fst (td_make_set eqb hash P E x t)) (td_makes_cost eqb hash P E)
    (fun _ => eq_refl) (fun _ _ _ => eq_refl) (make_step K eqb hash P E L HH PL) xs s0 O) as C.
  unfold ht_len in C. rewrite Q in C. cbn [length] in C. nia.
Qed.
Print Assumptions c122_making_sets_costs_at_most.

Theorem c122_colliding_elements_cost : forall K (eqb : K -> K -> bool) hash P E cap s0 xs h,
  eq_laws eqb -> consistent eqb hash -> scheme_laws P -> td_with_capacity hash P E cap = Ret s0 ->
  distinct eqb xs -> (forall x, In x xs -> hash x = h) -> length xs <= alloc_max E ->
  2 * td_makes_cost eqb hash P E xs s0 = length xs * (length xs - 1).
Proof.
  intros K eqb hash P E cap s0 xs h L HH PL W D Hh Le. destruct (new_set_ok eqb hash P E cap s0 L PL W) as [O Q].
  pose proof (cost_colliding K nat _ eqb hash P L PL (@td_ids K) (fun x t => fst (td_make_set eqb hash P E x t)) (td_makes_cost eqb hash P E)
    (fun _ => eq_refl) (fun _ _ _ => eq_refl) (make_step K eqb hash P E L HH PL) (fun n t => n + ht_len (td_ids t) <= alloc_max E)
    (make_new K eqb hash P E L HH PL) xs s0 h O) as C.
  unfold ht_len in C. rewrite Q in C. cbn [length] in C.
  assert (X : 2 * td_makes_cost eqb hash P E xs s0 + length xs = length xs * (2 * 0 + length xs)); [|nia].
  apply C; auto; [|lia]. intros x [I|[]]. auto.
Qed.
Print Assumptions c122_colliding_elements_cost.

Example c122_ex_sets :
  match td_with_capacity by_fnv linear Ec 3, td_with_capacity all_collide tight Ec 0 with
  | Ret s, Ret s' => td_makes_cost keq by_fnv linear Ec ten s = 4 /\ td_makes_cost keq all_collide tight Ec ten s' = 45 /\
                     length ten <= alloc_max Ec
  | _, _ => False
  end.
Proof. vm_compute. repeat split. apply Nat.leb_le. reflexivity. Qed.

(** ** C121: counters with hash functions of their own *)

Lemma tc_eq_entries {K} (eqb : K -> K -> bool) hash P t t' : eq_laws eqb -> consistent eqb hash -> scheme_laws P ->
  ok eqb hash P t' -> tc_eq eqb hash P t t' = ct_eq eqb (cimg t) (cimg t').
Proof.
  intros L HH PL O. assert (R : Rm eqb hash P t' (ht_entries t')) by (split; auto).
  unfold tc_eq, ct_eq, hm_eq, cimg, ht_len. cbn [ct_map]. f_equal. induction (ht_entries t) as [|e l IH]; cbn [forallb]; auto.
  now rewrite IH, (Rm_get L HH PL (fst e) R).
Qed.
Arguments tc_eq_entries {K eqb hash P} t {t'}.

Lemma clone_entries {K} (cl : K -> K) t : ht_entries (tc_clone cl t) = map (fun e => (cl (fst e), snd e)) (ht_entries t).
Proof. unfold ht_entries, tc_clone. induction t as [|[| |k n] t IH]; cbn in *; auto. now rewrite IH. Qed.

Lemma clone_ok {K} (eqb : K -> K -> bool) hash P cl t : eq_laws eqb -> consistent eqb hash -> (forall k, eqb (cl k) k = true) ->
  ok eqb hash P t -> ok eqb hash P (tc_clone cl t).
Proof.
  intros L HH CL [Wf Pa]. split.
  - rewrite clone_entries. clear Pa. unfold hm_wf in *. induction Wf as [|e l F W IH]; cbn; constructor; auto.
    apply Forall_map. eapply Forall_impl; [|exact F]. cbn. intros e' N.
    destruct (eqb (cl (fst e)) (cl (fst e'))) eqn:Q; auto. rewrite <- N. symmetry.
    apply (eq_trans' L) with (cl (fst e)); [apply (eq_sym' L), CL|].
    apply (eq_trans' L) with (cl (fst e')); auto.
  - intros p k v. unfold tc_clone. rewrite nth_error_map, map_length.
    destruct (nth_error t p) as [[| |k0 n]|] eqn:F; cbn; try discriminate. intros [= <- <-].
    destruct (Pa _ _ _ F) as (i & Lt & Eq & Bef). exists i. rewrite (HH _ _ (CL k0)). split; auto. split; auto.
    intros j J. specialize (Bef j J). rewrite nth_error_map. intros F2. apply Bef.
    destruct (nth_error t (probe P (hash k0) (length t) j)) as [[| |]|]; cbn in F2; try discriminate F2; auto.
Qed.
Arguments clone_ok {K eqb hash P cl t}.

(** Two counters, each with its own hash function and placing of slots, are equal exactly if
    every key is found with the same count in both. *)
Theorem c121_equality_of_counters_with_different_hashes :
  forall K (eqb : K -> K -> bool) cl hash P hash' P' E cap cap' ops ops' t0 t0',
  eq_laws eqb -> (forall k, eqb (cl k) k = true) -> consistent eqb hash -> scheme_laws P ->
  consistent eqb hash' -> scheme_laws P' -> 1 <= usize_max E ->
  Forall (CTSpec.op_ok eqb E) ops -> Forall (CTSpec.op_ok eqb E) ops' ->
  tc_with_capacity hash P E cap = Ret t0 -> tc_with_capacity hash' P' E cap' = Ret t0' ->
  let t := fst (tc_run eqb cl hash P E ops t0) in
  let t' := fst (tc_run eqb cl hash' P' E ops' t0') in
  tc_eq eqb hash' P' t t' = true <-> forall k, ht_get eqb hash P k t = ht_get eqb hash' P' k t'.
Proof.
  intros K eqb cl hash P hash' P' E cap cap' ops ops' t0 t0' L CL HH PL HH' PL' U Ok Ok' W W' t t'.
  destruct (tc_reached eqb cl hash P E cap ops t0 L CL HH PL U Ok W) as [O V]. fold t in O, V.
  destruct (tc_reached eqb cl hash' P' E cap' ops' t0' L CL HH' PL' U Ok' W') as [O' V']. fold t' in O', V'.
  rewrite (tc_eq_entries t L HH' PL' O'). rewrite (CTProofs3.eq_iff L V V').
  assert (R : Rm eqb hash P t (ht_entries t)) by (split; auto).
  assert (R' : Rm eqb hash' P' t' (ht_entries t')) by (split; auto).
  split; intros H k.
  - rewrite (Rm_get L HH PL k R), (Rm_get L HH' PL' k R'). apply H.
  - specialize (H k). rewrite (Rm_get L HH PL k R), (Rm_get L HH' PL' k R') in H. exact H.
Qed.
Print Assumptions c121_equality_of_counters_with_different_hashes.

Example c121_ex_equality :
  tc_eq keq all_collide tight (fst (counter_run by_fnv linear 1 c121_ops)) (fst (counter_run all_collide tight 0 c121_ops)) = true /\
  tc_eq keq by_fnv linear (fst (counter_run all_collide tight 0 (c121_ops ++ [OPush (7, 8)]))) (fst (counter_run by_fnv linear 1 c121_ops)) = false.
Proof. vm_compute. auto. Qed.

(** A clone of a counter is equal to it and cannot be told apart from it afterwards. *)
Theorem c121_clone_cannot_be_told_apart : forall K (eqb : K -> K -> bool) cl hash P E cap ops later t0,
  eq_laws eqb -> (forall k, eqb (cl k) k = true) -> consistent eqb hash -> scheme_laws P -> 1 <= usize_max E ->
  Forall (CTSpec.op_ok eqb E) ops -> Forall (CTSpec.op_ok eqb E) later -> Forall (blind eqb) later ->
  tc_with_capacity hash P E cap = Ret t0 ->
  let t := fst (tc_run eqb cl hash P E ops t0) in
  let t' := tc_clone cl t in
  tc_eq eqb hash P t' t = true /\
  Forall2 (CTSpec9.same_answer eqb) (snd (tc_run eqb cl hash P E later t)) (snd (tc_run eqb cl hash P E later t')) /\
  forall k, ht_get eqb hash P k (fst (tc_run eqb cl hash P E later t)) = ht_get eqb hash P k (fst (tc_run eqb cl hash P E later t')).
Proof.
  intros K eqb cl hash P E cap ops later t0 L CL HH PL U Ok Ok2 Bl W t t'.
  destruct (tc_reached eqb cl hash P E cap ops t0 L CL HH PL U Ok W) as [O V]. fold t in O, V.
  pose proof (clone_ok L HH CL O) as O'. fold t' in O'.
  assert (C : cimg t' = ct_clone cl (cimg t)) by (unfold cimg, ct_clone, t'; now rewrite clone_entries).
  pose proof (CTProofs4.clone_valid L cl CL V) as V'. rewrite <- C in V'.
  assert (G : forall k, ct_get eqb (cimg t') k = ct_get eqb (cimg t) k).
  { intros k. rewrite C. exact (CTProofs4.clone_get L cl (cimg t) k CL). }
  split; [rewrite (tc_eq_entries t' L HH PL O); now rewrite (CTProofs3.eq_iff L V' V)|].
  destruct (tc_run eqb cl hash P E later t) as [t1 tr1] eqn:T1, (tc_run eqb cl hash P E later t') as [t2 tr2] eqn:T2.
  destruct (tc_history cl L HH PL CL U O V Ok2 T1) as (_ & _ & H1).
  destruct (tc_history cl L HH PL CL U O' V' Ok2 T2) as (_ & _ & H2). cbn [fst snd].
  assert (Li0 : forall k, like_entry eqb (shown eqb (cimg t) k) (shown eqb (cimg t') k)).
  { intros k. specialize (G k). unfold ct_get, hm_get, shown, ct_get_key_value, like_entry in *.
    destruct (hm_entry_of eqb k (ct_map (cimg t))) as [[a n]|] eqn:F1, (hm_entry_of eqb k (ct_map (cimg t'))) as [[b m]|] eqn:F2;
      cbn in G; try discriminate G; auto.
    apply entry_of_some in F1, F2. cbn in *. injection G as ->. split; auto.
    apply (eq_trans' L) with k; [apply (eq_sym' L)|]; tauto. }
  destruct (history_det L Bl Li0 H1 H2) as [T Li]. split; auto.
  intros k. specialize (Li k). cbn in Li. unfold ht_get, like_entry, t_shown in *.
  destruct (ht_entry_of eqb hash P k t1) as [[a n]|], (ht_entry_of eqb hash P k t2) as [[b m]|]; cbn; try contradiction; auto.
  destruct Li. congruence.
Qed.
Print Assumptions c121_clone_cannot_be_told_apart.

Example c121_ex_clone : tc_clone kcl (fst (counter_run by_fnv linear 1 c121_ops)) <> fst (counter_run by_fnv linear 1 c121_ops) /\
  tc_eq keq by_fnv linear (tc_clone kcl (fst (counter_run by_fnv linear 1 c121_ops))) (fst (counter_run by_fnv linear 1 c121_ops)) = true.
Proof. split; [vm_compute; discriminate|vm_compute; reflexivity]. Qed.
