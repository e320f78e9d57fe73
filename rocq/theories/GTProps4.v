(** Property theorems C127: what lookups in the hash table of today's std cost. *)
From Coq Require Import Permutation NArith.
From Verif Require Import Base HMModel HMProofs HTModel HTProofs HTRun HTProps CTModel CTSpec CTSpec9 CTRun CTProofs2 CTProps CTProps10
  DSModel DSSpec DSRun DSProofs2 DSProofs3 DSProps.
From Verif Require Import GTModel GTModel2 GTModel3 GTSpec GTRun GTRun2 GTProofs GTProofs2 GTProofs3 GTProofs4 GTProofs5 GTProofs7 GTProps GTProps2.
Local Open Scope outcome_scope.

Lemma gnew_ok {K} (eqb : K -> K -> bool) hash W E cap t0 : eq_laws eqb -> pow2 W ->
  @gc_with_capacity K hash W E cap = Ret t0 -> GTProofs2.gok eqb hash W t0 /\ ht_entries t0 = [].
Proof.
  intros L PL C. unfold gc_with_capacity in C. pose proof (@Rg_with_capacity K nat eqb hash W E L PL cap) as R.
  rewrite C in R. destruct R as [[O Q] _]. apply Permutation_sym, Permutation_nil in Q. auto.
Qed.

Lemma gnew_set_ok {K} (eqb : K -> K -> bool) hash W E cap s0 : eq_laws eqb -> pow2 W ->
  @gd_with_capacity K hash W E cap = Ret s0 -> GTProofs2.gok eqb hash W (td_ids s0) /\ ht_entries (td_ids s0) = [].
Proof.
  intros L PL C. unfold gd_with_capacity in C. pose proof (@Rg_with_capacity K nat eqb hash W E L PL cap) as R.
  destruct (g_with_capacity nat hash W E cap) as [t| | | |]; cbn [obind] in C; try discriminate C.
  destruct (vec_reserve E cap _); cbn [obind] in C; try discriminate C. injection C as <-. cbn [td_ids].
  destruct R as [[O Q] _]. apply Permutation_sym, Permutation_nil in Q. auto.
Qed.

(** A lookup compares the key only with stored keys whose 7 bits agree, with each at most once
    (although control bytes are repeated at the end of the array); it stops at the key it finds;
    if the key is absent it is compared with every stored key that has its hash value. *)
Theorem c127_lookup_compares : forall K V (eqb : K -> K -> bool) hash W E cap t0 (cs : list (call K V)) k,
  eq_laws eqb -> consistent eqb hash -> power_of_two W -> g_with_capacity V hash W E cap = Ret t0 ->
  let t := fst (g_run eqb hash W E cs t0) in
  let same k' := N.eqb (hash k') (hash k) in
  Forall (fun k' => (hash k' / 2 ^ 57 mod 2 ^ 7 = hash k / 2 ^ 57 mod 2 ^ 7)%N) (g_asks eqb hash W k t) /\
  (exists rest, Permutation (g_asks eqb hash W k t ++ rest) (map fst (ht_entries t))) /\
  (forall k' v, g_entry_of eqb hash W k t = Some (k', v) ->
   exists before, g_asks eqb hash W k t = before ++ [k'] /\ Forall (fun x => eqb k x = false) before) /\
  (g_get eqb hash W k t = None ->
   Permutation (filter same (g_asks eqb hash W k t)) (filter same (map fst (ht_entries t)))).
Proof.
  intros K V eqb hash W E cap t0 cs k L HH W2 C t same.
  pose proof (@Rg_with_capacity K V eqb hash W E L W2 cap) as R. rewrite C in R. destruct R as [R _].
  destruct (g_run eqb hash W E cs t0) as [t1 rs] eqn:T. cbn [fst] in t. subst t.
  destruct (rel_run E L HH W2 cs R T) as (m' & [O _] & _).
  destruct (gasks_sub W2 k O) as [A B]. split; [exact A|]. split; [exact B|]. split.
  - intros k' v. apply gasks_found.
  - intros G. apply (gasks_same L W2); auto. rewrite <- (gentry_of_entries L HH k O).
    unfold g_get in G. now destruct (g_entry_of eqb hash W k t1).
Qed.
Print Assumptions c127_lookup_compares.

(** a lookup that finds its key after four others, and one of an absent key, in groups of two;
    a table of half a group; FNV: other tags are not compared; hash values that differ but have
    one tag *)
Definition c127_table (hash : key -> N) (W : nat) : table key nat := fst (table_run hash W 0 (firstn 12 c123_calls)).
Definition one_tag (k : key) : N := N.of_nat (fst k).
Example c127_ex : g_asks keq all_collide 2 (6, 1) (c127_table all_collide 2) = [(3, 0); (1, 0); (4, 0); (5, 0); (6, 0)] /\
  g_asks keq all_collide 2 (8, 0) (c127_table all_collide 2) = [(3, 0); (1, 0); (4, 0); (5, 0); (6, 0)] /\
  length (g_asks keq all_collide 16 (8, 0) (c127_table all_collide 16)) = 5 /\ length (c127_table all_collide 16) = 8 /\
  g_asks keq by_fnv 8 (6, 1) (c127_table by_fnv 8) = [(6, 0)] /\
  g_asks keq by_fnv 8 (8, 0) (c127_table by_fnv 8) = [] /\
  g_asks keq one_tag 2 (11, 0) (c127_table one_tag 2) = [(3, 0); (4, 0); (5, 0); (6, 0); (1, 0)] /\ consistent keq one_tag.
Proof.
  repeat (split; [vm_compute; reflexivity|]). intros a b H. apply Nat.eqb_eq in H. unfold one_tag. now rewrite H.
Qed.

(** A lookup loads no group twice: as many steps as there are groups in the array (one, if the array
    is less than a group) are enough. *)
Theorem c127_lookup_loads_groups_once : forall K V (eqb : K -> K -> bool) hash W E cap t0 (cs : list (call K V)) k steps,
  eq_laws eqb -> consistent eqb hash -> power_of_two W -> g_with_capacity V hash W E cap = Ret t0 ->
  let t := fst (g_run eqb hash W E cs t0) in
  Nat.max 1 (length t / W) <= steps ->
  g_seek eqb hash W k t (g_start (hash k) (length t)) 0 steps = g_find eqb hash W k t.
Proof.
  intros K V eqb hash W E cap t0 cs k steps L HH W2 C t Le.
  pose proof (@Rg_with_capacity K V eqb hash W E L W2 cap) as R. rewrite C in R. destruct R as [R _].
  destruct (g_run eqb hash W E cs t0) as [t1 rs] eqn:T. cbn [fst] in t. subst t.
  destruct (rel_run E L HH W2 cs R T) as (m' & [O _] & _). now apply find_round.
Qed.
Print Assumptions c127_lookup_loads_groups_once.

(** three of the four groups of an array are needed, two are not enough; one group of 16 *)
Example c127_ex_groups : let t := c127_table all_collide 2 in
  length t / 2 = 4 /\ g_seek keq all_collide 2 (6, 1) t (g_start (all_collide (6, 1)) (length t)) 0 2 = None /\
  g_find keq all_collide 2 (6, 1) t = Some 6 /\
  g_seek keq all_collide 2 (6, 1) t (g_start (all_collide (6, 1)) (length t)) 0 4 = Some 6 /\
  g_seek keq all_collide 16 (6, 1) (c127_table all_collide 16) (g_start (all_collide (6, 1)) 8) 0 1 =
  g_find keq all_collide 16 (6, 1) (c127_table all_collide 16).
Proof. vm_compute. auto 10. Qed.

(** pairs of positions of a list whose values have one tag *)
Fixpoint tag_pairs {K} (hash : K -> N) (xs : list K) : nat :=
  match xs with
  | [] => 0
  | x :: r => length (filter (fun y => N.eqb (hash y / 2 ^ 57 mod 2 ^ 7) (hash x / 2 ^ 57 mod 2 ^ 7)) r) + tag_pairs hash r
  end.

Lemma keys_len {K V} (t t' : table K V) x : Permutation (map fst (ht_entries t')) (map fst (ht_entries t)) \/
  Permutation (map fst (ht_entries t')) (x :: map fst (ht_entries t)) -> ht_len t' <= S (ht_len t).
Proof. unfold ht_len. intros [H|H]; apply Permutation_length in H; cbn in H; rewrite !map_length in H; lia. Qed.

Section Cost.
Variables K V St : Type.
Variable eqb : K -> K -> bool.
Variable hash : K -> N.
Variable W : nat.
Hypothesis L : eq_laws eqb.
Hypothesis HH : consistent eqb hash.
Hypothesis PL : pow2 W.
(** the table of a state, a step that looks one key up, and the cost of a list of steps *)
Variable tbl : St -> table K V.
Variable step : K -> St -> St.
Variable cost : list K -> St -> nat.
Hypothesis cost_nil : forall s, cost [] s = 0.
Hypothesis cost_cons : forall x r s, cost (x :: r) s = length (g_asks eqb hash W x (tbl s)) + cost r (step x s).
Hypothesis step_ok : forall x s, GTProofs2.gok eqb hash W (tbl s) ->
  GTProofs2.gok eqb hash W (tbl (step x s)) /\ (Permutation (map fst (ht_entries (tbl (step x s)))) (map fst (ht_entries (tbl s))) \/
    Permutation (map fst (ht_entries (tbl (step x s)))) (x :: map fst (ht_entries (tbl s)))).

Lemma cost_le xs s : GTProofs2.gok eqb hash W (tbl s) ->
  2 * cost xs s + length xs <= length xs * (2 * ht_len (tbl s) + length xs).
Proof.
  revert s. induction xs as [|x xs IH]; intros s O; [rewrite cost_nil; cbn; lia|]. rewrite cost_cons. cbn [length].
  pose proof (gasks_le PL x O) as A. destruct (step_ok x s O) as [O' Le]. apply keys_len in Le.
  specialize (IH _ O'). nia.
Qed.

Notation same_tag x := (fun y => N.eqb (hash y / 2 ^ 57 mod 2 ^ 7) (hash x / 2 ^ 57 mod 2 ^ 7)).

Fixpoint stored_pairs (xs ks : list K) : nat :=
  match xs with [] => 0 | x :: r => length (filter (same_tag x) ks) + stored_pairs r ks end.

Lemma stored_perm xs ks ks' : Permutation ks ks' -> stored_pairs xs ks = stored_pairs xs ks'.
Proof. intros Q. induction xs as [|x xs IH]; cbn [stored_pairs]; auto. now rewrite IH, (Permutation_length (filter_perm (same_tag x) Q)). Qed.

Lemma stored_more xs x ks : stored_pairs xs (x :: ks) = stored_pairs xs ks + length (filter (same_tag x) xs).
Proof.
  induction xs as [|y xs IH]; cbn [stored_pairs filter]; auto. rewrite IH. rewrite (N.eqb_sym (hash x / 2 ^ 57 mod 2 ^ 7)).
  destruct (N.eqb (hash y / 2 ^ 57 mod 2 ^ 7) (hash x / 2 ^ 57 mod 2 ^ 7)); cbn [length]; lia.
Qed.

Lemma cost_tags xs s : GTProofs2.gok eqb hash W (tbl s) ->
  cost xs s <= stored_pairs xs (map fst (ht_entries (tbl s))) + tag_pairs hash xs.
Proof.
  revert s. induction xs as [|x xs IH]; intros s O; [rewrite cost_nil; lia|]. rewrite cost_cons. cbn [stored_pairs tag_pairs].
  destruct (step_ok x s O) as [O' Ke]. specialize (IH _ O').
  assert (A : length (g_asks eqb hash W x (tbl s)) <= length (filter (same_tag x) (map fst (ht_entries (tbl s))))).
  { destruct (gasks_sub PL x O) as [T [rest Su]]. rewrite <- (Permutation_length (filter_perm (same_tag x) Su)).
    rewrite filter_app, app_length. revert T. generalize (g_asks eqb hash W x (tbl s)). intros l T.
    assert (F : filter (same_tag x) l = l); [|rewrite F; lia].
    induction T as [|y l Y T IHl]; cbn [filter]; auto.
    change (hash y / 2 ^ 57 mod 2 ^ 7 = hash x / 2 ^ 57 mod 2 ^ 7)%N in Y. rewrite (proj2 (N.eqb_eq _ _) Y). now rewrite IHl. }
  destruct Ke as [Ke|Ke]; rewrite (stored_perm _ _ _ Ke) in IH; [|rewrite stored_more in IH]; lia.
Qed.

Variable fits : nat -> St -> Prop.
Hypothesis step_new : forall x n s, GTProofs2.gok eqb hash W (tbl s) -> hm_entry_of eqb x (ht_entries (tbl s)) = None ->
  fits (S n) s -> fits n (step x s) /\ exists v, Permutation ((x, v) :: ht_entries (tbl s)) (ht_entries (tbl (step x s))).

Lemma cost_colliding xs s h : GTProofs2.gok eqb hash W (tbl s) ->
  (forall x, In x xs \/ In x (map fst (ht_entries (tbl s))) -> hash x = h) ->
  distinct eqb xs -> (forall x, In x xs -> hm_entry_of eqb x (ht_entries (tbl s)) = None) ->
  fits (length xs) s ->
  2 * cost xs s + length xs = length xs * (2 * ht_len (tbl s) + length xs).
Proof.
  revert s. induction xs as [|x xs IH]; intros s O Hh D Ab Le; [rewrite cost_nil; cbn; lia|].
  rewrite cost_cons. cbn [length] in *.
  inversion D as [|? ? F D2]; subst. rewrite Forall_forall in F.
  destruct (step_new x (length xs) s O (Ab x (or_introl eq_refl)) Le) as (Le2 & v & Pe).
  assert (A : length (g_asks eqb hash W x (tbl s)) = ht_len (tbl s)).
  { pose proof (gasks_same L PL x O (Ab x (or_introl eq_refl))) as Q.
    assert (ALL : forall l, (forall y, In y l -> In y (map fst (ht_entries (tbl s)))) -> filter (fun k' => N.eqb (hash k') (hash x)) l = l).
    { induction l as [|y l IHl]; cbn; intros H; auto. rewrite (proj2 (N.eqb_eq (hash y) (hash x))).
      2: { now rewrite (Hh y (or_intror (H y (or_introl eq_refl)))), (Hh x (or_introl (or_introl eq_refl))). } f_equal. apply IHl. intros z Z. apply H. now right. }
    destruct (gasks_sub PL x O) as [_ [rest Su]].
    rewrite !ALL in Q; auto.
    - apply Permutation_length in Q. now rewrite map_length in Q.
    - intros y Hy. eapply Permutation_in; [exact Su|]. apply in_or_app. auto. }
  destruct (step_ok x s O) as [O' _].
  assert (Le' : ht_len (tbl (step x s)) = S (ht_len (tbl s))).
  { unfold ht_len. now rewrite <- (Permutation_length Pe). }
  rewrite A. specialize (IH _ O'). rewrite Le' in IH.
  assert (G : 2 * cost xs (step x s) + length xs = length xs * (2 * S (ht_len (tbl s)) + length xs)); [|nia].
  apply IH; auto.
  - intros y [Y|Y]; [apply Hh; cbn; auto|]. apply (Permutation_in y (Permutation_sym (Permutation_map fst Pe))) in Y.
    cbn in Y. apply Hh. destruct Y as [->|Y]; cbn; auto.
  - intros y Y. apply entry_of_none. intros e I. apply (Permutation_in _ (Permutation_sym Pe)) in I. destruct I as [<-|I]; cbn [fst].
    + rewrite (eqb_sym L). now apply F.
    + specialize (Ab y (or_intror Y)). rewrite entry_of_none in Ab. eauto.
Qed.
End Cost.

Section Steps.
Variable K : Type.
Variable eqb : K -> K -> bool.
Variable hash : K -> N.
Variable W : nat.
Variable E : machine.
Hypothesis L : eq_laws eqb.
Hypothesis HH : consistent eqb hash.
Hypothesis PL : pow2 W.

Lemma push_step x t : GTProofs2.gok eqb hash W t -> let t' := fst (gc_push eqb hash W E x t) in
  GTProofs2.gok eqb hash W t' /\ (Permutation (map fst (ht_entries t')) (map fst (ht_entries t)) \/
    Permutation (map fst (ht_entries t')) (x :: map fst (ht_entries t))).
Proof.
  intros O. destruct (gc_push eqb hash W E x t) as [t' o] eqn:Q. cbn [fst].
  assert (R : Rc eqb hash W t (Counter (ht_entries t))) by (split; auto).
  destruct (sim_bump E L HH PL _ _ R Q) as (c' & B & R'). split; [apply R'|].
  destruct R' as [_ Pe]. apply (Permutation_map fst) in Pe. revert B Pe. unfold ct_bump. cbn [ct_map].
  destruct (hm_entry eqb E x (ht_entries t)) as [[old|]| | | |]; [destruct (uadd E old 1)|destruct (uadd E 0 1)|..];
    intros [= <- _]; cbn [ct_map hm_insert_vacant map fst]; rewrite ?set_keys; auto.
Qed.

Lemma push_new x n t : 1 <= usize_max E -> GTProofs2.gok eqb hash W t -> hm_entry_of eqb x (ht_entries t) = None ->
  S n + ht_len t <= alloc_max E -> n + ht_len (fst (gc_push eqb hash W E x t)) <= alloc_max E /\
  exists v, Permutation ((x, v) :: ht_entries t) (ht_entries (fst (gc_push eqb hash W E x t))).
Proof.
  intros U O Ab Le. destruct (push_step x t O) as [_ Le2]. apply keys_len in Le2. split; [lia|]. exists 1.
  destruct (gc_push eqb hash W E x t) as [t' o] eqn:Q. cbn [fst] in *.
  assert (R : Rc eqb hash W t (Counter (ht_entries t))) by (split; auto).
  destruct (sim_bump E L HH PL _ _ R Q) as (c' & B & R'). revert B. unfold ct_bump, hm_entry, hm_get. cbn [ct_map].
  rewrite Ab. cbn [option_map obind]. unfold hm_reserve. fold (ht_len t).
  destruct (Nat.leb_spec (ht_len t + 1) (alloc_max E)); [cbn [obind]|lia].
  unfold uadd. cbn [Nat.add]. destruct (Nat.leb_spec 1 (usize_max E)); [|lia]. intros [= <- _].
  apply Permutation_sym, R'.
Qed.

Lemma make_step x s : GTProofs2.gok eqb hash W (td_ids s) -> let s' := fst (gd_make_set eqb hash W E x s) in
  GTProofs2.gok eqb hash W (td_ids s') /\ (Permutation (map fst (ht_entries (td_ids s'))) (map fst (ht_entries (td_ids s))) \/
    Permutation (map fst (ht_entries (td_ids s'))) (x :: map fst (ht_entries (td_ids s)))).
Proof.
  intros O. destruct (gd_make_set eqb hash W E x s) as [s' o] eqn:Q. cbn [fst].
  assert (R : Rd eqb hash W s (DSet (ht_entries (td_ids s)) (td_data s))) by (split; split; auto).
  destruct (sim_make_set E L HH PL _ R Q) as (c' & B & R'). split; [apply R'|].
  destruct R' as [[_ Pe] _]. apply (Permutation_map fst) in Pe. revert B Pe. unfold ds_make_set, ds_make_or_get.
  cbn [ds_ids ds_data].
  destruct (hm_entry eqb E x (ht_entries (td_ids s))) as [[old|]| | | |]; [|destruct (vec_push E (td_data s) _)|..];
    intros [= <- _]; cbn [ds_ids hm_insert_vacant map fst]; auto.
Qed.

Lemma make_new x n s : GTProofs2.gok eqb hash W (td_ids s) -> hm_entry_of eqb x (ht_entries (td_ids s)) = None ->
  S n + ht_len (td_ids s) <= alloc_max E -> n + ht_len (td_ids (fst (gd_make_set eqb hash W E x s))) <= alloc_max E /\
  exists v, Permutation ((x, v) :: ht_entries (td_ids s)) (ht_entries (td_ids (fst (gd_make_set eqb hash W E x s)))).
Proof.
  intros O Ab Le. destruct (make_step x s O) as [_ Le2]. apply keys_len in Le2. split; [lia|]. exists (ht_len (td_ids s)).
  destruct (gd_make_set eqb hash W E x s) as [s' o] eqn:Q. cbn [fst] in *.
  assert (R : Rd eqb hash W s (DSet (ht_entries (td_ids s)) (td_data s))) by (split; split; auto).
  destruct (sim_make_set E L HH PL _ R Q) as (c' & B & R'). revert B. unfold ds_make_set, ds_make_or_get, hm_entry, hm_get.
  cbn [ds_ids ds_data]. rewrite Ab. cbn [option_map obind]. unfold hm_reserve. fold (ht_len (td_ids s)).
  destruct (Nat.leb_spec (ht_len (td_ids s) + 1) (alloc_max E)); [cbn [obind]|lia].
  destruct (vec_push E (td_data s) _); intros [= <- _]; apply Permutation_sym, R'.
Qed.
End Steps.

(** Counting [n] values compares keys at most [n (n - 1) / 2] times, whatever the hash function:
    growing and rehashing compare none. *)
Theorem c127_counting_costs_at_most : forall K (eqb : K -> K -> bool) hash W E cap t0 xs,
  eq_laws eqb -> consistent eqb hash -> (exists b, W = 2 ^ b) -> gc_with_capacity hash W E cap = Ret t0 ->
  2 * gc_pushes_cost eqb hash W E xs t0 <= length xs * (length xs - 1).
Proof.
  intros K eqb hash W E cap t0 xs L HH PL C0. destruct (gnew_ok eqb hash W E cap t0 L PL C0) as [O Q].
  pose proof (cost_le K nat _ eqb hash W PL (fun t => t) (fun x t => fst (gc_push eqb hash W E x t)) (gc_pushes_cost eqb hash W E)
    (fun _ => eq_refl) (fun _ _ _ => eq_refl) (push_step K eqb hash W E L HH PL) xs t0 O) as C. unfold ht_len in C. rewrite Q in C. cbn [length] in C. nia.
Qed.
Print Assumptions c127_counting_costs_at_most.

(** Only pairs of values with one tag count: values whose 7 bits all differ are counted without
    comparing any keys. *)
Theorem c127_counting_compares_tags_first : forall K (eqb : K -> K -> bool) hash W E cap t0 xs,
  eq_laws eqb -> consistent eqb hash -> (exists b, W = 2 ^ b) -> gc_with_capacity hash W E cap = Ret t0 ->
  gc_pushes_cost eqb hash W E xs t0 <= tag_pairs hash xs.
Proof.
  intros K eqb hash W E cap t0 xs L HH PL C0. destruct (gnew_ok eqb hash W E cap t0 L PL C0) as [O Q].
  pose proof (cost_tags K nat _ eqb hash W PL (fun t => t) (fun x t => fst (gc_push eqb hash W E x t)) (gc_pushes_cost eqb hash W E)
    (fun _ => eq_refl) (fun _ _ _ => eq_refl) (push_step K eqb hash W E L HH PL) xs t0 O) as C. cbn beta in C. rewrite Q in C.
  assert (Z : stored_pairs K hash xs (map fst (@nil (K * nat))) = 0); [|rewrite Z in C; exact C].
  clear. induction xs as [|x xs IH]; cbn [stored_pairs]; auto.
Qed.
Print Assumptions c127_counting_compares_tags_first.

(** This is reached by different values of one hash value, in every table: a hash function whose
    collisions can be found lets others choose keys for which counting takes quadratic time. *)
Theorem c127_colliding_keys_cost : forall K (eqb : K -> K -> bool) hash W E cap t0 xs h,
  eq_laws eqb -> consistent eqb hash -> (exists b, W = 2 ^ b) -> 1 <= usize_max E -> gc_with_capacity hash W E cap = Ret t0 ->
  distinct eqb xs -> (forall x, In x xs -> hash x = h) -> length xs <= alloc_max E ->
  2 * gc_pushes_cost eqb hash W E xs t0 = length xs * (length xs - 1).
Proof.
  intros K eqb hash W E cap t0 xs h L HH PL U C0 D Hh Le. destruct (gnew_ok eqb hash W E cap t0 L PL C0) as [O Q].
  pose proof (cost_colliding K nat _ eqb hash W L PL (fun t => t) (fun x t => fst (gc_push eqb hash W E x t)) (gc_pushes_cost eqb hash W E)
    (fun _ => eq_refl) (fun _ _ _ => eq_refl) (push_step K eqb hash W E L HH PL) (fun n t => n + ht_len t <= alloc_max E)
    (fun x n t => push_new K eqb hash W E L HH PL x n t U) xs t0 h O) as C. unfold ht_len in C. rewrite Q in C. cbn [length] in C.
  assert (X : 2 * gc_pushes_cost eqb hash W E xs t0 + length xs = length xs * (2 * 0 + length xs)); [|nia].
  apply C; auto; [|lia]. intros x [I|[]]. auto.
Qed.
Print Assumptions c127_colliding_keys_cost.

(** ten keys: few comparisons with FNV, all with a constant hash; keys with tags of their own *)
Definition ten : list key := map (fun n => (n, n)) (seq 0 10).
Definition own_tag (k : key) : N := (N.of_nat (fst k) * 2 ^ 57)%N.
(** the cost on a new counter *)
Definition pushes_cost (hash : key -> N) (W : nat) (xs : list key) : nat :=
  match gc_with_capacity hash W Ec 0 with Ret t => gc_pushes_cost keq hash W Ec xs t | _ => 0 end.
Example c127_ex_cost : pushes_cost by_fnv 8 (ten ++ ten) = 10 /\ tag_pairs by_fnv (ten ++ ten) = 18 /\
  pushes_cost all_collide 4 ten = 45 /\ pushes_cost all_collide 16 ten = 45 /\ pushes_cost one_tag 4 ten = 12 /\
  pushes_cost own_tag 4 ten = 0 /\ tag_pairs own_tag ten = 0 /\
  distinct keq ten /\ length ten <= alloc_max Ec.
Proof.
  repeat (split; [vm_compute; reflexivity|]). split; [repeat constructor|apply Nat.leb_le; reflexivity].
Qed.

(** The same for making the elements of a disjoint set. *)
Theorem c127_making_sets_costs_at_most : forall K (eqb : K -> K -> bool) hash W E cap s0 xs,
  eq_laws eqb -> consistent eqb hash -> (exists b, W = 2 ^ b) -> gd_with_capacity hash W E cap = Ret s0 ->
  2 * gd_makes_cost eqb hash W E xs s0 <= length xs * (length xs - 1).
Proof.
  intros K eqb hash W E cap s0 xs L HH PL C0. destruct (gnew_set_ok eqb hash W E cap s0 L PL C0) as [O Q].
  pose proof (cost_le K nat _ eqb hash W PL (@td_ids K) (fun x t => fst (gd_make_set eqb hash W E x t)) (gd_makes_cost eqb hash W E)
    (fun _ => eq_refl) (fun _ _ _ => eq_refl) (make_step K eqb hash W E L HH PL) xs s0 O) as C.
  unfold ht_len in C. rewrite Q in C. cbn [length] in C. nia.
Qed.
Print Assumptions c127_making_sets_costs_at_most.

Theorem c127_making_sets_compares_tags_first : forall K (eqb : K -> K -> bool) hash W E cap s0 xs,
  eq_laws eqb -> consistent eqb hash -> (exists b, W = 2 ^ b) -> gd_with_capacity hash W E cap = Ret s0 ->
  gd_makes_cost eqb hash W E xs s0 <= tag_pairs hash xs.
Proof.
  intros K eqb hash W E cap s0 xs L HH PL C0. destruct (gnew_set_ok eqb hash W E cap s0 L PL C0) as [O Q].
  pose proof (cost_tags K nat _ eqb hash W PL (@td_ids K) (fun x t => fst (gd_make_set eqb hash W E x t)) (gd_makes_cost eqb hash W E)
    (fun _ => eq_refl) (fun _ _ _ => eq_refl) (make_step K eqb hash W E L HH PL) xs s0 O) as C. rewrite Q in C.
  assert (Z : stored_pairs K hash xs (map fst (@nil (K * nat))) = 0); [|rewrite Z in C; exact C].
  clear. induction xs as [|x xs IH]; cbn [stored_pairs]; auto.
Qed.
Print Assumptions c127_making_sets_compares_tags_first.

Theorem c127_colliding_elements_cost : forall K (eqb : K -> K -> bool) hash W E cap s0 xs h,
  eq_laws eqb -> consistent eqb hash -> (exists b, W = 2 ^ b) -> gd_with_capacity hash W E cap = Ret s0 ->
  distinct eqb xs -> (forall x, In x xs -> hash x = h) -> length xs <= alloc_max E ->
  2 * gd_makes_cost eqb hash W E xs s0 = length xs * (length xs - 1).
Proof.
  intros K eqb hash W E cap s0 xs h L HH PL C0 D Hh Le. destruct (gnew_set_ok eqb hash W E cap s0 L PL C0) as [O Q].
  pose proof (cost_colliding K nat _ eqb hash W L PL (@td_ids K) (fun x t => fst (gd_make_set eqb hash W E x t)) (gd_makes_cost eqb hash W E)
    (fun _ => eq_refl) (fun _ _ _ => eq_refl) (make_step K eqb hash W E L HH PL) (fun n t => n + ht_len (td_ids t) <= alloc_max E)
    (make_new K eqb hash W E L HH PL) xs s0 h O) as C.
  unfold ht_len in C. rewrite Q in C. cbn [length] in C.
  assert (X : 2 * gd_makes_cost eqb hash W E xs s0 + length xs = length xs * (2 * 0 + length xs)); [|nia].
  apply C; auto; [|lia]. intros x [I|[]]. auto.
Qed.
Print Assumptions c127_colliding_elements_cost.

Example c127_ex_sets :
  match gd_with_capacity by_fnv 8 Ec 3, gd_with_capacity all_collide 2 Ec 0 with
  | Ret s, Ret s' => gd_makes_cost keq by_fnv 8 Ec ten s = 0 /\ gd_makes_cost keq all_collide 2 Ec ten s' = 45 /\
                     length ten <= alloc_max Ec
  | _, _ => False
  end.
Proof. vm_compute. repeat split. apply Nat.leb_le. reflexivity. Qed.
