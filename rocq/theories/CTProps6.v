(** Property theorems C100-C102: what counting asks of the hash table, and the
    complexities documented in src/counter/mod.rs:9-18. *)
From Coq Require Import Permutation Factorial.
From Verif Require Import Base HMModel HMProofs CTModel CTSpec CTRun CTModel5 CTSpec5 SortSpec SortProofs CTProofs CTProofs4 CTProofs8 CTProps.
Local Open Scope outcome_scope.
Local Open Scope list_scope.

(** ** C100 *)
(** forgetting the requests, the calls that list them are the calls *)
Theorem c100_listing_requests_changes_no_call : forall K (eqb : K -> K -> bool) cl E ee ei,
  (forall o c, fst (ct_step_t eqb cl E ee ei o c) = ct_step eqb cl E o c) /\
  (forall ops c, fst (ct_run_t eqb cl E ee ei ops c) = ct_run eqb cl E ops c) /\
  (forall h xs, fst (ct_from_iter_t eqb E ee h xs) = ct_from_iter eqb E h xs /\
                fst (ct_from_iter_ref_t eqb cl E ee h xs) = ct_from_iter_ref eqb cl E h xs) /\
  (forall c l, fst (ct_add_t eqb E ee c l) = ct_add eqb E c l /\ fst (ct_add_ref_t eqb cl E ee c l) = ct_add_ref eqb cl E c l /\
               fst (ct_sub_t eqb E ee c l) = ct_sub eqb E c l /\ fst (ct_sub_ref_t eqb cl E ee c l) = ct_sub_ref eqb cl E c l) /\
  (forall l, fst (ct_from_t eqb E ei l) = ct_from eqb E l /\ fst (ct_from_ref_t eqb cl E ei l) = ct_from_ref eqb cl E l) /\
  (forall a b, fst (ct_eq_t eqb (ct_map a) b) = ct_eq eqb a b).
Proof.
  intros K eqb cl E ee ei. repeat split; intros.
  - apply er_ct_step.
  - apply er_ct_run.
  - apply er_from_iter.
  - apply er_from_iter_ref.
  - apply er_add.
  - apply er_add_ref.
  - apply er_sub.
  - apply er_sub_ref.
  - apply er_from.
  - apply er_from_ref.
  - apply er_eq.
Qed.
Print Assumptions c100_listing_requests_changes_no_call.

(** every call looks up the keys it handles, each once and in order, up to the
    one at which it panics: one for an insertion (documented O(1)), none for
    [len], [clear] or an iteration *)
Theorem c100_each_key_is_looked_up_once : forall K (eqb : K -> K -> bool) cl E ee ei o c,
  exists rest, handled cl o = looked (snd (ct_step_t eqb cl E ee ei o c)) ++ rest /\
    ((exists r, snd (ct_step eqb cl E o c) = Ret r) -> rest = []).
Proof.
  intros K eqb cl E ee ei o c. destruct (lk_step eqb cl E ee ei o c) as (rest & A & B). exists rest. split; [exact A|].
  now rewrite <- er_ct_step with (ee := ee) (ei := ei).
Qed.
Print Assumptions c100_each_key_is_looked_up_once.

(** counting the [n] items of an iterator takes [n] lookups (documented O(n));
    likewise the operators and conversions: one per entry of the right operand *)
Theorem c100_initialization_looks_up_each_item_once : forall K (eqb : K -> K -> bool) cl E ee ei h xs l c0 c t,
  (ct_from_iter_t eqb E ee h xs = (Ret c, t) -> looked t = xs) /\
  (ct_from_iter_ref_t eqb cl E ee h xs = (Ret c, t) -> looked t = map cl xs) /\
  (ct_add_t eqb E ee c0 l = (Ret c, t) -> looked t = map fst l) /\
  (ct_add_ref_t eqb cl E ee c0 l = (Ret c, t) -> looked t = map (fun e => cl (fst e)) l) /\
  (ct_sub_t eqb E ee c0 l = (Ret c, t) -> looked t = map fst l) /\
  (ct_sub_ref_t eqb cl E ee c0 l = (Ret c, t) -> looked t = map (fun e => cl (fst e)) l) /\
  (ct_from_t eqb E ei l = (Ret c, t) -> looked t = map fst l) /\
  (ct_from_ref_t eqb cl E ei l = (Ret c, t) -> looked t = map (fun e => cl (fst e)) l).
Proof.
  intros K eqb cl E ee ei h xs l c0 c t.
  assert (D : forall (ks : list K) (o : outcome (counter K)) us, in_order ks o us -> o = Ret c -> us = ks).
  { intros ks o us (rest & A & B) R. rewrite (B (ex_intro _ c R)), app_nil_r in A. auto. }
  assert (F : forall (ks : list K) (m : (counter K * outcome unit) * list (request K)), in_order ks (snd (fst m)) (looked (snd m)) ->
    finish_t m = (Ret c, t) -> looked t = ks).
  { intros ks [[c1 o1] t1] H Q. unfold finish_t, finish in Q. cbn [fst snd] in *. injection Q as Q1 Q2. subst t1.
    destruct o1 as [[]| | | |]; try discriminate. destruct H as (rest & A & B). rewrite (B (ex_intro _ tt eq_refl)), app_nil_r in A. auto. }
  repeat split; intros Q.
  - pose proof (lk_from_iter eqb E ee h xs) as H. rewrite Q in H. eapply D; [exact H|reflexivity].
  - rewrite from_iter_ref_t_map in Q. pose proof (lk_from_iter eqb E ee h (map cl xs)) as H. rewrite Q in H. eapply D; [exact H|reflexivity].
  - eapply F; [|exact Q]. exact (lk_for_each fst _ (fun e s => lk_bump eqb E ee (fst e) (snd e) s) l c0).
  - eapply F; [|exact Q]. exact (lk_for_each (fun e => cl (fst e)) _ (fun e s => lk_bump eqb E ee (cl (fst e)) (snd e) s) l c0).
  - eapply F; [|exact Q]. exact (lk_for_each fst _ (fun e s => lk_lower eqb E ee (fst e) (snd e) s) l c0).
  - eapply F; [|exact Q]. exact (lk_for_each (fun e => cl (fst e)) _ (fun e s => lk_lower eqb E ee (cl (fst e)) (snd e) s) l c0).
  - pose proof (lk_from eqb E ei l) as H. rewrite Q in H. eapply D; [exact H|reflexivity].
  - rewrite from_ref_t_map in Q. pose proof (lk_from eqb E ei (map (fun e => (cl (fst e), snd e)) l)) as H. rewrite Q in H.
    rewrite map_map in H. eapply D; [exact H|reflexivity].
Qed.
Print Assumptions c100_initialization_looks_up_each_item_once.

(** comparing two counters looks up the entries of one of them in the other, each
    at most once, and all of them if they are equal *)
Theorem c100_comparing_looks_up_each_entry_once : forall K (eqb : K -> K -> bool) (a b : counter K),
  (exists rest, map fst (ct_map a) = looked (snd (ct_eq_t eqb (ct_map a) b)) ++ rest) /\
  (ct_eq eqb a b = true -> looked (snd (ct_eq_t eqb (ct_map a) b)) = map fst (ct_map a)).
Proof.
  intros K eqb a b.
  assert (X : forall la, (exists rest, map fst la = looked (snd (hm_eq_t eqb la (ct_map b))) ++ rest) /\
    (fst (hm_eq_t eqb la (ct_map b)) = true -> looked (snd (hm_eq_t eqb la (ct_map b))) = map fst la)).
  { induction la as [|[k v] la [(rest & A) B]]; cbn [hm_eq_t].
    - split; [exists []; reflexivity|reflexivity].
    - destruct (hm_get eqb k (ct_map b)) as [w|]; [destruct (v =? w)|].
      + destruct (hm_eq_t eqb la (ct_map b)) as [r t]. cbn [fst snd] in *. cbn. fold (looked t). split; [exists rest; now rewrite A|]. intros R. now rewrite (B R).
      + split; [exists (map fst la); reflexivity|discriminate].
      + split; [exists (map fst la); reflexivity|discriminate]. }
  unfold ct_eq. rewrite <- er_eq. unfold ct_eq_t. destruct (length (ct_map a) =? length (ct_map b)); [apply X|].
  split; [exists (map fst (ct_map a)); reflexivity|discriminate].
Qed.
Print Assumptions c100_comparing_looks_up_each_entry_once.

Example c100_ex :
  ct_from_iter_t keq Ec false 2 word = (Ret ca,
    [Room 2; Look (1, 10); Room 1; Look (2, 20); Room 2; Look (1, 11); Look (3, 30); Room 3; Look (1, 12); Look (2, 21)]) /\
  looked (snd (ct_step_t keq kcl Ec true true (OPush (9, 9)) ca)) = [(9, 9)] /\
  snd (ct_step_t keq kcl Ec false true (OSub [((1, 5), 1); ((7, 7), 2)]) ca) = [Look (1, 5); Look (7, 7); Room 4] /\
  snd (ct_eq_t keq (ct_map ca) ca) = [Look (3, 30); Look (2, 20); Look (1, 10)] /\
  (** the second of three items panics: its count is full *)
  looked (snd (ct_step_t keq kcl Ec false false (OAdd [((4, 4), 1); ((1, 0), 255); ((3, 3), 1)]) ca)) = [(4, 4); (1, 0)].
Proof. repeat split. Qed.

(** ** C101 *)
(** a counter never holds more entries than its table has room for *)
Theorem c101_entries_have_room : forall K (eqb : K -> K -> bool) cl E ee ei g ops c' tr t room,
  ct_run_t eqb cl E ee ei ops (ct_new K) = ((c', tr), t) -> granted (alloc_max E) g 0 (demanded t) room -> ct_len c' <= room.
Proof. intros K eqb cl E ee ei g ops c' tr t room X. apply (@run_fits K eqb cl E ee ei g ops (ct_new K) c' tr t 0 room X). cbn. lia. Qed.
Print Assumptions c101_entries_have_room.

(** the room demanded is that of the entries, one more, or what the caller
    announced (a size hint, or the argument of [reserve]) *)
Theorem c101_demands_partial : forall K (eqb : K -> K -> bool) cl E ee ei o c c' r t d,
  ct_step_t eqb cl E ee ei o c = ((c', r), t) -> In d (demanded t) ->
  d <= S (Nat.max (ct_len c) (ct_len c')) \/ exists h, announced o = Some h /\ d = ct_len c + h.
Proof. exact (fun K eqb cl E ee ei o c c' r t d => @dm_step K eqb cl E ee ei o c c' r t d). Qed.
Print Assumptions c101_demands_partial.

(** so the table stays within what its growth [g] makes of [P], if at all times
    there are less than [P] entries and no more than [P] with those announced *)
Theorem c101_memory_of_a_history_partial : forall K (eqb : K -> K -> bool) cl E ee ei g ops c' tr t room P B,
  ct_run_t eqb cl E ee ei ops (ct_new K) = ((c', tr), t) ->
  (forall ops1 ops2, ops = ops1 ++ ops2 -> ct_len (fst (ct_run eqb cl E ops1 (ct_new K))) < P /\
     forall o ops3 n, ops2 = o :: ops3 -> announced o = Some n -> ct_len (fst (ct_run eqb cl E ops1 (ct_new K))) + n <= P) ->
  (forall d, d <= P -> g d <= B) -> granted (alloc_max E) g 0 (demanded t) room -> room <= B.
Proof.
  intros K eqb cl E ee ei g ops c' tr t room P B X HP Hg G.
  apply (@run_bound K eqb cl E ee ei g ops (ct_new K) c' tr t 0 room P B X HP Hg); [lia|exact G].
Qed.
Print Assumptions c101_memory_of_a_history_partial.

(** with a size hint of at most [k + 1], collecting a series with [k] different
    elements takes the documented O(k) *)
Theorem c101_memory_of_initialization_partial : forall K (eqb : K -> K -> bool) E ee g hint xs k c t room B,
  eq_laws eqb -> 1 <= usize_max E -> debug_build E = true \/ (forall x, occ eqb x xs <= usize_max E) ->
  has_distinct eqb xs k -> ct_from_iter_t eqb E ee hint xs = (Ret c, t) ->
  (forall d, d <= Nat.max hint (S k) -> g d <= B) -> granted (alloc_max E) g 0 (demanded t) room -> room <= B.
Proof.
  intros K eqb E ee g hint xs k c t room B L U O HD X Hg G. apply (granted_le G); [lia|]. intros d Hd. apply Hg.
  assert (R : ct_from_iter eqb E hint xs = Ret c) by (rewrite <- er_from_iter with (ee := ee); now rewrite X).
  destruct (@from_iter_counts K eqb L E U hint xs c R O) as (_ & _ & HL).
  assert (ct_len c = k).
  { destruct HL as (ks & D1 & L1 & I1), HD as (ks' & D2 & L2 & I2). subst k. rewrite <- L1.
    assert (T : forall a b : list K, distinct eqb a -> distinct eqb b ->
      (forall x, (exists y, In y a /\ eqb x y = true) -> exists y, In y b /\ eqb x y = true) -> length a <= length b).
    { intros a b Da Db H. pose proof (@distinct_incl_length K nat eqb L a (map (fun y => (y, 0)) b)) as Q.
      rewrite map_length in Q. apply Q; [exact Da|]. intros x Hx N. rewrite entry_of_none in N.
      destruct (H x) as (y & Hy & Q2); [exists x; split; [exact Hx|apply L]|].
      specialize (N (y, 0)). cbn in N. rewrite Q2 in N. discriminate N. apply in_map_iff. exists y. auto. }
    apply Nat.le_antisymm; apply T; auto; intros x Hx; [apply I2, I1, Hx|apply I1, I2, Hx]. }
  apply (@dm_from_iter K eqb (fun x => x)) in X as [_ D]. destruct (D d Hd); lia.
Qed.
Print Assumptions c101_memory_of_initialization_partial.

(** but the table has room for as many entries as the size hint announces, so the
    memory is not O(k): one element repeated is enough *)
Theorem c101_memory_is_not_linear_in_distinct_refuted : forall K (eqb : K -> K -> bool) E ee (x : K) a b,
  eq_laws eqb -> a + b + 1 <= alloc_max E -> a + b + 1 <= usize_max E ->
  exists xs c t, length xs <= alloc_max E /\ has_distinct eqb xs 1 /\
    ct_from_iter_t eqb E ee (length xs) xs = (Ret c, t) /\ ct_len c = 1 /\
    forall g room, granted (alloc_max E) g 0 (demanded t) room -> a * 1 + b < room.
Proof.
  intros K eqb E ee x a b L HA HU. set (n := a + b + 1) in *. set (xs := repeat x n).
  assert (HD : has_distinct eqb xs 1).
  { exists [x]. split; [repeat constructor|]. split; [reflexivity|]. intros y. split.
    - intros (k & [<-|[]] & Q). exists x. split; [|exact Q]. unfold xs, n. rewrite Nat.add_1_r. left. reflexivity.
    - intros (k & Hk & Q). apply repeat_spec in Hk. subst k. exists x. split; [left; reflexivity|exact Q]. }
  assert (O : forall y, occ eqb y xs <= usize_max E).
  { intros y. unfold occ. pose proof (filter_short (eqb y) xs) as F. unfold xs in F at 2. rewrite repeat_length in F. lia. }
  assert (U : 1 <= usize_max E) by lia.
  destruct (@c42_from_iter_returns K eqb E n xs 1 L U HA HD) as (c & Hc); [lia|auto|].
  exists xs, c, (snd (ct_from_iter_t eqb E ee n xs)). unfold xs at 1 3. rewrite repeat_length. fold xs.
  assert (X : ct_from_iter_t eqb E ee n xs = (Ret c, snd (ct_from_iter_t eqb E ee n xs))).
  { rewrite <- Hc. rewrite <- er_from_iter with (ee := ee). apply surjective_pairing. }
  destruct (@c42_from_iter_counts_occurrences K eqb E n xs c L U Hc (or_intror O)) as [G HL].
  split; [exact HA|]. split; [exact HD|]. split; [exact X|]. split.
  - destruct HL as (ks & D & Len & I). rewrite <- Len.
    assert (F : forall y, In y ks -> eqb y x = true).
    { intros y Hy. destruct (proj1 (I y)) as (z & Hz & Q); [exists y; split; [exact Hy|apply L]|]. apply repeat_spec in Hz. now subst z. }
    destruct ks as [|k1 [|k2 ks]]; [exfalso|reflexivity|exfalso].
    + destruct (proj2 (I x)) as (z & [] & _). exists x. split; [unfold xs, n; rewrite Nat.add_1_r; left; reflexivity|apply L].
    + inversion D as [|? ? D1 _]; subst. inversion D1 as [|? ? D2 _]; subst.
      rewrite (@eq_trans' K eqb L k1 x k2) in D2; [discriminate| |].
      * apply F. left; reflexivity.
      * apply (eq_sym' L). apply F. right; left; reflexivity.
  - intros g room Gr. apply (@dm_from_iter K eqb (fun x => x)) in X as [D _]. apply granted_grows in Gr as [_ Gd]. specialize (Gd n D HA). unfold n in Gd. lia.
Qed.
Print Assumptions c101_memory_is_not_linear_in_distinct_refuted.

(** likewise [extend] *)
Theorem c101_extend_demands_its_hint_refuted : forall K (eqb : K -> K -> bool) E ee h xs c c' r t g have room,
  ct_extend_t eqb E ee h xs c = ((c', r), t) -> ct_len c + h <= alloc_max E ->
  granted (alloc_max E) g have (demanded t) room -> ct_len c + h <= room.
Proof.
  intros K eqb E ee h xs c c' r t g have room X H G. apply (@dm_extend K eqb (fun x => x)) in X as [D _]. apply granted_grows in G as [_ Gd]. auto.
Qed.
Print Assumptions c101_extend_demands_its_hint_refuted.

(** six equal letters: room for six entries is demanded, one is used; pushing them
    demands room for one (for two in the std of 2018) *)
Example c101_ex :
  demanded (snd (ct_from_iter_t keq Ec false 6 (repeat (1, 1) 6))) = [6; 1] /\
  fst (ct_from_iter_t keq Ec false 6 (repeat (1, 1) 6)) = Ret (Counter [((1, 1), 6)]) /\
  demanded (snd (ct_run_t keq kcl Ec false false (repeat (OPush (1, 1)) 6) (ct_new key))) = [1] /\
  demanded (snd (ct_run_t keq kcl Ec true true (repeat (OPush (1, 1)) 3) (ct_new key))) = [1; 2; 2] /\
  granted 16 (fun d => 2 * d) 0 [6; 1] 12 /\ granted 16 (fun d => 2 * d) 0 [1] 2 /\
  has_distinct keq word 3 /\ demanded (snd (ct_from_iter_t keq Ec true 4 word)) = [4; 1; 2; 3; 3; 4; 4].
Proof.
  repeat split.
  - eapply gr_meet with (r := 12); try lia. eapply gr_meet with (r := 12); try lia. constructor.
  - eapply gr_meet with (r := 2); try lia. constructor.
  - destruct (@c42_from_iter_counts_occurrences key keq Ec 4 word ca keq_laws) as [_ H]; auto.
    apply Nat.leb_le. reflexivity.
Qed.

(** ** C102 *)
(** [t] sorts every vector of [k] entries by [usize::MAX - count], as [most_common]
    and [into_most_common] need *)
Definition sorts_entries (K : Type) (E : machine) (k : nat) (t : sorting) : Prop :=
  forall es : list (K * nat), length es = k -> Forall (fun e => snd e <= usize_max E) es ->
  sort_by_key_gives (ct_sort_key E) es
    (pick es (result t (fun i => match nth_error es i with Some e => usize_max E - snd e | None => 0 end))).

Lemma pick_ranks {K} (ks : list K) k (f : nat -> nat) r : length ks = k ->
  map snd (pick (combine ks (map f (seq 0 k))) r) = map f (filter (fun i => i <? k) r).
Proof.
  intros L. induction r as [|i r IH]; [reflexivity|]. unfold pick in *. cbn [flat_map filter].
  assert (N : nth_error (combine ks (map f (seq 0 k))) i = if i <? k then match nth_error ks i with Some x => Some (x, f i) | None => None end else None).
  { destruct (Nat.ltb_spec i k) as [H|H].
    - clear IH r. assert (G : forall s k (ks : list K) i, length ks = k -> i < k -> nth_error (combine ks (map f (seq s k))) i =
        match nth_error ks i with Some x => Some (x, f (s + i)) | None => None end).
      { clear. intros s k. revert s. induction k as [|k IH]; intros s [|x ks] [|i] L H; try discriminate; try lia; cbn.
        - now rewrite Nat.add_0_r.
        - injection L as L. rewrite IH by lia. now rewrite Nat.add_succ_r. }
      rewrite (G 0 k ks i L H). reflexivity.
    - apply nth_error_None. rewrite combine_length, map_length, seq_length. lia. }
  rewrite N. destruct (Nat.ltb_spec i k) as [H|H]; [|exact IH].
  destruct (nth_error ks i) as [x|] eqn:Q; [cbn; now rewrite IH|]. apply nth_error_None in Q. lia.
Qed.

(** whatever way of sorting by comparisons std uses, some counters of [k] entries
    make [most_common] compare more than [a * k + b] times: the documented O(k)
    does not hold *)
Theorem c102_most_common_is_not_linear_refuted : forall a b, exists k, forall K (eqb : K -> K -> bool) E (ks : list K) t,
  k <= usize_max E -> k <= alloc_max E -> length ks = k -> distinct eqb ks -> sorts_entries K E k t ->
  exists c, ct_valid eqb E c /\ map fst (ct_map c) = ks /\
    a * k + b < asked t (fun i => match nth_error (ct_map c) i with Some e => usize_max E - snd e | None => 0 end).
Proof.
  intros a b. destruct (fact_beats a b) as (k & Hk & HF). exists k. intros K eqb E ks t HU HA HL HD HS.
  set (D := a * k + b) in *. set (es := fun p => combine ks (map (ranked k p) (seq 0 k))).
  set (key := fun p i => match nth_error (es p) i with Some e => usize_max E - snd e | None => 0 end).
  assert (Len : forall p, length (es p) = k) by (intros p; unfold es; rewrite combine_length, map_length, seq_length; lia).
  assert (Max : forall p, Forall (fun e => snd e <= usize_max E) (es p)).
  { intros p. apply Forall_forall. intros [x n] I. apply in_combine_r, in_map_iff in I as (i & <- & _). cbn. unfold ranked. lia. }
  assert (Snd : forall p, map snd (es p) = map (ranked k p) (seq 0 k)).
  { intros p. unfold es. assert (Q : length ks = length (map (ranked k p) (seq 0 k))) by (rewrite map_length, seq_length; lia).
    revert Q. generalize (map (ranked k p) (seq 0 k)). clear. induction ks as [|x ks IH]; intros [|y l] Q; try discriminate; [reflexivity|].
    cbn. f_equal. apply IH. now injection Q. }
  assert (Fst : forall p, map fst (es p) = ks).
  { intros p. unfold es. assert (Q : length ks = length (map (ranked k p) (seq 0 k))) by (rewrite map_length, seq_length; lia).
    revert Q. generalize (map (ranked k p) (seq 0 k)). clear. induction ks as [|x ks IH]; intros [|y l] Q; try discriminate; [reflexivity|].
    cbn. f_equal. apply IH. now injection Q. }
  destruct (Exists_dec (fun p => D < asked t (key p)) (perms k)) as [X|X].
  { intros p. destruct (lt_dec D (asked t (key p))); auto. }
  - apply Exists_exists in X as (p & Hp & HX). exists (Counter (es p)). split; [|split].
    + split; [split|]; cbn [ct_map].
      * rewrite Fst. exact HD.
      * apply Max.
      * unfold ct_len. cbn [ct_map]. rewrite Len. exact HA.
    + cbn. apply Fst.
    + exact HX.
  - exfalso. assert (I : incl (perms k) (map (filter (fun i => i <? k)) (results D t))).
    { intros p Hp. apply in_map_iff. exists (result t (key p)). split.
      - destruct (HS (es p) (Len p) (Max p)) as (P & S & _). fold (key p) in P, S. apply order_found; [exact Hp| |].
        + apply (Permutation_map snd) in P. rewrite Snd in P. unfold es in P. now rewrite (pick_ranks ks k _ _ HL) in P.
        + rewrite <- (pick_ranks ks k (ranked k p) _ HL). fold (es p). revert S.
          assert (M : Forall (fun e => snd e <= usize_max E) (pick (es p) (result t (key p)))).
          { rewrite Forall_forall. intros e He. apply (Permutation_in _ (Permutation_sym P)) in He. exact (proj1 (Forall_forall _ _) (Max p) e He). }
          revert M. generalize (pick (es p) (result t (key p))). clear. induction l as [|e l IH]; intros M S; cbn; [constructor|].
          inversion M; subst. inversion S as [|? ? S1 S2]; subst. constructor; [|apply IH; auto].
          rewrite Forall_forall in *. intros n Hn. apply in_map_iff in Hn as (e' & <- & He'). destruct (S1 _ He') as (x & y & Qx & Qy & Le).
          unfold ct_sort_key in Qx, Qy. rewrite usub_fits in Qx by auto. rewrite usub_fits in Qy by auto. injection Qx as <-. injection Qy as <-.
          match goal with H : forall x, In x l -> snd x <= _ |- _ => specialize (H _ He') end. lia.
      - apply results_in. apply Nat.nlt_ge. intros HX. apply X. apply Exists_exists. eauto. }
    apply NoDup_incl_length in I; [|apply perms_NoDup]. rewrite perms_length, map_length in I. pose proof (results_length D t). lia.
Qed.
Print Assumptions c102_most_common_is_not_linear_refuted.

Lemma msort_sorts K E k n : k <= 2 ^ n -> sorts_entries K E k (msort_t n (seq 0 k)).
Proof.
  intros Hk.
  intros es L M. set (key := fun i => match nth_error es i with Some e => usize_max E - snd e | None => 0 end).
  destruct (msort_ok key n (seq 0 k)) as (A & B & _); [now rewrite seq_length|]. set (r := result (msort_t n (seq 0 k)) key) in *.
  assert (P0 : pick es (seq 0 k) = es).
  { subst k. clear. unfold pick. assert (G : forall pre post : list (K * nat), flat_map (fun i => match nth_error (pre ++ post) i with Some x => [x] | None => [] end)
      (seq (length pre) (length post)) = post).
    { intros pre post. revert pre. induction post as [|x post IH]; intros pre; [reflexivity|]. cbn [length seq flat_map].
      rewrite nth_error_app2, Nat.sub_diag by lia. cbn. f_equal. specialize (IH (pre ++ [x])).
      rewrite app_length, <- app_assoc in IH. cbn in IH. now rewrite Nat.add_1_r in IH. }
    exact (G [] es). }
  assert (Max : forall e, In e es -> ct_sort_key E e = Ret (usize_max E - snd e)).
  { intros e He. unfold ct_sort_key. rewrite Forall_forall in M. now rewrite usub_fits by (apply M; exact He). }
  assert (Inn : forall e q, In e (pick es q) -> In e es).
  { intros e q H. apply in_flat_map in H as (i & _ & H). destruct (nth_error es i) eqn:Q; [|destruct H]. destruct H as [<-|[]]. eapply nth_error_In; eauto. }
  split; [|split].
  - rewrite <- P0 at 1. unfold pick. apply Permutation_flat_map. exact B.
  - clear B. unfold rising in A. revert A. generalize r. induction r0 as [|i q IH]; intros S; cbn; [constructor|].
    inversion S as [|? ? S1 S2]; subst. destruct (nth_error es i) as [e|] eqn:Q; cbn; [|apply IH; exact S2]. constructor; [|apply IH; exact S2].
    apply Forall_forall. intros e' He'. exists (usize_max E - snd e), (usize_max E - snd e'). split; [apply Max; eapply nth_error_In; eauto|].
    split; [apply Max; apply (Inn e' q); exact He'|]. apply in_flat_map in He' as (j & Hj & He'). rewrite Forall_forall in S1. specialize (S1 j Hj).
    unfold key in S1. rewrite Q in S1. destruct (nth_error es j); [|destruct He']. destruct He' as [->|[]]. exact S1.
  - apply Forall_forall. intros e He. eexists. apply Max. eapply Inn. exact He.
Qed.

(** [k * log2 k] comparisons are enough: merge sort, for example *)
Theorem c102_most_common_in_k_log_k : forall K E k n, k <= 2 ^ n -> exists t,
  sorts_entries K E k t /\ forall key, asked t key <= k * n.
Proof.
  intros K E k n Hk. exists (msort_t n (seq 0 k)). split; [now apply msort_sorts|].
  intros key. destruct (msort_ok key n (seq 0 k)) as (_ & _ & C); rewrite seq_length in *; auto.
Qed.
Print Assumptions c102_most_common_in_k_log_k.

(** what is found by such a way of sorting is what [most_common] may return *)
Theorem c102_sorting_gives_most_common : forall K (cl : K -> K) E c l t,
  Forall (fun e => snd e <= usize_max E) (ct_map c) -> ct_into_iter c l -> sorts_entries K E (length l) t ->
  let v := map (fun e => (cl (fst e), snd e)) l in
  ct_most_common cl E c (pick v (result t (fun i => match nth_error v i with Some e => usize_max E - snd e | None => 0 end))) /\
  ct_into_most_common E c (pick l (result t (fun i => match nth_error l i with Some e => usize_max E - snd e | None => 0 end))).
Proof.
  intros K cl E c l t M I S v.
  assert (Ml : Forall (fun e => snd e <= usize_max E) l) by (eapply Permutation_Forall; [exact I|exact M]).
  split; exists l; (split; [exact I|]); apply S; auto.
  - unfold v. now rewrite map_length.
  - unfold v. rewrite Forall_map. exact Ml.
Qed.
Print Assumptions c102_sorting_gives_most_common.

(** three entries: merge sort compares three times *)
Example c102_ex :
  sorts_entries key Ec 3 (msort_t 2 (seq 0 3)) /\ ct_valid keq Ec ca /\
  pick (ct_map ca) (result (msort_t 2 (seq 0 3)) (fun i => nth i [254; 253; 252] 0)) = [((1, 10), 3); ((2, 20), 2); ((3, 30), 1)] /\
  asked (msort_t 2 (seq 0 3)) (fun i => nth i [254; 253; 252] 0) = 3 /\
  ct_into_most_common Ec ca [((1, 10), 3); ((2, 20), 2); ((3, 30), 1)].
Proof.
  split; [apply msort_sorts; cbn; lia|]. split; [apply ca_valid|]. split; [reflexivity|]. split; [reflexivity|].
  apply (@c102_sorting_gives_most_common key kcl Ec ca (ct_map ca) (msort_t 2 (seq 0 3))).
  - apply ca_valid.
  - apply Permutation_refl.
  - apply msort_sorts. cbn. lia.
Qed.
