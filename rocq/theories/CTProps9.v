(** C113: the rest of the map that a counter is. *)
From Coq Require Import Permutation Lia Arith.
From Verif Require Import Base HMModel HMProofs CTSpec CTSpec8 CTModel CTModel7 CTRun CTProofs CTProofs2 CTProofs4 CTProofs12 CTProps.
Local Open Scope outcome_scope.
Set Implicit Arguments.

(** Histories of the counter's own calls and those of the map, the user's closures
    writing what they like and panicking where they like: every call does what it
    does on a finite map from keys to numbers. *)
Theorem c113_history_with_the_map_calls : forall K (eqb : K -> K -> bool) cl E cs c c' tr,
  eq_laws eqb -> (forall k, eqb (cl k) k = true) -> 1 <= usize_max E ->
  ct_valid eqb E c -> Forall (call_ok eqb E) cs -> ct_calls eqb cl E cs c = (c', tr) ->
  ct_valid eqb E c' /\ calls eqb E cl cs (shown eqb c) (shown eqb c') tr.
Proof. intros K eqb cl E cs c c' tr L CL U. exact (@calls_run K eqb L E cl CL U cs c c' tr). Qed.
Print Assumptions c113_history_with_the_map_calls.

(** A loop over the counts loses no key and adds none, wherever its body panics; the
    instances of the keys are those that were there. *)
Theorem c113_loops_over_the_counts_keep_the_keys : forall K (eqb : K -> K -> bool) E pick g c c' r,
  eq_laws eqb -> ct_valid eqb E c -> (forall l : list (K * nat), Permutation l (pick l)) ->
  ct_update pick g c = (c', r) ->
  ct_len c' = ct_len c /\ forall x, option_map fst (shown eqb c' x) = option_map fst (shown eqb c x).
Proof.
  intros K eqb E pick g c c' r L V P H. unfold ct_update in H. destruct (visit g 0 (pick (ct_map c))) as [l' b] eqn:Q. injection H as <- _.
  edestruct visit_nth as (KS & _); [exact Q|]. specialize (P (ct_map c)). destruct V as [[D F] N].
  assert (W : hm_wf eqb (ct_map c)) by (apply wf_keys; exact D).
  split; [unfold ct_len; cbn; rewrite <- (map_length fst l'), KS, map_length; now apply Permutation_length, Permutation_sym|].
  intros x. unfold shown, ct_get_key_value. cbn. rewrite <- (entry_of_perm L x W P).
  generalize (pick (ct_map c)), KS. clear. induction l' as [|[k n] l' IH]; intros [|[k2 n2] l] KS; try discriminate; [reflexivity|].
  injection KS as -> KS. cbn. destruct (eqb x k2); [reflexivity|]. exact (IH _ KS).
Qed.
Print Assumptions c113_loops_over_the_counts_keep_the_keys.

(** [retain] with a closure that panics: what the closure did not refuse stays, with
    what it wrote if it was asked; whoever was not asked is untouched.  It never adds. *)
Theorem c113_interrupted_retain_loses_only_the_refused : forall K (eqb : K -> K -> bool) E pick p c c' r,
  eq_laws eqb -> ct_valid eqb E c ->
  (forall l : list (K * nat), Permutation l (pick l)) -> (forall i k n, fst (p i k n) <= usize_max E) ->
  ct_sift pick p c = (c', r) ->
  ct_len c' <= ct_len c /\
  (forall x k n, shown eqb c x = Some (k, n) -> shown eqb c' x = None -> exists i, snd (p i k n) = Some false) /\
  (forall x k v, shown eqb c' x = Some (k, v) -> exists n, shown eqb c x = Some (k, n) /\
     (v = n \/ exists i, v = fst (p i k n) /\ snd (p i k n) <> Some false)).
Proof.
  intros K eqb E pick p c c' r L V P B H.
  assert (H' := H). unfold ct_sift in H'. destruct (sift p 0 (pick (ct_map c))) as [l' b] eqn:Q. injection H' as C' _.
  destruct (@sift_nth K eqb p _ _ _ _ Q) as (_ & LE & _).
  destruct (@sift_ok K eqb L E (fun k => k) pick p c c' r V P B H) as [V' (l & m & (EN1 & EN2) & A1 & A2 & _)].
  split; [rewrite <- C'; unfold ct_len; cbn; now rewrite (Permutation_length (P (ct_map c)))|].
  assert (G : forall x k n, shown eqb c x = Some (k, n) -> eqb x k = true /\ exists i, nth_error l i = Some (k, n)).
  { intros x k n S. apply EN2 in S. destruct S as [S X]. split; [exact X|]. now apply In_nth_error. }
  split.
  - intros x k n S1 S2. destruct (G _ _ _ S1) as [X (i & N)]. rewrite (A2 _ _ _ _ N X) in S2.
    destruct (i <? m); [|discriminate]. exists i. destruct (snd (p i k n)) as [[|]|]; congruence.
  - intros x k v S1. destruct (shown eqb c x) as [[k2 n]|] eqn:S2; [|rewrite (A1 _ S2) in S1; discriminate].
    destruct (G _ _ _ S2) as [X (i & N)]. rewrite (A2 _ _ _ _ N X) in S1. destruct (i <? m).
    + destruct (snd (p i k2 n)) as [[|]|] eqn:T; try discriminate; injection S1 as <- <-; exists n; (split; [reflexivity|]); right; exists i; rewrite T; split; auto; discriminate.
    + injection S1 as <- <-. eauto.
Qed.
Print Assumptions c113_interrupted_retain_loses_only_the_refused.

(** Extending the map with pairs, unlike extending the counter, sets the numbers: of
    several for one key the last stays. *)
Theorem c113_pairs_replace_the_counts : forall K (eqb : K -> K -> bool) E hint l c c',
  eq_laws eqb -> 1 <= usize_max E -> ct_valid eqb E c ->
  (forall k n, In (k, n) l -> n <= usize_max E) -> hint <= usize_max E ->
  ct_extend_pairs eqb E hint (map Some l) c = (c', Ret tt) ->
  (forall k n l1 l2, l = l1 ++ (k, n) :: l2 -> (forall k2 n2, In (k2, n2) l2 -> eqb k k2 = false) -> ct_get eqb c' k = Some n) /\
  (forall x, (forall k n, In (k, n) l -> eqb x k = false) -> ct_get eqb c' x = ct_get eqb c x).
Proof.
  intros K eqb E hint l c c' L U V B HH H. set (cl := fun k : K => k). assert (CL : forall k, eqb (cl k) k = true) by apply (eq_refl' L).
  assert (Q : ct_call eqb cl E (CExtendPairs hint (map Some l)) c = (c', Ret AUnit)) by (cbn; now rewrite H).
  assert (Ok : call_ok eqb E (CExtendPairs hint (map Some l))).
  { split; auto. intros k n I1. apply in_map_iff in I1. destruct I1 as ([k2 n2] & X & I1). injection X as -> ->. eauto. }
  destruct (@call_ok_step K eqb L E cl CL U _ _ _ _ V Ok Q) as [_ (w & _ & [(_ & _ & X)|(_ & l2 & rest & X & S1 & R)])]; [discriminate|].
  assert (rest = []) by (destruct rest as [|[e|] rest]; [reflexivity|destruct R as [R _]; discriminate|discriminate]). subst rest. rewrite app_nil_r in X.
  assert (l2 = l).
  { clear - X. revert l X. induction l2 as [|a l2 IH]; intros [|b l] X; try discriminate; auto. injection X as -> X. f_equal. now apply IH. }
  subst l2. clear X.
  assert (GET : forall d x, ct_get eqb d x = option_map snd (shown eqb d x)) by (intros d x; unfold ct_get, hm_get, shown, ct_get_key_value; destruct (hm_entry_of eqb x (ct_map d)) as [[? ?]|]; reflexivity).
  assert (NOT : forall x l3, (forall k n, In (k, n) l3 -> eqb x k = false) -> entry_in eqb l3 x = None).
  { intros x l3 F. unfold entry_in. destruct (find _ l3) as [[k n]|] eqn:FD; [|reflexivity]. apply find_some in FD. destruct FD as [I1 I2]. cbn in I2. rewrite (F _ _ I1) in I2. discriminate. }
  assert (REV : forall x (l3 : list (K * nat)), (forall k n, In (k, n) l3 -> eqb x k = false) -> forall k n, In (k, n) (rev l3) -> eqb x k = false) by (intros x l3 F k n I1; apply (F k n); now apply in_rev).
  split.
  - intros k n l1 l2 -> F. rewrite GET, S1. unfold overwrite.
    assert (R1 : entry_in eqb (rev (l1 ++ (k, n) :: l2)) k = Some (k, n)).
    { rewrite rev_app_distr. cbn [rev]. rewrite !entry_in_app. rewrite (NOT k (rev l2)) by (apply REV; exact F). unfold entry_in at 1. cbn. now rewrite (eq_refl' L). }
    rewrite R1. destruct (shown eqb c k) as [[? ?]|]; [reflexivity|].
    assert (R2 : exists e, entry_in eqb (l1 ++ (k, n) :: l2) k = Some e).
    { rewrite entry_in_app. destruct (entry_in eqb l1 k); [eauto|]. unfold entry_in. cbn. rewrite (eq_refl' L). eauto. }
    destruct R2 as [[? ?] ->]. reflexivity.
  - intros x F. rewrite !GET, S1. unfold overwrite. rewrite (NOT x l F), (NOT x (rev l) (REV x l F)). now destruct (shown eqb c x) as [[? ?]|].
Qed.
Print Assumptions c113_pairs_replace_the_counts.

(** Counting through the entry API is [push], as long as no count overflows. *)
Theorem c113_counting_by_hand_is_push : forall K (eqb : K -> K -> bool) E k c,
  eq_laws eqb -> 1 <= usize_max E -> (forall n, ct_get eqb c k = Some n -> n < usize_max E) ->
  ct_push eqb E k c = (fst (ct_or_insert eqb E k 0 S c), omap (fun _ => tt) (snd (ct_or_insert eqb E k 0 S c))).
Proof.
  intros K eqb E k c L U B. unfold ct_push, ct_bump, ct_or_insert, hm_or_insert. unfold ct_get in B. unfold hm_entry.
  destruct (hm_get eqb k (ct_map c)) as [old|] eqn:G.
  - specialize (B _ eq_refl). unfold uadd. replace (old + 1 <=? usize_max E) with true by (symmetry; apply Nat.leb_le; lia). cbn. now rewrite Nat.add_1_r.
  - destruct (hm_reserve E 1 (ct_map c)); cbn; [|now destruct c..]. unfold uadd. cbn [Nat.add].
    replace (1 <=? usize_max E) with true by (symmetry; apply Nat.leb_le; lia). cbn. now rewrite (eq_refl' L).
Qed.
Print Assumptions c113_counting_by_hand_is_push.

(** The user's code of the example: doubles the numbers and panics at a third one;
    refuses even numbers, writes [9] and panics at the number [6]. *)
Definition c113_g (i : nat) (_ : key) (n : nat) : nat * bool := (Nat.min 255 (2 * n), i <? 2).
Definition c113_p (_ : nat) (_ : key) (n : nat) : nat * option bool :=
  (9, if n =? 6 then None else Some (Nat.odd n)).
Definition c113_calls : list (call key) :=
  [COrInsert (1, 77) 0 (fun n => Nat.min 255 (n + 5)); COrInsertWith (6, 60) (Some 3); COrInsertWith (7, 70) None;
   CAndModify (6, 1) (fun n => (Nat.min 255 (n * n), true)) 1; CAndModify (2, 1) (fun n => (Nat.min 255 (n + 5), false)) 1;
   CEntryInsert (8, 80) 4; CEntryRemove (8, 0); CEntryRemove (8, 0); CRemoveEntry (3, 0);
   CUpdate (@rev _) c113_g; CExtendPairs 3 [Some ((2, 0), 6); Some ((5, 50), 4); Some ((5, 51), 1); Some ((3, 31), 8)];
   COwn (OPush (5, 0)); CSift (@rev _) c113_p; CKeys (@rev _); CValues (fun l => l);
   CExtendPairs 1 [Some ((2, 0), 0); None; Some ((9, 0), 1)]; CExtendPairs 31 []; CShrink; CDrain (@rev _) 2; COwn OLen].
Example c113_ex : Forall (call_ok keq Ec) c113_calls /\
  ct_calls keq kcl Ec c113_calls ca =
   (Counter [],
    [Ret (ANat 8); Ret (ANat 3); Panic; Ret (ANat 9); Panic; Ret (AOpt None); Ret (AEntry (Some (8, 80, 4)));
     Ret (AEntry None); Ret (AEntry (Some (3, 30, 1))); Panic; Ret AUnit; Ret (AOwn RUnit); Panic;
     Ret (AKeys [(3, 31); (5, 50); (1, 10); (2, 20)]); Ret (AValues [9; 16; 2; 8]); Panic; Panic; Ret AUnit;
     Ret (AList [(3, 31, 8); (5, 50, 2)]); Ret (AOwn (RNat 0))]).
Proof.
  split; [|vm_compute; reflexivity].
  assert (M : forall n, Nat.min 255 n <= 255) by (intros n; apply Nat.le_min_l).
  assert (G : forall i k n, fst (c113_g i k n) <= 255) by (intros i k n; apply M).
  assert (R : forall l : list (key * nat), Permutation l (rev l)) by apply Permutation_rev.
  assert (N : forall n, n <= 255 <-> Nat.leb n 255 = true) by (intros n; symmetry; apply Nat.leb_le).
  repeat (apply Forall_cons; [cbn [call_ok op_ok usize_max Ec]|]); try apply Forall_nil; try exact I;
    try (apply N; reflexivity); try exact R; try (intros l; apply Permutation_refl); try (split; [exact R|exact G]);
    try (split; [apply N; reflexivity|intros m; apply M]); try (split; [apply N; reflexivity|intros k n X; cbn in X]).
  - repeat (destruct X as [X|X]; [injection X as <- <-; apply N; reflexivity|]). contradiction.
  - split; [exact R|]. intros i k n. apply N. reflexivity.
  - repeat (destruct X as [X|X]; [try discriminate X; injection X as <- <-; apply N; reflexivity|]). contradiction.
  - contradiction.
Qed.
(** a loop that doubles and panics at its third entry; one that refuses the even and
    panics; pairs over a counter; counting by hand *)
Example c113_ex_loops :
  ct_update (@rev _) c113_g ca = (Counter [((1, 10), 6); ((2, 20), 4); ((3, 30), 2)], Panic) /\
  ct_update (@rev _) c113_g cb' = (Counter [((1, 13), 14); ((4, 40), 10)], Ret tt) /\
  ct_sift (fun l => l) c113_p (Counter [((1, 1), 4); ((2, 2), 3); ((3, 3), 6); ((4, 4), 8)]) =
    (Counter [((2, 2), 9); ((3, 3), 9); ((4, 4), 8)], Panic) /\
  ct_extend_pairs keq Ec 3 (map Some [((2, 0), 6); ((5, 50), 4); ((5, 51), 1)]) ca =
    (Counter [((5, 50), 1); ((3, 30), 1); ((2, 20), 6); ((1, 10), 3)], Ret tt) /\
  ct_extend keq Ec 3 [(2, 0); (5, 50); (5, 51)] ca = (Counter [((5, 50), 2); ((3, 30), 1); ((2, 20), 3); ((1, 10), 3)], Ret tt) /\
  ct_or_insert keq Ec (2, 0) 0 S ca = (Counter [((3, 30), 1); ((2, 20), 3); ((1, 10), 3)], Ret 3) /\
  (forall n, ct_get keq ca (2, 0) = Some n -> n < usize_max Ec).
Proof. repeat split; try (vm_compute; reflexivity). intros n H. vm_compute in H. injection H as <-. apply Nat.ltb_lt. reflexivity. Qed.
