(** Proofs about the disjoint set: elements whose [Hash], [Eq] or destructor
    panics. *)
From Coq Require Import Permutation NArith.
From Verif Require Import Base HMModel HMProofs UserSpec2 DSModel DSModel3 DSSpec DSRun DSProofs DSProofs2 DSProofs3 DSProofs4 DSProofs5.
Local Open Scope outcome_scope.
Set Implicit Arguments.

Section Proofs.
Variable K : Type.
Variable eqb : K -> K -> bool.
Hypothesis L : eq_laws eqb.
Variable E : machine.
Variable hp : hmap K nat -> K -> bool.
Variable rp : hmap K nat -> nat -> bool.
Variable dp : K -> bool.
Implicit Types (s : dset K) (g : log K) (x y z a b k : K) (xs : list K).

Notation mem := (mem eqb).
Notation firsts := (firsts eqb).
Notation valid := (valid eqb E).
Notation shows := (shows eqb).
Notation joined := (joined eqb).
Notation full s := (ds_len s =? alloc_max E).
Notation adding s k := (adding (hp (ds_ids s)) dp (ds_contains eqb k s) (full s) k).

(** ** One element *)
Lemma make_u_cases x s s' o : valid s -> ds_make_or_get_u eqb hp dp E x s = (s', o) ->
  omap (fun _ => tt) o = adding s x /\
  ((adding s x = Ret tt /\ ds_make_or_get eqb E x s = (s', o)) \/ (adding s x <> Ret tt /\ s' = s)).
Proof.
  intros V H. unfold ds_make_or_get_u in H. unfold UserSpec2.adding, dropping, drops. cbn [existsb]. rewrite orb_false_r.
  destruct (hp (ds_ids s) x).
  { injection H as <- <-. unfold ds_unwind. destruct (dp x); split; auto; right; split; auto; discriminate. }
  pose proof V as (W & Ld & Le & P & F & Hh). unfold ds_contains. rewrite contains_entry.
  unfold ds_make_or_get. unfold hm_entry, hm_get in *.
  destruct (hm_entry_of eqb x (ds_ids s)) as [[k i]|] eqn:Q; cbn in H; cbn.
  - injection H as <- <-. destruct (dp x); split; auto. right. split; auto. discriminate.
  - unfold hm_reserve, vec_push in *. rewrite Ld in *. unfold ds_len.
    destruct (length (ds_ids s) + 1 <=? alloc_max E) eqn:X; cbn in *.
    + apply Nat.leb_le in X. injection H as <- <-.
      replace (length (ds_ids s) =? alloc_max E) with false by (symmetry; apply Nat.eqb_neq; lia). auto.
    + apply Nat.leb_gt in X.
      replace (length (ds_ids s) =? alloc_max E) with true by (symmetry; apply Nat.eqb_eq; lia).
      injection H as <- <-. unfold ds_unwind. destruct (dp x); split; auto; right; split; auto; discriminate.
Qed.

Lemma make_plain x s s' o : ds_make_or_get eqb E x s = (s', o) -> ds_make_set eqb E x s = (s', omap (fun _ => tt) o).
Proof. intros H. unfold ds_make_set. now rewrite H. Qed.

Lemma make_set_u_end x s s' r : valid s -> ds_make_set_u eqb hp dp E x s = (s', r) ->
  r = adding s x /\
  ((r = Ret tt /\ ds_make_set eqb E x s = (s', Ret tt)) \/ (r <> Ret tt /\ s' = s)).
Proof.
  intros V H. unfold ds_make_set_u in H. destruct (ds_make_or_get_u eqb hp dp E x s) as [s1 o] eqn:M.
  injection H as <- <-. destruct (make_u_cases _ V M) as [Ho [[Q H]|[Q ->]]]; rewrite Ho; split; auto.
  left. split; auto. rewrite (make_plain _ _ H). rewrite Ho, Q. reflexivity.
Qed.

Lemma make_valid x s s' o : valid s -> (exists g, shows s g) -> ds_make_or_get eqb E x s = (s', o) ->
  valid s' /\ exists g, shows s' g.
Proof.
  intros V [g S] H. destruct (make_shows L x V S) as [(s1 & i & k & H1 & V1 & S1 & _)|[H1 _]];
    rewrite H1 in H; injection H as <- <-; eauto.
Qed.

Lemma make_set_u_reach cl x s s' r : valid s -> reachable eqb E cl s ->
  ds_make_set_u eqb hp dp E x s = (s', r) -> reachable eqb E cl s'.
Proof.
  intros V R H. destruct (make_set_u_end _ V H) as [_ [[_ M]|[_ ->]]]; auto.
  eapply (r_step (OMake x) R); [exact Logic.I|]. cbn [ds_step]. rewrite M. reflexivity.
Qed.

(** ** Two elements *)
Lemma union_u_end a b s s' r : valid s -> (exists g, shows s g) ->
  ds_union_u eqb hp dp E a b s = (s', r) ->
  (adding s a <> Ret tt /\ s' = s /\
     r = (match adding s a with Abort => Abort | _ => dropping dp [b] end)) \/
  (adding s a = Ret tt /\ exists s1, ds_make_set eqb E a s = (s1, Ret tt) /\
     ((adding s1 b <> Ret tt /\ s' = s1 /\ r = adding s1 b) \/
      (adding s1 b = Ret tt /\ ds_union eqb E a b s = (s', r)))).
Proof.
  intros V Sh H. unfold ds_union_u in H. destruct (ds_make_or_get_u eqb hp dp E a s) as [s1 o1] eqn:M1.
  destruct (make_u_cases _ V M1) as [Ho1 [[Q1 P1]|[Q1 ->]]].
  - right. split; auto. destruct o1 as [ia| | | |]; cbn in Ho1; try congruence.
    exists s1. split; [exact (make_plain _ _ P1)|].
    destruct (make_valid _ V Sh P1) as [V1 Sh1].
    destruct (ds_make_or_get_u eqb hp dp E b s1) as [s2 o2] eqn:M2.
    destruct (make_u_cases _ V1 M2) as [Ho2 [[Q2 P2]|[Q2 ->]]].
    + right. split; auto. unfold ds_union. rewrite P1, P2. exact H.
    + left. split; auto. rewrite <- Ho2 in *. destruct o2 as [ib| | | |]; cbn in *; try congruence;
        injection H as <- <-; auto.
  - left. split; auto. rewrite <- Ho1 in *. unfold dropping. cbn [existsb]. rewrite orb_false_r.
    destruct o1 as [ia| | | |]; cbn in *; try congruence; injection H as <- <-; auto.
    all: revert Ho1; unfold UserSpec2.adding, dropping, drops; cbn; rewrite orb_false_r;
      destruct (hp (ds_ids s) a), (dp a), (ds_contains eqb a s), (full s); discriminate.
Qed.

Lemma union_u_reach cl a b s s' r : valid s -> (exists g, shows s g) -> reachable eqb E cl s ->
  ds_union_u eqb hp dp E a b s = (s', r) -> reachable eqb E cl s'.
Proof.
  intros V Sh R H. destruct (union_u_end _ _ V Sh H) as [(_ & -> & _)|(_ & s1 & M & [(_ & -> & _)|(_ & P)])]; auto.
  - eapply (r_step (OMake a) R); [exact Logic.I|]. cbn [ds_step]. rewrite M. reflexivity.
  - eapply (r_step (OUnion a b) R); [exact Logic.I|]. cbn [ds_step]. rewrite P. reflexivity.
Qed.

(** ** Questions *)
Lemma in_union_u_end a b s : ds_in_union_u eqb hp a b s =
  if hp (ds_ids s) a || (ds_contains eqb a s && hp (ds_ids s) b) then (s, Panic) else ds_in_union eqb a b s.
Proof.
  unfold ds_in_union_u, ds_in_union, ds_contains, hm_contains. destruct (hp (ds_ids s) a); cbn; auto.
  destruct (hm_get eqb a (ds_ids s)); cbn; auto.
Qed.

(** ** Several elements *)
Lemma makes_u_end xs s s' r : valid s -> (exists g, shows s g) ->
  for_each (ds_make_set_u eqb hp dp E) xs s = (s', r) ->
  (r = Ret tt /\ for_each (ds_make_set eqb E) xs s = (s', Ret tt)) \/
  (r <> Ret tt /\ exists ys z zs, xs = ys ++ z :: zs /\ r = adding s' z /\
     for_each (ds_make_set eqb E) ys s = (s', Ret tt)).
Proof.
  revert s. induction xs as [|x xs IH]; intros s V Sh H; cbn in H; cbn.
  { left. injection H as <- <-. auto. }
  destruct (ds_make_set_u eqb hp dp E x s) as [s1 r1] eqn:M.
  destruct (make_set_u_end _ V M) as [Hr [[-> P]|[Q ->]]].
  - rewrite P. assert (X : valid s1 /\ exists g, shows s1 g).
    { unfold ds_make_set in P. destruct (ds_make_or_get eqb E x s) as [s2 o] eqn:P2.
      injection P as <- _. eapply make_valid; eauto. }
    destruct X as [V1 Sh1]. destruct (IH _ V1 Sh1 H) as [[-> A]|(Q & ys & z & zs & -> & Hz & A)]; [left; auto|].
    right. split; auto. exists (x :: ys), z, zs. split; auto. split; auto. cbn. rewrite P. exact A.
  - right. assert (X : s' = s /\ r = r1).
    { destruct r1 as [[]| | | |]; try congruence; injection H as <- <-; auto. }
    destruct X as [-> ->]. split; auto. exists [], x, xs. cbn. auto.
Qed.

Lemma makes_reach cl xs s s' r : valid s -> (exists g, shows s g) -> reachable eqb E cl s ->
  for_each (ds_make_set eqb E) xs s = (s', r) -> reachable eqb E cl s'.
Proof.
  intros V [g S] R H. eapply (r_step (OExtend 0 xs) R); [exact Logic.I|]. cbn [ds_step]. unfold ds_extend.
  rewrite (reserve_ok 0 V S). replace (size eqb g + 0 <=? alloc_max E) with true.
  - rewrite H. reflexivity.
  - symmetry. apply Nat.leb_le. rewrite (size_len S), Nat.add_0_r. apply V.
Qed.

Lemma extend_u_end cl hint xs s s' r : valid s -> (exists g, shows s g) -> reachable eqb E cl s ->
  ds_extend_u eqb hp rp dp E hint xs s = (s', r) ->
  reachable eqb E cl s' /\
  ((r = Ret tt /\ ds_extend eqb E hint xs s = (s', Ret tt)) \/
   (s' = s /\ r = Panic /\ (rp (ds_ids s) hint = true \/ alloc_max E < ds_len s + hint)) \/
   (r <> Ret tt /\ rp (ds_ids s) hint = false /\ ds_len s + hint <= alloc_max E /\ exists ys z zs, xs = ys ++ z :: zs /\
     r = adding s' z /\ grown eqb s ys s')).
Proof.
  intros V [g S] R H. unfold ds_extend_u in H.
  destruct (rp (ds_ids s) hint); [injection H as <- <-; solve [split; auto 7]|]. unfold ds_extend. rewrite (reserve_ok hint V S) in *.
  rewrite (size_len S) in *. fold (ds_len s) in *. destruct (ds_len s + hint <=? alloc_max E) eqn:Q.
  - apply Nat.leb_le in Q. destruct (makes_u_end _ V (ex_intro _ g S) H) as [[-> A]|(N & ys & z & zs & -> & Hz & A)].
    + split; auto. eapply makes_reach; eauto.
    + split; [eapply makes_reach; eauto|]. right. right. split; auto. split; auto. split; auto. exists ys, z, zs. split; auto.
      split; auto. destruct (makes_grown L _ V (ex_intro _ g S) A) as [[_ G]|[X _]]; [exact G|discriminate].
  - apply Nat.leb_gt in Q. injection H as <- <-. split; auto 6.
Qed.

(** ** The numbers of the elements *)
Definition numbered s xs : Prop :=
  map fst (ds_ids s) = rev (firsts xs) /\ map snd (ds_ids s) = rev (seq 0 (length (ds_ids s))).

Lemma combine_seq (l : list K) n i x : nth_error l i = Some x ->
  nth_error (combine l (seq n (length l))) i = Some (x, n + i).
Proof.
  revert n i. induction l as [|y l IH]; intros n [|i] H; cbn in *; try discriminate.
  - injection H as ->. now rewrite Nat.add_0_r.
  - rewrite (IH (S n) i H). do 2 f_equal. lia.
Qed.

Lemma combine_split_map {A B} (l : list (A * B)) : combine (map fst l) (map snd l) = l.
Proof. induction l as [|[a b] l IH]; cbn; congruence. Qed.

Lemma numbered_len s xs : numbered s xs -> length (ds_ids s) = length (firsts xs).
Proof. intros [A _]. rewrite <- (map_length fst), A, rev_length. reflexivity. Qed.

Lemma numbered_nth s xs i x : numbered s xs -> nth_error (firsts xs) i = Some x -> In (x, i) (ds_ids s).
Proof.
  intros N H. pose proof (numbered_len N) as Ln. destruct N as [A B].
  apply in_rev. rewrite <- (combine_split_map (rev (ds_ids s))), !map_rev, A, B, !rev_involutive, Ln.
  apply nth_error_In with (n := i). exact (combine_seq _ 0 _ H).
Qed.

Lemma numbered_make x s xs s' i : numbered s xs -> ds_make_or_get eqb E x s = (s', Ret i) ->
  numbered s' (xs ++ [x]).
Proof.
  intros N H. pose proof (numbered_len N) as Ln. destruct N as [A B]. unfold numbered. rewrite (firsts_snoc L).
  assert (M : memb eqb x xs = match hm_entry_of eqb x (ds_ids s) with Some _ => true | None => false end).
  { destruct (hm_entry_of eqb x (ds_ids s)) as [[k n]|] eqn:Q.
    - apply entry_of_some in Q. destruct Q as [Q1 Q2]. apply memb_mem. apply (firsts_mem L). exists k. split; auto.
      apply in_rev. rewrite <- A. apply in_map_iff. exists (k, n). auto.
    - apply memb_false. intros X. apply (firsts_mem L) in X. destruct X as (k & I & X).
      apply in_rev in I. rewrite <- A in I. apply in_map_iff in I. destruct I as [[k' n] [<- I]].
      rewrite entry_of_none in Q. specialize (Q _ I). cbn in *. congruence. }
  rewrite M. unfold ds_make_or_get, hm_entry, hm_get in H.
  destruct (hm_entry_of eqb x (ds_ids s)) as [[k n]|] eqn:Q; cbn in H.
  - injection H as <- <-. rewrite app_nil_r. auto.
  - destruct (hm_reserve E 1 (ds_ids s)); cbn in H; try discriminate.
    destruct (vec_push E (ds_data s) (data_new (length (ds_ids s)))); try discriminate. injection H as <- <-.
    cbn [ds_ids]. unfold hm_insert_vacant. cbn [map fst snd length]. rewrite A, B, seq_S, !rev_app_distr. auto.
Qed.

Lemma numbered_makes xs s ys s' r : valid s -> (exists g, shows s g) -> numbered s ys ->
  for_each (ds_make_set eqb E) xs s = (s', r) ->
  exists m m', xs = m ++ m' /\ numbered s' (ys ++ m).
Proof.
  revert s ys. induction xs as [|x xs IH]; intros s ys V [g S] N H; cbn in H.
  { injection H as <- <-. exists [], []. split; auto. now rewrite app_nil_r. }
  unfold ds_make_set in H at 1.
  destruct (make_shows L x V S) as [(s1 & i & k & H1 & V1 & S1 & _)|[H1 _]]; rewrite H1 in H; cbn in H.
  - destruct (IH _ _ V1 (ex_intro _ _ S1) (numbered_make _ N H1) H) as (m & m' & -> & N').
    exists (x :: m), m'. rewrite <- app_assoc in N'. auto.
  - injection H as <- <-. exists [], (x :: xs). split; auto. now rewrite app_nil_r.
Qed.

Lemma firsts_app xs ys : exists t, firsts (xs ++ ys) = firsts xs ++ t.
Proof.
  induction ys as [|y ys IH] using rev_ind.
  - exists []. now rewrite !app_nil_r.
  - destruct IH as [t IH]. rewrite app_assoc, (firsts_snoc L), IH, <- app_assoc. eauto.
Qed.

Lemma prefixes {A} (l m1 m2 n1 n2 : list A) : l = m1 ++ m2 -> l = n1 ++ n2 ->
  (exists t, n1 = m1 ++ t) \/ (exists t, m1 = n1 ++ t).
Proof.
  intros -> H. revert n1 n2 H. induction m1 as [|a m1 IH]; intros n1 n2 H; cbn in *.
  - left. exists n1. reflexivity.
  - destruct n1 as [|b n1]; [right; exists (a :: m1); reflexivity|]. injection H as -> H.
    destruct (IH _ _ H) as [[t ->]|[t ->]]; [left|right]; exists t; reflexivity.
Qed.

Lemma same_numbers s ys l m m' n n' : numbered s (ys ++ m) -> l = m ++ m' -> l = n ++ n' ->
  length (firsts (ys ++ n)) = length (ds_ids s) -> numbered s (ys ++ n).
Proof.
  intros N H1 H2 Ln. pose proof (numbered_len N) as X. destruct N as [A B]. split; auto. rewrite A. f_equal.
  destruct (prefixes _ _ _ _ H1 H2) as [[t ->]|[t ->]]; rewrite app_assoc in *.
  - destruct (firsts_app (ys ++ m) t) as [u Hu]. rewrite Hu in *. rewrite app_length in Ln.
    destruct u; [now rewrite app_nil_r|cbn in Ln; lia].
  - destruct (firsts_app (ys ++ n) t) as [u Hu]. rewrite Hu in *. rewrite app_length in X.
    destruct u; [now rewrite app_nil_r|cbn in X; lia].
Qed.

Lemma adds_prefix xs g g' r : adds eqb E xs g g' r -> exists n n', xs = n ++ n' /\ added g' = added g ++ n.
Proof.
  intros [(_ & -> & _)|(_ & l1 & x & l2 & -> & -> & _)]; [exists xs, []|exists l1, (x :: l2)];
    rewrite ?app_nil_r; auto.
Qed.

Lemma numbered_log s g g' l m m' : numbered s (added g ++ m) -> l = m ++ m' -> shows s g' ->
  (exists n n', l = n ++ n' /\ added g' = added g ++ n) -> numbered s (added g').
Proof.
  intros N H S (n & n' & H2 & Ha). rewrite Ha. apply (same_numbers _ _ _ _ _ N H H2).
  rewrite <- Ha. exact (size_len S).
Qed.

Lemma same_ids s s' xs : ds_ids s' = ds_ids s -> numbered s xs -> numbered s' xs.
Proof. intros Q. unfold numbered. now rewrite Q. Qed.

Lemma find_in_ids i s s' o : ds_find_in i s = (s', o) -> ds_ids s' = ds_ids s.
Proof. unfold ds_find_in. destruct (ds_find _ _ _) as [v o']. intros H. injection H as <- <-. reflexivity. Qed.

Lemma union_numbered a b s xs s' r : valid s -> (exists g, shows s g) -> numbered s xs ->
  ds_union eqb E a b s = (s', r) -> exists m m', [a; b] = m ++ m' /\ numbered s' (xs ++ m).
Proof.
  intros V [g S] N H. unfold ds_union in H.
  destruct (make_shows L a V S) as [(s1 & ia & k & H1 & V1 & S1 & _)|[H1 _]]; rewrite H1 in H; cbn in H.
  2: { injection H as <- <-. exists [], [a; b]. split; auto. now rewrite app_nil_r. }
  pose proof (numbered_make _ N H1) as N1.
  destruct (make_shows L b V1 S1) as [(s2 & ib & k2 & H2 & V2 & S2 & _)|[H2 _]]; rewrite H2 in H; cbn in H.
  2: { injection H as <- <-. exists [a], [b]. auto. }
  pose proof (numbered_make _ N1 H2) as N2. rewrite <- app_assoc in N2.
  exists [a; b], []. split; auto. eapply same_ids; [|exact N2].
  destruct (ds_find_in ia s2) as [s3 [ra| | | |]] eqn:F1; apply find_in_ids in F1;
    try (injection H as <- <-; exact F1).
  destruct (ds_find_in ib s3) as [s4 [rb| | | |]] eqn:F2; apply find_in_ids in F2;
    try (injection H as <- <-; congruence).
  destruct (ra =? rb); [injection H as <- <-; congruence|].
  destruct (ds_link E (ds_data s4) ra rb) as [v o]. injection H as <- <-. cbn. congruence.
Qed.

Lemma extend_numbered hint xs s g s' g' r : valid s -> shows s g -> ds_extend eqb E hint xs s = (s', r) ->
  shows s' g' ->
  (size eqb g + hint <= alloc_max E /\ adds eqb E xs g g' (omap (fun _ => RUnit) r)) \/
  (alloc_max E < size eqb g + hint /\ g' = g /\ omap (fun _ => @RUnit K) r = Panic) ->
  numbered s (added g) -> numbered s' (added g').
Proof.
  intros V S H S' A N. unfold ds_extend in H. rewrite (reserve_ok hint V S) in H.
  destruct (size eqb g + hint <=? alloc_max E) eqn:Q.
  - apply Nat.leb_le in Q. destruct A as [[_ A]|[A _]]; [|lia].
    destruct (numbered_makes _ V (ex_intro _ g S) N H) as (m & m' & Hm & Nm).
    exact (numbered_log _ _ _ Nm Hm S' (adds_prefix A)).
  - apply Nat.leb_gt in Q. destruct A as [[A _]|(_ & -> & _)]; [lia|]. injection H as <- <-. exact N.
Qed.

Lemma step_numbered o s g s' g' r : valid s -> shows s g -> op_ok o -> ds_step eqb E o s = (s', r) ->
  shows s' g' -> allowed eqb E o g g' r -> numbered s (added g) -> numbered s' (added g').
Proof.
  intros V S Ok H S' A N. pose proof (ex_intro (fun g => shows s g) g S) as Sh.
  destruct o; cbn [ds_step allowed] in *.
  - assert (X : exists r0, for_each (ds_make_set eqb E) [x] s = (s', r0)).
    { unfold unit_out in H. injection H as <- _. cbn. destruct (ds_make_set eqb E x s) as [q [[]| | | |]]; cbn; eauto. }
    destruct X as [r0 X]. destruct (numbered_makes _ V Sh N X) as (m & m' & Hm & Nm).
    exact (numbered_log _ _ _ Nm Hm S' (adds_prefix A)).
  - assert (X : exists r0, ds_union eqb E a b s = (s', r0)).
    { unfold unit_out in H. injection H as <- _. destruct (ds_union eqb E a b s); cbn; eauto. }
    destruct X as [r0 X]. destruct (union_numbered _ _ V Sh N X) as (m & m' & Hm & Nm).
    refine (numbered_log _ _ _ Nm Hm S' _). destruct A as [(_ & -> & _)|(_ & A)]; [|exact (adds_prefix A)].
    exists [a; b], []. auto.
  - unfold unit_out in H. destruct (ds_extend eqb E hint xs s) as [s1 r1] eqn:X. injection H as <- <-.
    exact (extend_numbered _ V S X S' A N).
  - unfold unit_out, ds_extend_ref in H. rewrite map_id in H. fold (ds_extend eqb E hint xs s) in H.
    destruct (ds_extend eqb E hint xs s) as [s1 r1] eqn:X. injection H as <- <-.
    exact (extend_numbered _ V S X S' A N).
  - injection H as <- <-. destruct A as [-> _]. split; reflexivity.
  - unfold unit_out in H. injection H as <- _. destruct A as [-> _]. exact N.
  - injection H as <- _. destruct A as [-> _]. exact N.
  - destruct (in_union_ok a b V) as (v & bb & Hq & _). rewrite Hq in H. injection H as <- _. destruct A as [-> _]. exact N.
  - injection H as <- _. destruct A as [-> _]. exact N.
  - injection H as <- _. destruct A as [-> _]. exact N.
  - destruct Ok as [Po Pp]. destruct (iter_ok order pick V Po) as (v & Hq & _). rewrite Hq in H.
    injection H as <- _. destruct A as [-> _]. exact N.
Qed.

(** ** The vector a failed [clear] leaves behind *)
(** [rootd v d i r]: [r] is reached from [i] in [d] steps *)
Inductive rootd (v : list data) : nat -> nat -> nat -> Prop :=
| rootd_self i : i < length v -> pa v i = i -> rootd v 0 i i
| rootd_up d i r : i < length v -> pa v i <> i -> rootd v d (pa v i) r -> rootd v (S d) i r.

Lemma rootd_root v d i r : rootd v d i r -> root v i r.
Proof. induction 1; [now apply root_self|now apply root_up]. Qed.

Lemma rootd_depth v i r : forest v -> root v i r -> exists d, rootd v d i r /\ d <= N.to_nat (rk v r - rk v i).
Proof.
  intros F R. induction R as [i Li P|i r Li P R (d & D & Le)].
  - exists 0. split; [now constructor|lia].
  - exists (S d). split; [now constructor|]. destruct (F i Li) as [_ G]. specialize (G P).
    destruct (root_rank F R) as [Q|Q]; [rewrite Q in *|]; lia.
Qed.

(** redirecting an element to its root shortens paths *)
Lemma rootd_redirect v i r d0 w : rootd v d0 i r -> i <> r ->
  forall d j q, rootd v d j q -> exists d', d' <= d /\ rootd (vec_set v i (Data r w)) d' j q.
Proof.
  intros Ri Ne d j q R. pose proof (rootd_root Ri) as Rr. destruct (root_lt Rr) as [Li Lr].
  pose proof (root_top Rr) as Tr.
  induction R as [j Lj P|d j q Lj P R (d' & Le & IH)].
  - exists 0. split; auto. constructor; [rewrite vec_set_length; auto|]. rewrite (@pa_set v i _ _ Li).
    destruct (j =? i) eqn:Q; auto. apply Nat.eqb_eq in Q. subst j. exfalso. apply Ne.
    exact (root_fun (root_self v Li P) Rr).
  - destruct (Nat.eq_dec j i) as [->|Q].
    + assert (q = r) by exact (root_fun (root_up Lj P (rootd_root R)) Rr). subst q.
      exists 1. split; [lia|]. apply rootd_up; [rewrite vec_set_length; auto| |];
        rewrite (@pa_set v i _ _ Li), Nat.eqb_refl; cbn [parent]; auto.
      constructor; [rewrite vec_set_length; auto|]. rewrite (@pa_set v i _ _ Li).
      replace (r =? i) with false by (symmetry; apply Nat.eqb_neq; auto). exact Tr.
    + exists (S d'). split; [lia|]. apply rootd_up; [rewrite vec_set_length; auto| |];
        rewrite (@pa_set v i _ _ Li); replace (j =? i) with false by (symmetry; apply Nat.eqb_neq; auto); auto.
Qed.

Lemma findd fuel v d i r : rootd v d i r -> d < fuel ->
  exists v', ds_find fuel v i = (v', Ret r) /\ length v' = length v /\
    forall d j q, rootd v d j q -> exists d', d' <= d /\ rootd v' d' j q.
Proof.
  revert v d i. induction fuel as [|fuel IH]; intros v d i R Lt; [lia|].
  destruct (root_lt (rootd_root R)) as [Li Lr]. cbn [ds_find].
  destruct (vec_at_lt v Li) as (e & -> & D).
  assert (P : pa v i = parent e) by (unfold pa; now rewrite D).
  pose proof (root_top (rootd_root R)) as Top. pose proof R as R0.
  inversion R as [? ? T|d1 ? ? ? T R2]; subst.
  - rewrite <- P, T, Nat.eqb_refl. exists v. eauto.
  - rewrite <- P. replace (pa v i =? i) with false by (symmetry; now apply Nat.eqb_neq).
    destruct (IH v d1 (pa v i) R2) as (v1 & Hf & L1 & K1); [lia|]. rewrite Hf.
    destruct (@vec_at_lt _ v1 i) as (e1 & -> & D1); [lia|].
    eexists; split; [reflexivity|]. split; [now rewrite vec_set_length|].
    intros d j q Rj. destruct (K1 _ _ _ Rj) as (d' & Le & Rj'). destruct (K1 _ _ _ R0) as (d0 & _ & Ri').
    assert (Ne : i <> r) by (intros ->; auto).
    destruct (rootd_redirect (rank e1) Ri' Ne Rj') as (d'' & Le' & X). exists d''. split; [lia|exact X].
Qed.

(** what [make_set] appends after a failed [clear] *)
Definition stale (v : list data) (m : nat) : list data := v ++ map data_new (seq 0 m).

Lemma stale_length v m : length (stale v m) = length v + m.
Proof. unfold stale. rewrite app_length, map_length, seq_length. reflexivity. Qed.

Lemma stale_old v m i : i < length v -> pa (stale v m) i = pa v i.
Proof. intros H. unfold pa, stale. now rewrite nth_error_app1. Qed.

Lemma stale_new v m i : length v <= i < length v + m -> pa (stale v m) i = i - length v.
Proof.
  intros H. unfold pa, stale. rewrite nth_error_app2 by lia.
  rewrite nth_error_map. rewrite (nth_error_nth' _ 0) by (rewrite seq_length; lia).
  rewrite seq_nth by lia. reflexivity.
Qed.

Lemma stale_rootd v m i r d : rootd v d i r -> rootd (stale v m) d i r.
Proof.
  induction 1 as [i Li P|d i r Li P R IH].
  - constructor; [rewrite stale_length; lia|]. now rewrite stale_old.
  - apply rootd_up; [rewrite stale_length; lia| |]; rewrite stale_old by auto; auto.
Qed.

Lemma stale_root v m p r d : 0 < length v -> p < length v + m -> rootd v d (p mod length v) r ->
  exists d', d' <= d + m /\ rootd (stale v m) d' p r.
Proof.
  intros Ln. set (n := length v) in *.
  assert (G : forall c p, p < n + m -> p < n * S c -> rootd v d (p mod n) r ->
    exists d', d' <= d + (p - n + (if n <=? p then 1 else 0)) /\ rootd (stale v m) d' p r).
  { induction c as [|c IH]; intros q Hq Hk R.
    - rewrite Nat.mod_small in R by lia. exists d. split; [lia|]. now apply stale_rootd.
    - destruct (n <=? q) eqn:Q.
      + apply Nat.leb_le in Q. destruct (IH (q - n)) as (d' & Le & R'); [lia|lia| |].
        * replace (q - n) with (q - 1 * n) by lia. rewrite <- (Nat.mod_add _ 1) by lia.
          replace (q - 1 * n + 1 * n) with q by lia. exact R.
        * exists (S d'). split; [destruct (n <=? q - n) eqn:X; [apply Nat.leb_le in X|]; lia|].
          assert (X : pa (stale v m) q = q - n) by (apply stale_new; fold n; lia).
          apply rootd_up; [rewrite stale_length; fold n; lia|rewrite X; lia|rewrite X; exact R'].
      + apply Nat.leb_gt in Q. rewrite Nat.mod_small in R by lia. exists d. split; [lia|]. now apply stale_rootd. }
  intros Hp R. destruct (G p p Hp ltac:(nia) R) as (d' & Le & R'). exists d'. split; [|exact R'].
  destruct (n <=? p) eqn:X; [apply Nat.leb_le in X|apply Nat.leb_gt in X]; lia.
Qed.

(** ** Adding elements after a failed [clear] *)
Lemma stale_makes xs s v ys s' : numbered s ys -> ds_data s = stale v (length (ds_ids s)) ->
  for_each (ds_make_set_u eqb hp dp E) xs s = (s', Ret tt) ->
  numbered s' (ys ++ xs) /\ ds_data s' = stale v (length (ds_ids s')).
Proof.
  revert s ys. induction xs as [|x xs IH]; intros s ys N D H; cbn in H.
  { injection H as <-. rewrite app_nil_r. auto. }
  destruct (ds_make_set_u eqb hp dp E x s) as [s1 r1] eqn:M.
  assert (R1 : r1 = Ret tt) by (destruct r1 as [[]| | | |]; auto; discriminate). subst r1.
  unfold ds_make_set_u in M. destruct (ds_make_or_get_u eqb hp dp E x s) as [s2 o] eqn:M2.
  injection M as -> Ho. destruct o as [i| | | |]; try discriminate.
  assert (P : ds_make_or_get eqb E x s = (s1, Ret i)).
  { unfold ds_make_or_get_u in M2. unfold ds_make_or_get. destruct (hp (ds_ids s) x); [unfold ds_unwind in M2; destruct (dp x); discriminate|].
    destruct (hm_entry eqb E x (ds_ids s)) as [[j|]| | | |]; try exact M2; try (unfold ds_unwind in M2; destruct (dp x); discriminate).
    destruct (dp x); [discriminate|exact M2]. }
  replace (ys ++ x :: xs) with ((ys ++ [x]) ++ xs) by (rewrite <- app_assoc; reflexivity).
  apply (IH s1); auto; [eapply numbered_make; eauto|].
  unfold ds_make_or_get in P. destruct (hm_entry eqb E x (ds_ids s)) as [[j|]| | | |]; try discriminate.
  - injection P as <- _. exact D.
  - unfold vec_push in P. destruct (length (ds_data s) + 1 <=? alloc_max E); try discriminate. injection P as <- _.
    cbn [ds_ids ds_data]. unfold hm_insert_vacant. cbn [length]. unfold stale. rewrite seq_S, map_app, app_assoc.
    f_equal. exact D.
Qed.

Hypothesis U : (N.log2 (N.of_nat (alloc_max E)) < u32_max)%N.

Lemma run_numbered ops s g s' tr : valid s -> shows s g -> numbered s (added g) -> Forall (@op_ok K) ops ->
  ds_run eqb E ops s = (s', tr) ->
  exists g', valid s' /\ shows s' g' /\ numbered s' (added g') /\ history eqb E ops g g' tr.
Proof.
  revert s g tr. induction ops as [|o ops IH]; intros s g tr V S N Ok H; cbn in H.
  - injection H as <- <-. exists g. split; auto. split; auto. split; auto. constructor.
  - inversion Ok as [|? ? O1 O2]; subst.
    destruct (ds_step eqb E o s) as [s1 r] eqn:Q. destruct (ds_run eqb E ops s1) as [s2 tr2] eqn:R.
    injection H as <- <-. destruct (step_ok L U _ V S O1 Q) as (g1 & V1 & S1 & A).
    destruct (IH _ _ _ V1 S1 (step_numbered _ V S O1 Q S1 A N) O2 R) as (g2 & V2 & S2 & N2 & Hh).
    exists g2. split; auto. split; auto. split; auto. econstructor; eauto.
Qed.

Lemma failed_clear s s1 : ds_clear_u dp [] s = (s1, Panic) -> s1 = DSet [] (ds_data s) /\ 0 < length (ds_ids s).
Proof.
  clear L U. unfold ds_clear_u. destruct (existsb (fun e => dp (fst e)) (ds_ids s)) eqn:Q; [|discriminate].
  intros [= <-]. split; auto. destruct (ds_ids s); cbn in *; [discriminate|lia].
Qed.

Lemma stale_in_union s s2 g xs i j x y a b : valid s -> shows s g -> numbered s (added g) ->
  0 < length (ds_ids s) ->
  numbered s2 xs -> ds_data s2 = stale (ds_data s) (length (ds_ids s2)) ->
  nth_error (firsts xs) i = Some x -> nth_error (firsts xs) j = Some y ->
  nth_error (firsts (added g)) (i mod size eqb g) = Some a ->
  nth_error (firsts (added g)) (j mod size eqb g) = Some b ->
  (joined s2 x y <-> together eqb g a b).
Proof.
  clear U. intros V S N Ln N2 D2 Hx Hy Ha Hb.
  pose proof (size_len S) as Sz. rewrite Sz in *. pose proof V as (W & Ld & Le & P & F & Hv).
  pose proof (numbered_nth _ N Ha) as Ia. pose proof (numbered_nth _ N Hb) as Ib.
  pose proof (numbered_nth _ N2 Hx) as Ix. pose proof (numbered_nth _ N2 Hy) as Iy.
  assert (W2 : hm_wf eqb (ds_ids s2)).
  { apply wf_keys. destruct N2 as [A2 _]. rewrite A2. apply (pairwise_perm L (l := firsts xs)).
    - apply Permutation_rev.
    - apply (firsts_distinct L). }
  destruct (root_of _ _ V Ia) as [ra Ra]. destruct (root_of _ _ V Ib) as [rb Rb].
  pose proof (find_fuel F Hv Ra) as Fa. pose proof (find_fuel F Hv Rb) as Fb.
  destruct (rootd_depth F Ra) as (da & Da & La). destruct (rootd_depth F Rb) as (db & Db & Lb).
  assert (Lg : Nat.log2 (length (ds_data s)) < length (ds_data s)) by (apply Nat.log2_lt_lin; lia).
  assert (Li : i < length (ds_ids s2)).
  { rewrite (numbered_len N2). apply nth_error_Some. congruence. }
  assert (Lj : j < length (ds_ids s2)).
  { rewrite (numbered_len N2). apply nth_error_Some. congruence. }
  set (m := length (ds_ids s2)) in *. rewrite <- Ld in Da, Db, Ln.
  destruct (@stale_root (ds_data s) m i ra da) as (ea & Ea & Qa); auto; [lia|].
  destruct (@stale_root (ds_data s) m j rb db) as (eb & Eb & Qb); auto; [lia|].
  rewrite <- D2 in Qa, Qb.
  assert (L2 : length (ds_data s2) = length (ds_data s) + m) by (rewrite D2; apply stale_length).
  unfold DSRun.joined, ds_in_union.
  assert (Ex : hm_get eqb x (ds_ids s2) = Some i).
  { unfold hm_get. rewrite (wf_in L _ _ _ W2 Ix (eq_refl' L x)). reflexivity. }
  assert (Ey : hm_get eqb y (ds_ids s2) = Some j).
  { unfold hm_get. rewrite (wf_in L _ _ _ W2 Iy (eq_refl' L y)). reflexivity. }
  rewrite Ex, Ey. unfold ds_find_in.
  destruct (@findd (Datatypes.S (length (ds_data s2))) _ _ _ _ Qa) as (v1 & -> & L1 & K1); [lia|].
  cbn [ds_data ds_ids]. destruct (K1 _ _ _ Qb) as (eb' & Eb' & Qb').
  destruct (@findd (Datatypes.S (length v1)) _ _ _ _ Qb') as (v2 & -> & _ & _); [lia|]. cbn [snd].
  transitivity (linked s (i mod length (ds_ids s)) (j mod length (ds_ids s))).
  - split.
    + intros [= X]. apply Nat.eqb_eq in X. subst rb. exists ra. auto.
    + intros (r & R1 & R2). rewrite (root_fun Ra R1), (root_fun Rb R2), Nat.eqb_refl. reflexivity.
  - rewrite <- (linked_together L a b V S). split.
    + intros X. exists a, (i mod length (ds_ids s)), b, (j mod length (ds_ids s)).
      split; [exact (wf_in L _ _ _ W Ia (eq_refl' L a))|]. split; [exact (wf_in L _ _ _ W Ib (eq_refl' L b))|exact X].
    + intros (ka & ia & kb & ib & X & Y & Z).
      rewrite (wf_in L _ _ _ W Ia (eq_refl' L a)) in X. rewrite (wf_in L _ _ _ W Ib (eq_refl' L b)) in Y.
      injection X as <- <-. injection Y as <- <-. exact Z.
Qed.

Lemma failed_clear_exact ops s tr : Forall (@op_ok K) ops -> ds_run eqb E ops (ds_new K) = (s, tr) ->
  exists g, history eqb E ops empty_log g tr /\
    (forall x y, joined s x y <-> together eqb g x y) /\
    forall s1 xs s2, ds_clear_u dp [] s = (s1, Panic) ->
      for_each (ds_make_set_u eqb hp dp E) xs s1 = (s2, Ret tt) ->
      ds_len s2 = length (firsts xs) /\ (forall x, ds_contains eqb x s2 = true <-> mem x xs) /\
      forall i j x y, nth_error (firsts xs) i = Some x -> nth_error (firsts xs) j = Some y ->
        exists a b, nth_error (firsts (added g)) (i mod size eqb g) = Some a /\
          nth_error (firsts (added g)) (j mod size eqb g) = Some b /\
          (joined s2 x y <-> together eqb g a b).
Proof.
  intros Ok H. assert (N0 : numbered (ds_new K) (added (@empty_log K))) by (split; reflexivity).
  destruct (run_numbered (new_valid eqb E) (new_shows eqb) N0 Ok H) as (g & V & S & N & Hh).
  exists g. split; auto. split; [intros x y; exact (joined_together L x y V S)|].
  intros s1 xs s2 Hc Hm. destruct (failed_clear _ Hc) as [-> Ln].
  destruct (@stale_makes xs (DSet [] (ds_data s)) (ds_data s) [] s2) as [N2 D2]; auto.
  { cbn. unfold stale. cbn. now rewrite app_nil_r. }
  cbn [app] in N2. split; [exact (numbered_len N2)|]. split.
  { intros x. rewrite <- (firsts_mem L). unfold ds_contains. rewrite contains_entry. destruct N2 as [A2 _]. split.
    - destruct (hm_entry_of eqb x (ds_ids s2)) as [[k n]|] eqn:Q; [|discriminate]. intros _.
      apply entry_of_some in Q. destruct Q as [I Q]. exists k. split; auto. apply in_rev. rewrite <- A2.
      apply in_map_iff. exists (k, n). auto.
    - intros (k & I & Q). apply in_rev in I. rewrite <- A2 in I. apply in_map_iff in I. destruct I as [[k' n] [<- I]].
      destruct (hm_entry_of eqb x (ds_ids s2)) eqn:Z; auto. rewrite entry_of_none in Z. specialize (Z _ I). cbn in *. congruence. }
  intros i j x y Hx Hy. pose proof (size_len S) as Sz.
  assert (X : forall i, exists a, nth_error (firsts (added g)) (i mod size eqb g) = Some a).
  { intros n. destruct (nth_error (firsts (added g)) (n mod size eqb g)) eqn:Q; eauto.
    apply nth_error_None in Q. fold (size eqb g) in Q. pose proof (Nat.mod_upper_bound n (size eqb g)). lia. }
  destruct (X i) as [a Ha]. destruct (X j) as [b Hb]. exists a, b. split; auto. split; auto.
  eapply stale_in_union; eauto.
Qed.

Lemma union_u_exact a b s s' r : valid s -> (exists g, shows s g) ->
  ds_union_u eqb hp dp E a b s = (s', r) ->
  (s' = s /\ adding s a = Panic /\ r = dropping dp [b]) \/
  (s' = s /\ adding s a = Abort /\ r = Abort) \/
  (adding s a = Ret tt /\ ds_make_set eqb E a s = (s', Ret tt) /\ r <> Ret tt /\ r = adding s' b) \/
  (r = Ret tt /\ ds_union eqb E a b s = (s', Ret tt)).
Proof.
  intros V Sh H. destruct (union_u_end _ _ V Sh H) as [(Q & -> & ->)|(Q & s1 & M & [(Q2 & -> & Hr)|(Q2 & P)])].
  - destruct (adding s a) as [[]| | | |] eqn:A; try congruence; auto; exfalso; revert A;
      unfold UserSpec2.adding, dropping, drops; cbn; rewrite orb_false_r;
      destruct (hp (ds_ids s) a), (dp a), (ds_contains eqb a s), (full s); discriminate.
  - right. right. left. split; auto. split; auto. split; congruence.
  - right. right. right. assert (X : r = Ret tt).
    { destruct Sh as [g S].
      destruct (union_shows L U a b V S) as [(s2 & H1 & _)|[[H1 N]|(s2 & H1 & _ & S2 & Ra & N)]];
        rewrite H1 in P; injection P as <- <-; auto; exfalso.
      - unfold ds_make_set in M. unfold ds_union in H1. destruct (ds_make_or_get eqb E a s) as [s3 o] eqn:Z.
        destruct (make_shows L a V S) as [(s4 & i & k & H4 & _ & _ & _ & _ & _ & Rm)|[H4 _]];
          rewrite H4 in Z; injection Z as <- <-; [|discriminate].
        destruct N as [N1 N2]. destruct Rm as [Rm|Rm]; [tauto|unfold DSSpec.firsts in *; lia].
      - unfold ds_make_set in M. destruct (ds_make_or_get eqb E a s) as [s3 o] eqn:Z.
        destruct (make_shows L a V S) as [(s4 & i & k & H4 & V4 & S4 & _)|[H4 _]];
          rewrite H4 in Z; injection Z as <- <-; [|discriminate]. injection M as <-.
        destruct N as [N1 N2]. revert Q2. unfold UserSpec2.adding, dropping, drops. cbn. rewrite orb_false_r.
        assert (B1 : ds_contains eqb b s4 = false).
        { destruct (ds_contains eqb b s4) eqn:B; auto. apply (contains_mem L b S4) in B. tauto. }
        assert (B2 : full s4 = true).
        { apply Nat.eqb_eq. unfold ds_len. rewrite <- (size_len S4). exact N2. }
        rewrite B1, B2. destruct (hp (ds_ids s4) b), (dp b); discriminate. }
    subst r. auto.
Qed.
End Proofs.
