(** Property theorems C116 and C117: the two ends of a circular buffer, and different
    ways of doing the same. *)
From Coq Require Import Lia Arith.
From Verif Require Import Base CBSpec CBModel CBRun CBProofs3 CBProps CBSpec7.
Set Implicit Arguments.

(** ** Lemmas *)
Section Lemmas.
Variable T : Type.
Variable dp : T -> bool.
Implicit Types l : list T.

Lemma dual_step o o' k l : dual o = Some o' ->
  spec_step dp o' (Deque k (rev l)) =
  match spec_step dp o (Deque k l) with (d, dr, r) => (Deque (cap d) (rev (items d)), dr, omap (@mirror T) r) end.
Proof.
  destruct o; cbn -[Nat.ltb]; intros H; try discriminate; injection H as <-; cbn -[Nat.ltb]; rewrite ?rev_length, ?rev_involutive; try reflexivity.
  - unfold with_unit, s_push_front, s_push_back. cbn -[Nat.ltb]. rewrite rev_length, rev_involutive. destruct k; [cbn; destruct (dp v); reflexivity|].
    destruct (length l <? S k); [cbn; now rewrite rev_app_distr|]. destruct l as [|x t]; [reflexivity|].
    unfold unwind. destruct (dp x); cbn; [destruct (dp v); reflexivity|now rewrite rev_app_distr].
  - unfold with_unit, s_push_front, s_push_back. cbn -[Nat.ltb]. rewrite rev_length. destruct k; [cbn; destruct (dp v); reflexivity|].
    destruct (length l <? S k); [reflexivity|]. destruct (rev l) as [|x t] eqn:E.
    + apply (f_equal (@rev T)) in E. rewrite rev_involutive in E. subst. reflexivity.
    + unfold unwind. destruct (dp x); cbn; rewrite ?rev_involutive; [destruct (dp v); reflexivity|reflexivity].
  - destruct (rev l) as [|x t] eqn:E; cbn.
    + unfold answer. now rewrite E.
    + unfold answer. cbn. now rewrite rev_involutive.
  - destruct l as [|x t]; reflexivity.
  - destruct l as [|x t]; cbn; [reflexivity|]. unfold answer. cbn. reflexivity.
  - destruct (rev l) as [|x t] eqn:E; cbn; [unfold answer; now rewrite E|]. unfold answer. cbn. now rewrite rev_app_distr, rev_involutive.
Qed.
Lemma dual_run ops : forall ops' k l, duals ops = Some ops' ->
  spec_run dp ops' (Deque k (rev l)) =
  match spec_run dp ops (Deque k l) with (d, tr) => (Deque (cap d) (rev (items d)), map (@mirror_call T) tr) end.
Proof.
  induction ops as [|o ops IH]; cbn; intros ops' k l H; [injection H as <-; reflexivity|].
  destruct (dual o) as [o'|] eqn:D; [|discriminate]. destruct (duals ops) as [os'|]; [|discriminate]. injection H as <-.
  cbn. unfold spec_run in *. cbn. rewrite (dual_step _ k l D).
  destruct (spec_step dp o (Deque k l)) as [[[k' l'] dr] [r| | | |]]; cbn; try reflexivity.
  - rewrite (IH os' k' l' eq_refl). destruct (run (spec_step dp) ops {| cap := k'; items := l' |}) as [d tr]. reflexivity.
  - rewrite (IH os' k' l' eq_refl). destruct (run (spec_step dp) ops {| cap := k'; items := l' |}) as [d tr]. reflexivity.
Qed.
Lemma dual_ok E (o o' : op T) : dual o = Some o' -> op_ok E o -> op_ok E o'.
Proof.
  destruct o; cbn; intros H O; try discriminate; injection H as <-; cbn; auto; intros l; now rewrite rev_length, O, rev_length.
Qed.
Lemma duals_ok E (ops : list (op T)) : forall ops', duals ops = Some ops' -> Forall (op_ok E) ops -> Forall (op_ok E) ops'.
Proof.
  induction ops as [|o ops IH]; cbn; intros ops' H O; [injection H as <-; constructor|].
  destruct (dual o) as [o'|] eqn:D; [|discriminate]. destruct (duals ops) as [os'|]; [|discriminate]. injection H as <-.
  inversion O; subst. constructor; eauto using dual_ok.
Qed.
End Lemmas.

(** ** C116 *)

(** Two buffers of which one shows the contents of the other reversed: a history at one
    of them and its counterpart at the other drop the same elements and end the same
    way, call by call, except that sequences read the other way round; and the contents
    stay reversed. *)
Theorem c116_the_ends_are_mirror_images : forall T E (dp : T -> bool) ops ops' c c' k l,
  indexable T E -> reachable E c -> reachable E c' -> shows E c k l -> shows E c' k (rev l) ->
  Forall (op_ok E) ops -> duals ops = Some ops' ->
  snd (cb_run E dp ops' c') = map (@mirror_call T) (snd (cb_run E dp ops c)) /\
  exists m, shows E (fst (cb_run E dp ops c)) k m /\ shows E (fst (cb_run E dp ops' c')) k (rev m).
Proof.
  intros T E dp ops ops' c c' k l HE R R' Sh Sh' O D.
  destruct (@c01_any_buffer_is_bounded_deque T E dp ops c k l HE R Sh O) as [A1 A2].
  destruct (@c01_any_buffer_is_bounded_deque T E dp ops' c' k (rev l) HE R' Sh' (@duals_ok T E ops ops' D O)) as [B1 B2].
  rewrite (dual_run _ _ k l D) in B1, B2. rewrite B1, A1.
  assert (K : forall os os' d, duals os = Some os' -> cap (fst (spec_run dp os d)) = cap d).
  { clear. induction os as [|o os IH]; intros os' d H; [reflexivity|]. cbn in H.
    destruct (dual o) as [o'|] eqn:D; [|discriminate]. destruct (duals os) as [os1|]; [|discriminate].
    assert (X : forall d1 dr r, spec_step dp o d = (d1, dr, r) -> cap d1 = cap d).
    { intros d1 dr r. destruct d as [k l]. destruct o; cbn in D; try discriminate; cbn; unfold answer, s_push_back, s_push_front; cbn;
      repeat match goal with |- context [match ?x with _ => _ end] => destruct x end; cbn; intros Q; injection Q as <- <- <-; reflexivity. }
    unfold spec_run in *. cbn. destruct (spec_step dp o d) as [[d1 dr] r] eqn:Q. specialize (X _ _ _ eq_refl).
    destruct r; cbn; auto; specialize (IH os1 d1 eq_refl); destruct (run (spec_step dp) os d1); cbn in *; congruence. }
  specialize (K ops ops' (Deque k l) D). cbn in K.
  destruct (spec_run dp ops (Deque k l)) as [[k' l'] tr]. cbn in *. subst k'. split; [reflexivity|]. exists l'. auto.
Qed.
Print Assumptions c116_the_ends_are_mirror_images.

(** Positions counted from the other end. *)
Theorem c116_positions_from_the_other_end : forall T E (dp : T -> bool) c c' k l i,
  indexable T E -> reachable E c -> reachable E c' -> shows E c k l -> shows E c' k (rev l) -> i < length l ->
  snd (cb_run E dp [OIndex i] c) = snd (cb_run E dp [OIndex (length l - S i)] c').
Proof.
  intros T E dp c c' k l i HE R R' Sh Sh' L.
  assert (OK : forall j, Forall (op_ok (T := T) E) [OIndex j]) by (intros j; repeat constructor).
  destruct (@c01_any_buffer_is_bounded_deque T E dp [OIndex i] c k l HE R Sh (OK _)) as [A _].
  destruct (@c01_any_buffer_is_bounded_deque T E dp [OIndex (length l - S i)] c' k (rev l) HE R' Sh' (OK _)) as [B _].
  assert (X : nth_error (rev l) (length l - S i) = nth_error l i).
  { destruct (nth_error l i) as [x|] eqn:N; [|apply nth_error_None in N; lia].
    rewrite (nth_error_nth' (rev l) x) by (rewrite rev_length; lia). f_equal. rewrite rev_nth by lia.
    replace (length l - S (length l - S i)) with i by lia. now apply nth_error_nth. }
  rewrite A, B. unfold spec_run. cbn. rewrite X. destruct (nth_error l i) as [x|] eqn:N; [reflexivity|apply nth_error_None in N; lia].
Qed.
Print Assumptions c116_positions_from_the_other_end.

(** ** C117 *)

(** Buffers of the same capacity and contents cannot be told apart. *)
Theorem c117_only_capacity_and_contents_matter : forall T E (dp : T -> bool) ops c c' k l,
  indexable T E -> reachable E c -> reachable E c' -> shows E c k l -> shows E c' k l -> Forall (op_ok E) ops ->
  snd (cb_run E dp ops c') = snd (cb_run E dp ops c) /\
  exists k' m, shows E (fst (cb_run E dp ops c)) k' m /\ shows E (fst (cb_run E dp ops c')) k' m.
Proof.
  intros T E dp ops c c' k l HE R R' Sh Sh' O.
  destruct (@c01_any_buffer_is_bounded_deque T E dp ops c k l HE R Sh O) as [A1 A2].
  destruct (@c01_any_buffer_is_bounded_deque T E dp ops c' k l HE R' Sh' O) as [B1 B2].
  split; [congruence|]. eauto.
Qed.
Print Assumptions c117_only_capacity_and_contents_matter.

(** Two histories from one buffer that leave the same capacity and contents and drop
    the same elements in the same order. *)
Definition same_effect {T} (E : machine) (dp : T -> bool) (ops ops' : list (op T)) (c : cb T) : Prop :=
  exists k l, shows E (fst (cb_run E dp ops c)) k l /\ shows E (fst (cb_run E dp ops' c)) k l /\
    dropped (snd (cb_run E dp ops c)) = dropped (snd (cb_run E dp ops' c)).

Lemma same_by_spec T E (dp : T -> bool) ops ops' c k l : indexable T E -> reachable E c -> shows E c k l ->
  Forall (op_ok E) ops -> Forall (op_ok E) ops' ->
  fst (spec_run dp ops (Deque k l)) = fst (spec_run dp ops' (Deque k l)) ->
  dropped (snd (spec_run dp ops (Deque k l))) = dropped (snd (spec_run dp ops' (Deque k l))) ->
  same_effect E dp ops ops' c.
Proof.
  intros HE R Sh O O' F D.
  destruct (@c01_any_buffer_is_bounded_deque T E dp ops c k l HE R Sh O) as [A1 A2].
  destruct (@c01_any_buffer_is_bounded_deque T E dp ops' c k l HE R Sh O') as [B1 B2].
  exists (cap (fst (spec_run dp ops (Deque k l)))), (items (fst (spec_run dp ops (Deque k l)))).
  rewrite A1, B1. rewrite <- F in B2. auto.
Qed.
Lemma replace_nth {A} i (x : A) l : i < length l -> nth_error (replace i x l) i = Some x.
Proof.
  intros L. unfold replace. rewrite nth_error_app2 by (rewrite firstn_length; lia).
  rewrite firstn_length. now replace (i - Nat.min i (length l)) with 0 by lia.
Qed.
Lemma replace_length {A} i (x : A) l : i < length l -> length (replace i x l) = length l.
Proof. intros L. unfold replace. rewrite app_length. cbn [length]. rewrite firstn_length, skipn_length. lia. Qed.
Lemma replace_other {A} i j (x : A) l : i < length l -> j <> i -> nth_error (replace i x l) j = nth_error l j.
Proof.
  intros L N. unfold replace. assert (Q : l = firstn i l ++ skipn i l) by (symmetry; apply firstn_skipn).
  destruct (Nat.lt_ge_cases j i) as [J|J].
  - rewrite nth_error_app1 by (rewrite firstn_length; lia). rewrite Q at 2. rewrite nth_error_app1 by (rewrite firstn_length; lia). reflexivity.
  - rewrite nth_error_app2 by (rewrite firstn_length; lia). rewrite firstn_length. replace (Nat.min i (length l)) with i by lia.
    destruct (j - i) as [|d] eqn:D; [lia|]. cbn [nth_error].
    rewrite <- (firstn_skipn (S i) l) at 2. rewrite nth_error_app2 by (rewrite firstn_length; lia).
    rewrite firstn_length. f_equal. lia.
Qed.
Lemma nth_ext_error {A} (l m : list A) : (forall i, nth_error l i = nth_error m i) -> l = m.
Proof.
  revert m; induction l as [|x l IH]; intros [|y m] H; auto; try (specialize (H 0); discriminate).
  pose proof (H 0) as H0. injection H0 as ->. f_equal. apply IH. intros i. exact (H (S i)).
Qed.
Lemma swapped_nth {A} (l : list A) a b x y i : nth_error l a = Some x -> nth_error l b = Some y ->
  nth_error (replace b x (replace a y l)) i = if i =? b then Some x else if i =? a then Some y else nth_error l i.
Proof.
  intros X Y. assert (La : a < length l) by (apply nth_error_Some; congruence). assert (Lb : b < length l) by (apply nth_error_Some; congruence).
  destruct (Nat.eqb_spec i b) as [->|N].
  - apply replace_nth. now rewrite replace_length.
  - rewrite replace_other by (rewrite ?replace_length; auto). destruct (Nat.eqb_spec i a) as [->|M]; [now apply replace_nth|now apply replace_other].
Qed.
Lemma skipn_add {A} n m (l : list A) : skipn n (skipn m l) = skipn (m + n) l.
Proof. revert l. induction m as [|m IH]; intros l; cbn; auto. destruct l; cbn; auto. now rewrite skipn_nil. Qed.
Lemma drop_each_none T (dp : T -> bool) l : (forall x, dp x = false) -> drop_each dp l = ([], l, Ret tt).
Proof. intros H. induction l as [|x l IH]; cbn; auto. rewrite H, IH. reflexivity. Qed.
Lemma extend_app T (dp : T -> bool) xs ys d : (forall x, dp x = false) ->
  s_extend dp (xs ++ ys) d =
  match s_extend dp xs d with (d1, dr, _) => match s_extend dp ys d1 with (d2, dr2, o) => (d2, dr ++ dr2, o) end end.
Proof.
  intros H. revert d. induction xs as [|x xs IH]; intros d; cbn -[s_push_back].
  - destruct (s_extend dp ys d) as [[d2 dr2] o]. reflexivity.
  - assert (Q : exists d1 dr, s_push_back dp x d = (d1, dr, Ret tt)).
    { unfold s_push_back. destruct (cap d); [rewrite H; eauto|]. destruct (_ <? _); [eauto|]. destruct (items d); [eauto|]. rewrite H. eauto. }
    destruct Q as (d1 & dr & ->). rewrite IH. destruct (s_extend dp xs d1) as [[d2 dr2] o2]. destruct (s_extend dp ys d2) as [[d3 dr3] o3].
    now rewrite app_assoc.
Qed.
Lemma extend_returns T (dp : T -> bool) xs d : (forall x, dp x = false) -> exists d' dr, s_extend dp xs d = (d', dr, Ret tt).
Proof.
  intros H. revert d. induction xs as [|x xs IH]; intros d; cbn -[s_push_back]; [eauto|].
  assert (Q : exists d1 dr, s_push_back dp x d = (d1, dr, Ret tt)).
  { unfold s_push_back. destruct (cap d); [rewrite H; eauto|]. destruct (_ <? _); [eauto|]. destruct (items d); [eauto|]. rewrite H. eauto. }
  destruct Q as (d1 & dr & ->). destruct (IH d1) as (d2 & dr2 & ->). eauto.
Qed.

(** Ways of doing the same that hold whatever the destructors do: extending by one
    element is pushing it; undoing a push, a swap or a
    reversal; pushing at both ends in either order; resizing to the same capacity. *)
Theorem c117_same_whatever_destructors_do : forall T E (dp : T -> bool) c k l, indexable T E -> reachable E c -> shows E c k l ->
  (forall x, same_effect E dp [OExtend [x]] [OPushBack x] c) /\
  (forall x, length l < k -> same_effect E dp [OPushBack x; OPopBack] [] c /\ same_effect E dp [OPushFront x; OPopFront] [] c) /\
  (forall x y, length l + 2 <= k -> same_effect E dp [OPushBack x; OPushFront y] [OPushFront y; OPushBack x] c) /\
  (forall a b, same_effect E dp [OSwap a b; OSwap a b] [] c /\ same_effect E dp [OSwap a b] [OSwap b a] c) /\
  same_effect E dp [OReverse; OReverse] [] c /\
  (forall n m, same_effect E dp [ODrain n; ODrain m] [ODrain (n + m)] c) /\
  (k + 1 <= alloc_max E -> length l <= k -> same_effect E dp [OResize k] [] c).
Proof.
  intros T E dp c k l HE R Sh.
  assert (GO : forall ops ops', Forall (op_ok E) ops -> Forall (op_ok E) ops' ->
    fst (spec_run dp ops (Deque k l)) = fst (spec_run dp ops' (Deque k l)) /\
    dropped (snd (spec_run dp ops (Deque k l))) = dropped (snd (spec_run dp ops' (Deque k l))) -> same_effect E dp ops ops' c).
  { intros ops ops' O O' [F D]. exact (@same_by_spec T E dp ops ops' c k l HE R Sh O O' F D). }
  assert (SW : forall a b x y, nth_error l a = Some x -> nth_error l b = Some y ->
    replace b x (replace a y l) = replace a y (replace b x l)).
  { intros a b x y X Y. apply nth_ext_error. intros i. rewrite (swapped_nth _ _ _ _ X Y), (swapped_nth _ _ _ _ Y X).
    destruct (Nat.eqb_spec i b), (Nat.eqb_spec i a); subst; congruence. }
  repeat split; intros; apply GO; try solve [repeat constructor; cbn; lia]; unfold spec_run; cbn -[Nat.ltb Nat.leb s_push_back s_push_front].
  - unfold with_unit, dropped. destruct (s_push_back dp x {| cap := k; items := l |}) as [[d1 dr] [[]| | | |]]; cbn; rewrite ?app_nil_r; auto.
  - unfold s_push_back. cbn -[Nat.ltb]. destruct k as [|k]; [lia|]. rewrite (proj2 (Nat.ltb_lt _ _) H). cbn -[Nat.ltb].
    rewrite rev_app_distr. cbn. rewrite rev_involutive. auto.
  - unfold s_push_front. cbn -[Nat.ltb]. destruct k as [|k]; [lia|]. rewrite (proj2 (Nat.ltb_lt _ _) H). cbn -[Nat.ltb]. auto.
  - unfold s_push_back, s_push_front. cbn -[Nat.ltb]. destruct k as [|k]; [lia|].
    rewrite (proj2 (Nat.ltb_lt (length l) (S k))) by lia. cbn -[Nat.ltb]. rewrite app_length. cbn [length].
    rewrite (proj2 (Nat.ltb_lt (length l + 1) (S k))) by lia. cbn -[Nat.ltb]. rewrite (proj2 (Nat.ltb_lt (S (length l)) (S k))) by lia. auto.
  - destruct (nth_error l a) as [x|] eqn:X; [destruct (nth_error l b) as [y|] eqn:Y|]; cbn; rewrite ?X, ?Y; auto.
    assert (Na : nth_error (replace b x (replace a y l)) a = Some y).
    { rewrite (swapped_nth _ _ _ a X Y). destruct (Nat.eqb_spec a b); [congruence|]. now rewrite Nat.eqb_refl. }
    assert (Nb : nth_error (replace b x (replace a y l)) b = Some x) by (now rewrite (swapped_nth _ _ _ b X Y), Nat.eqb_refl).
    rewrite Na, Nb. cbn. split; auto. f_equal. apply nth_ext_error. intros i.
    rewrite (swapped_nth _ _ _ i Na Nb), (swapped_nth _ _ _ i X Y).
    destruct (Nat.eqb_spec i b); [congruence|]. destruct (Nat.eqb_spec i a); congruence.
  - destruct (nth_error l a) as [x|] eqn:X, (nth_error l b) as [y|] eqn:Y; cbn; auto. rewrite (SW a b x y) by auto. auto.
  - rewrite rev_involutive. auto.
  - unfold dropped. cbn. split; auto. f_equal. clear. revert l. induction n as [|n IH]; intros l; cbn; auto. destruct l as [|x l]; cbn; auto. now rewrite skipn_nil.
  - unfold s_resize. cbn. replace (length l - k) with 0 by lia. cbn. auto.
Qed.
Print Assumptions c117_same_whatever_destructors_do.

(** Those that hold when no destructor panics: extending by two sequences one after the
    other, shrinking in two steps, pushing at the other end of a reversed buffer, clearing
    twice. *)
Theorem c117_same_without_panics : forall T E (dp : T -> bool) c k l, indexable T E -> reachable E c -> shows E c k l ->
  (forall x, dp x = false) ->
  (forall xs ys, same_effect E dp [OExtend (xs ++ ys)] [OExtend xs; OExtend ys] c) /\
  (forall a b, a + 1 <= alloc_max E -> b <= a -> same_effect E dp [OResize a; OResize b] [OResize b] c) /\
  (forall x, same_effect E dp [OReverse; OPushBack x; OReverse] [OPushFront x] c) /\
  same_effect E dp [OClear; OClear] [OClear] c.
Proof.
  intros T E dp c k l HE R Sh ND.
  assert (GO : forall ops ops', Forall (op_ok E) ops -> Forall (op_ok E) ops' ->
    fst (spec_run dp ops (Deque k l)) = fst (spec_run dp ops' (Deque k l)) /\
    dropped (snd (spec_run dp ops (Deque k l))) = dropped (snd (spec_run dp ops' (Deque k l))) -> same_effect E dp ops ops' c).
  { intros ops ops' O O' [F D]. exact (@same_by_spec T E dp ops ops' c k l HE R Sh O O' F D). }
  split; [|split; [|split]]; intros; apply GO.
  - repeat constructor.
  - repeat constructor.
  - unfold spec_run, dropped. cbn. rewrite extend_app by auto.
    destruct (extend_returns dp xs (Deque k l) ND) as (d1 & dr1 & ->). cbn.
    destruct (extend_returns dp ys d1 ND) as (d2 & dr2 & ->). cbn. rewrite !app_nil_r. auto.
  - repeat constructor; cbn; lia.
  - repeat constructor; cbn; lia.
  - unfold spec_run, dropped. cbn. unfold s_resize. cbn. rewrite !drop_each_none by auto. cbn. rewrite !drop_each_none by auto. cbn.
    rewrite !app_nil_r, skipn_length. split.
    + f_equal. rewrite skipn_add. f_equal. lia.
    + rewrite <- (firstn_skipn (length l - a) (firstn (length l - b) l)). f_equal.
      * rewrite firstn_firstn. f_equal. lia.
      * rewrite skipn_firstn_comm. f_equal. lia.
  - repeat constructor.
  - repeat constructor.
  - assert (D := @dual_step T dp (OPushBack x) (OPushFront x) k (rev l) eq_refl). rewrite rev_involutive in D.
    assert (Q : exists d1 dr, s_push_back dp x (Deque k (rev l)) = (d1, dr, Ret tt)).
    { unfold s_push_back. destruct (cap (Deque k (rev l))); [rewrite ND; eauto|]. destruct (_ <? _); [eauto|]. destruct (items (Deque k (rev l))); [eauto|]. rewrite ND. eauto. }
    destruct Q as ([k1 l1] & dr & Q). cbn -[s_push_back s_push_front] in D. rewrite Q in D.
    unfold spec_run, dropped. cbn -[s_push_back s_push_front]. rewrite Q, D. cbn. auto.
  - repeat constructor.
  - repeat constructor.
  - assert (C : forall m, s_clear dp (Deque k m) = (Deque k [], rev m, Ret tt)) by (intros m; unfold s_clear; cbn; now rewrite drop_each_none).
    unfold spec_run, dropped. cbn -[s_clear]. rewrite C. cbn -[s_clear]. rewrite C. cbn. now rewrite app_nil_r.
Qed.
Print Assumptions c117_same_without_panics.

(** A full wrapped buffer and the same reversed, the counterpart of a history in which
    the element 7 has a panicking destructor. *)
Definition demo_rev : cb nat := fst (cb_run E0 never [OReverse] demo).
Definition h116 : list (op nat) := [OPushBack 7; OPopFront; OPushFront 5; OLastMut (fun x => x + 10); OIter; OPushFront 8; OPopBack; OIter].
Definition h116' : list (op nat) := [OPushFront 7; OPopBack; OPushBack 5; OFirstMut (fun x => x + 10); OIter; OPushBack 8; OPopFront; OIter].
Example c116_example : reachable E0 demo_rev /\ shows E0 demo_rev 3 [6; 4; 3] /\ duals h116 = Some h116' /\ Forall (op_ok E0) h116 /\
  snd (cb_run E0 (fun x => x =? 17) h116 demo) =
    [([3], Ret RUnit); ([], Ret (ROpt (Some 4))); ([], Ret RUnit); ([], Ret (RBool true)); ([], Ret (RList [5; 6; 17]));
     ([17; 8], Panic); ([], Ret (ROpt (Some 6))); ([], Ret (RList [5]))] /\
  snd (cb_run E0 (fun x => x =? 17) h116' demo_rev) =
    [([3], Ret RUnit); ([], Ret (ROpt (Some 4))); ([], Ret RUnit); ([], Ret (RBool true)); ([], Ret (RList [17; 6; 5]));
     ([17; 8], Panic); ([], Ret (ROpt (Some 6))); ([], Ret (RList [5]))] /\
  snd (cb_run E0 never [OIndex 0] demo) = snd (cb_run E0 never [OIndex 2] demo_rev).
Proof.
  split; [apply run_reachable; [exact demo_reachable|repeat constructor]|]. split; [split; reflexivity|].
  split; [reflexivity|]. split; [repeat constructor|]. repeat split; reflexivity.
Qed.
(** The mirror does not extend to the calls left out: [clear] drops from the back and
    [resize] from the front, whichever way round the buffer is. *)
Example c116_limits : dual (@OClear nat) = None /\ dual (@OResize nat 2) = None /\
  snd (cb_run E0 never [OClear] demo) = [([6; 4; 3], Ret RUnit)] /\ snd (cb_run E0 never [OClear] demo_rev) = [([3; 4; 6], Ret RUnit)] /\
  snd (cb_run E0 never [OResize 2] demo) = [([3], Ret RUnit)] /\ snd (cb_run E0 never [OResize 2] demo_rev) = [([6], Ret RUnit)].
Proof. repeat split; reflexivity. Qed.

(** Two buffers with the contents [3; 4; 6] at different places in the memory. *)
Definition demo_flat : cb nat := fst (cb_run E0 never [OExtend [3; 4; 6]] demo0).
Example c117_example : start demo <> start demo_flat /\ reachable E0 demo_flat /\ shows E0 demo_flat 3 [3; 4; 6] /\
  snd (cb_run E0 never [OSwap 0 2; OPushBack 1; ODrain 2; OIter] demo) =
    [([], Ret RUnit); ([6], Ret RUnit); ([], Ret (RList [4; 3])); ([], Ret (RList [1]))] /\
  snd (cb_run E0 never [OSwap 0 2; OPushBack 1; ODrain 2; OIter] demo_flat) =
    [([], Ret RUnit); ([6], Ret RUnit); ([], Ret (RList [4; 3])); ([], Ret (RList [1]))].
Proof.
  split; [vm_compute; discriminate|]. split; [apply run_reachable; [exact demo0_reachable|repeat constructor]|].
  split; [split; reflexivity|]. split; reflexivity.
Qed.
(** Outside the hypotheses: undoing a push to a full buffer loses an element; growing and
    shrinking keeps what shrinking first drops; a destructor panicking half way makes two
    extends differ from one. *)
Example c117_limits :
  snd (cb_run E0 never [OPushBack 9; OPopBack; OIter] demo) = [([3], Ret RUnit); ([], Ret (ROpt (Some 9))); ([], Ret (RList [4; 6]))] /\
  snd (cb_run E0 never [OResize 2; OResize 4; OIter] demo) = [([3], Ret RUnit); ([], Ret RUnit); ([], Ret (RList [4; 6]))] /\
  snd (cb_run E0 never [OResize 4; OIter] demo) = [([], Ret RUnit); ([], Ret (RList [3; 4; 6]))] /\
  snd (cb_run E0 (fun x => x =? 3) [OExtend [1; 2]; OIter] demo) = [([3; 1; 2], Panic); ([], Ret (RList [4; 6]))] /\
  snd (cb_run E0 (fun x => x =? 3) [OExtend [1]; OExtend [2]; OIter] demo) = [([3; 1], Panic); ([], Ret RUnit); ([], Ret (RList [4; 6; 2]))].
Proof. repeat split; reflexivity. Qed.
(** ... and a use of each of the two theorems on a buffer that wraps around *)
Example c117_uses : same_effect E0 never [OSwap 0 2; OSwap 0 2] [] demo /\ same_effect E0 never [OExtend ([1; 2] ++ [5])] [OExtend [1; 2]; OExtend [5]] demo /\
  dropped (snd (cb_run E0 never [OExtend [1; 2]; OExtend [5]] demo)) = [3; 4; 6].
Proof.
  split; [|split; [|reflexivity]].
  - exists 3, [3; 4; 6]. repeat split; reflexivity.
  - exists 3, [1; 2; 5]. repeat split; reflexivity.
Qed.
