(** Representation invariant of the circular buffer and the simulation of
    every method by the specification. *)
From Verif Require Import Base CBSpec CBModel CBRun.
Set Implicit Arguments.

(** ** Lists *)
Section Lists.
Variable A : Type.
Implicit Types l b : list A.

Lemma length_upd l i x : length (upd l i x) = length l.
Proof. revert i; induction l as [|h t IH]; intros [|i]; simpl; auto. Qed.

Lemma nth_error_upd_same l i x : i < length l -> nth_error (upd l i x) i = Some x.
Proof. revert i; induction l as [|h t IH]; intros [|i] H; simpl in *; try lia; auto. apply IH; lia. Qed.

Lemma nth_error_upd_other l i j x : i <> j -> nth_error (upd l i x) j = nth_error l j.
Proof. revert i j; induction l as [|h t IH]; intros [|i] [|j] H; simpl; auto; lia. Qed.

Lemma nth_error_ext l1 l2 : (forall i, nth_error l1 i = nth_error l2 i) -> l1 = l2.
Proof.
  revert l2; induction l1 as [|h t IH]; intros [|h2 t2] H; auto.
  - specialize (H 0); discriminate.
  - specialize (H 0); discriminate.
  - pose proof (H 0) as H0; simpl in H0; injection H0 as ->.
    f_equal; apply IH; intros i; exact (H (S i)).
Qed.

Lemma nth_error_ext_lt l1 l2 : length l1 = length l2 ->
  (forall i, i < length l1 -> nth_error l1 i = nth_error l2 i) -> l1 = l2.
Proof.
  intros Hl H; apply nth_error_ext; intros i.
  destruct (Nat.lt_ge_cases i (length l1)) as [Hi|Hi]; [now apply H|].
  rewrite (proj2 (nth_error_None l1 i)) by lia.
  symmetry; apply nth_error_None; lia.
Qed.

Lemma upd_replace l i x : i < length l -> upd l i x = replace i x l.
Proof.
  unfold replace; revert i; induction l as [|h t IH]; intros [|i] H; simpl in *; try lia; auto.
  rewrite IH by lia; reflexivity.
Qed.

Lemma upd_app_l l1 l2 i x : i < length l1 -> upd (l1 ++ l2) i x = upd l1 i x ++ l2.
Proof. revert i; induction l1 as [|h t IH]; intros [|i] H; simpl in *; try lia; auto. now rewrite IH by lia. Qed.

Lemma upd_app_r l1 l2 i x : length l1 <= i -> upd (l1 ++ l2) i x = l1 ++ upd l2 (i - length l1) x.
Proof. revert i; induction l1 as [|h t IH]; intros [|i] H; simpl in *; try lia; auto. now rewrite IH by lia. Qed.

Lemma nth_error_skipn l n i : nth_error (skipn n l) i = nth_error l (n + i).
Proof. revert n; induction l as [|h t IH]; intros [|n]; simpl; auto. now destruct i. Qed.

Lemma nth_error_firstn l n i : i < n -> nth_error (firstn n l) i = nth_error l i.
Proof. revert n i; induction l as [|h t IH]; intros [|n] [|i] H; simpl; auto; try lia. apply IH; lia. Qed.

Definition rot (s : nat) l : list A := skipn s l ++ firstn s l.

Lemma rot_length s l : length (rot s l) = length l.
Proof. unfold rot; rewrite app_length, skipn_length, firstn_length; lia. Qed.

Lemma rot_0 l : rot 0 l = l.
Proof. unfold rot; simpl; apply app_nil_r. Qed.

(** position in the storage of logical position [i] *)
Definition phys (n s i : nat) : nat := if s + i <? n then s + i else s + i - n.

Lemma phys_lt n s i : s < n -> i < n -> phys n s i < n.
Proof. unfold phys; intros; destruct (Nat.ltb_spec (s + i) n); lia. Qed.

Lemma phys_inj n s i j : s < n -> i < n -> j < n -> phys n s i = phys n s j -> i = j.
Proof. unfold phys; intros ? ? ?; destruct (Nat.ltb_spec (s + i) n), (Nat.ltb_spec (s + j) n); lia. Qed.

Lemma nth_error_rot l s i : s < length l -> i < length l ->
  nth_error (rot s l) i = nth_error l (phys (length l) s i).
Proof.
  intros Hs Hi; unfold rot, phys.
  destruct (Nat.ltb_spec (s + i) (length l)).
  - rewrite nth_error_app1 by (rewrite skipn_length; lia). apply nth_error_skipn.
  - rewrite nth_error_app2 by (rewrite skipn_length; lia).
    rewrite skipn_length, nth_error_firstn by lia. f_equal; lia.
Qed.

Lemma rot_upd l s i x : s < length l -> i < length l ->
  rot s (upd l (phys (length l) s i) x) = upd (rot s l) i x.
Proof.
  intros Hs Hi; apply nth_error_ext_lt.
  - now rewrite rot_length, !length_upd, rot_length.
  - intros j Hj; rewrite rot_length, length_upd in Hj.
    rewrite nth_error_rot by (rewrite length_upd; assumption).
    rewrite length_upd.
    destruct (Nat.eq_dec i j) as [->|Hne].
    + rewrite !nth_error_upd_same; auto; [rewrite rot_length; auto | now apply phys_lt].
    + rewrite !nth_error_upd_other; auto.
      * now rewrite nth_error_rot by assumption.
      * intros Heq; apply Hne; exact (@phys_inj _ _ _ _ Hs Hi Hj Heq).
Qed.

Lemma rot_rot l s k : s < length l -> k <= length l ->
  rot (phys (length l) s k) l = rot k (rot s l).
Proof.
  intros Hs Hk. destruct (Nat.eq_dec k (length l)) as [->|Hk'].
  - unfold phys. destruct (Nat.ltb_spec (s + length l) (length l)); [lia|].
    replace (s + length l - length l) with s by lia.
    unfold rot at 2. rewrite <- (rot_length s l) at 1 2.
    now rewrite skipn_all, firstn_all.
  - apply nth_error_ext_lt.
    + now rewrite !rot_length.
    + intros i Hi; rewrite rot_length in Hi.
      rewrite nth_error_rot by (auto; apply phys_lt; lia).
      rewrite nth_error_rot by (rewrite rot_length; lia).
      rewrite rot_length, nth_error_rot by (auto; apply phys_lt; lia).
      f_equal; unfold phys.
      destruct (Nat.ltb_spec (s + k) (length l)), (Nat.ltb_spec (k + i) (length l));
        repeat match goal with |- context [?a <? ?b] => destruct (Nat.ltb_spec a b) end; lia.
Qed.

Lemma repeat_snoc (x : A) n : repeat x n ++ [x] = x :: repeat x n.
Proof. induction n as [|n IH]; simpl; [auto | now rewrite IH]. Qed.

End Lists.

Lemma upd_map {A B} (f : A -> B) l i x : upd (map f l) i (f x) = map f (upd l i x).
Proof. revert i; induction l as [|h t IH]; intros [|i]; simpl; auto. now rewrite IH. Qed.

(** ** The representation invariant *)
Section Rep.
Variable T : Type.
Variable E : machine.
Variable dp : T -> bool.
Hypothesis HE : indexable T E.

Implicit Types c : cb T.
Implicit Types l : list T.

(** [rep c l]: the storage of [c], read from [start], holds [l] followed by
    at least one uninitialised slot, and [end] is just after [l]. *)
Record rep c l : Prop := {
  rep_start : start c < length (buffer c);
  rep_len : length l < length (buffer c);
  rep_end : end_ c = phys (length (buffer c)) (start c) (length l);
  rep_rot : rot (start c) (buffer c)
            = map Init l ++ repeat Uninit (length (buffer c) - length l);
  rep_alloc : length (buffer c) <= alloc_max E
}.

Lemma rep_end_lt c l : rep c l -> end_ c < length (buffer c).
Proof. intros [? ? -> ? ?]; now apply phys_lt. Qed.

Lemma rep_nth c l i : rep c l -> i < length l ->
  nth_error (buffer c) (phys (length (buffer c)) (start c) i) = option_map Init (nth_error l i).
Proof.
  intros [Hs Hl He Hr Ha] Hi.
  rewrite <- nth_error_rot by lia. rewrite Hr, nth_error_app1 by now rewrite map_length.
  now rewrite nth_error_map.
Qed.

(** The contents are determined by the buffer. *)
Lemma map_Init_inj l1 l2 k1 k2 :
  map Init l1 ++ repeat (@Uninit T) k1 = map Init l2 ++ repeat Uninit k2 -> l1 = l2.
Proof.
  revert l2; induction l1 as [|x l1 IH]; intros [|y l2] H; simpl in *; auto.
  - destruct k1; discriminate.
  - destruct k2; discriminate.
  - injection H as -> H. f_equal; eauto.
Qed.

(** *** Observers *)
Lemma rep_len_ok c l : rep c l -> len E c = Ret (length l).
Proof.
  intros [Hs Hl He Hr Ha]; unfold len; pose proof HE as [Hau Hidx].
  rewrite He; unfold phys.
  destruct (Nat.ltb_spec (start c + length l) (length (buffer c))) as [H|H].
  - rewrite (proj2 (Nat.leb_le _ _)) by lia.
    rewrite usub_fits by lia. f_equal; lia.
  - destruct (Nat.leb_spec (start c) (start c + length l - length (buffer c))); [lia|].
    unfold uadd. destruct (Nat.leb_spec (length (buffer c) + (start c + length l - length (buffer c))) (usize_max E)).
    + cbn [obind]. rewrite usub_fits by lia. f_equal; lia.
    + destruct Hidx as [Hidx|[Hd Hone]]; [lia|]. rewrite Hd; cbn [obind]. unfold usub; rewrite Hd.
      destruct (Nat.leb_spec (start c) (length (buffer c) + (start c + length l - length (buffer c)) - S (usize_max E))); [lia|].
      f_equal; lia.
Qed.

Lemma rep_capacity_ok c l : rep c l -> capacity E c = Ret (length (buffer c) - 1).
Proof. intros [Hs Hl He Hr Ha]; unfold capacity; apply usub_fits; lia. Qed.

Lemma rep_is_empty_ok c l : rep c l -> is_empty c = (length l =? 0).
Proof.
  intros [Hs Hl He Hr Ha]; unfold is_empty; rewrite He; unfold phys.
  destruct (Nat.ltb_spec (start c + length l) (length (buffer c)));
    destruct (Nat.eqb_spec (length l) 0); apply Nat.eqb_eq || apply Nat.eqb_neq; lia.
Qed.

Lemma rep_is_full_ok c l : rep c l -> is_full E c = Ret (length l =? length (buffer c) - 1).
Proof.
  intros R; unfold is_full; rewrite (rep_len_ok R); cbn [obind].
  rewrite (rep_capacity_ok R); reflexivity.
Qed.

(** the storage position [internal_index] computes: that of element [i], or
    (elements of size zero, no overflow checks) another one in use *)
Definition spos c (i : nat) : nat :=
  if start c + i <=? usize_max E then phys (length (buffer c)) (start c) i
  else start c + i - S (usize_max E).

Lemma rep_internal_index c l i : rep c l ->
  internal_index E c i = if i <? length l then Ret (spos c i) else Panic.
Proof.
  intros R; unfold internal_index; rewrite (rep_len_ok R); cbn [obind].
  destruct R as [Hs Hl He Hr Ha]; pose proof HE as [Hau Hidx].
  destruct (Nat.leb_spec (length l) i), (Nat.ltb_spec i (length l)); try lia; auto.
  unfold spos. destruct (Nat.leb_spec (start c + i) (usize_max E)).
  - rewrite uadd_fits by lia; cbn [obind]; unfold phys.
    destruct (Nat.ltb_spec (start c + i) (length (buffer c))); auto.
    rewrite uadd_fits by lia; cbn [obind].
    rewrite usub_fits by lia. f_equal; lia.
  - destruct Hidx as [Hidx|[Hd Hone]]; [lia|].
    unfold uadd. rewrite (proj2 (Nat.leb_gt _ _)), Hd by lia; cbn [obind].
    rewrite (proj2 (Nat.ltb_lt _ _)) by lia. reflexivity.
Qed.

Lemma rep_spos c l i : rep c l -> i < length l ->
  spos c i = phys (length (buffer c)) (start c) i \/
  (forall x y : T, x = y) /\ exists j, j < length l /\ spos c i = phys (length (buffer c)) (start c) j.
Proof.
  intros [Hs Hl He Hr Ha] Hi; pose proof HE as [Hau Hidx].
  unfold spos. destruct (Nat.leb_spec (start c + i) (usize_max E)); auto.
  right. destruct Hidx as [Hidx|[Hd Hone]]; [lia|]. split; auto.
  exists (i - (S (usize_max E) - length (buffer c))). split; [lia|].
  unfold phys. destruct (Nat.ltb_spec (start c + (i - (S (usize_max E) - length (buffer c)))) (length (buffer c))); lia.
Qed.

Lemma rep_nth_spos c l i : rep c l -> i < length l ->
  nth_error (buffer c) (spos c i) = option_map Init (nth_error l i).
Proof.
  intros R Hi. destruct (rep_spos R Hi) as [->|(Hone & j & Hj & ->)].
  - now apply rep_nth.
  - rewrite (rep_nth R Hj).
    destruct (nth_error l i) eqn:H1; [|apply nth_error_None in H1; lia].
    destruct (nth_error l j) eqn:H2; [|apply nth_error_None in H2; lia].
    cbn; do 2 f_equal; auto.
Qed.

Lemma upd_same {A} (b : list A) j x : nth_error b j = Some x -> upd b j x = b.
Proof. revert j; induction b as [|h t IH]; intros [|j] H; simpl in *; try congruence. f_equal; auto. Qed.

(** writing an element there is as good as writing it in its place *)
Lemma rep_upd_spos c l i v : rep c l -> i < length l ->
  upd (buffer c) (spos c i) (Init v) = upd (buffer c) (phys (length (buffer c)) (start c) i) (Init v).
Proof.
  intros R Hi. destruct (rep_spos R Hi) as [->|(Hone & j & Hj & ->)]; auto.
  assert (Hn : forall a, a < length l -> nth_error (buffer c) (phys (length (buffer c)) (start c) a) = Some (Init v)).
  { intros a Hla. rewrite (rep_nth R Hla). destruct (nth_error l a) eqn:H1; [|apply nth_error_None in H1; lia].
    cbn; do 2 f_equal; auto. }
  rewrite !upd_same; auto.
Qed.

Lemma rep_read c l i : rep c l -> i < length l ->
  read_slot c (spos c i)
  = match nth_error l i with Some x => Ret x | None => Panic end.
Proof.
  intros R Hi; unfold read_slot; rewrite (rep_nth_spos R Hi).
  now destruct (nth_error l i).
Qed.

Lemma rep_index c l i : rep c l ->
  index E c i = match nth_error l i with Some x => Ret x | None => Panic end.
Proof.
  intros R; unfold index; rewrite (rep_internal_index i R).
  destruct (Nat.ltb_spec i (length l)) as [H|H]; cbn [obind].
  - now apply rep_read.
  - now rewrite (proj2 (nth_error_None l i)).
Qed.

(** *** Moving the ends *)
(** [c] after writing logical position [i] *)
Lemma rot_write c l i x : rep c l -> i < length (buffer c) ->
  rot (start c) (upd (buffer c) (phys (length (buffer c)) (start c) i) x)
  = upd (map Init l ++ repeat Uninit (length (buffer c) - length l)) i x.
Proof. intros R Hi; rewrite rot_upd; [now rewrite (rep_rot R) | apply R | auto]. Qed.

Definition result_is {A} (r : cb T * list T * outcome A) (n : nat) (l : list T)
    (dr : list T) (o : outcome A) : Prop :=
  exists c', r = (c', dr, o) /\ rep c' l /\ length (buffer c') = n.

Lemma pop_front_ok c l : rep c l ->
  result_is (pop_front E dp c) (length (buffer c)) (tl l) [] (Ret (hd_error l)).
Proof.
  intros R; unfold result_is, pop_front, bind, gets, ret.
  rewrite (rep_is_empty_ok R).
  destruct l as [|x l']; cbn [length Nat.eqb hd_error tl].
  { exists c; simpl; auto. }
  unfold pop_at. pose proof (rep_nth R (i:=0)) as Hn; simpl in Hn.
  pose proof R as [Hs Hl He Hr Ha]; simpl in Hl.
  replace (phys (length (buffer c)) (start c) 0) with (start c) in Hn
    by (unfold phys; rewrite Nat.add_0_r; apply Nat.ltb_lt in Hs; now rewrite Hs).
  rewrite Hn by lia. cbn [option_map].
  unfold unwinding, incr_start, bind, gets, modify, debug_assert, is_empty, set_buffer; cbn [start end_ buffer].
  assert (Hne : (end_ c =? start c) = false).
  { pose proof (rep_is_empty_ok R) as H; unfold is_empty in H; rewrite H; reflexivity. }
  rewrite Hne; cbn [negb obind].
  pose proof HE as [Hau Hidx].
  destruct (debug_build E); rewrite uadd_fits by lia; cbn [obind];
  (eexists; split; [reflexivity|]);
  unfold set_start; cbn [start end_ buffer]; rewrite length_upd;
  (assert (Hc : (if start c + 1 =? length (buffer c)
      then CB (upd (buffer c) (start c) Uninit) 0 (end_ c)
      else CB (upd (buffer c) (start c) Uninit) (start c + 1) (end_ c))
      = CB (upd (buffer c) (start c) Uninit) (phys (length (buffer c)) (start c) 1) (end_ c));
   [unfold phys; destruct (Nat.eqb_spec (start c + 1) (length (buffer c)));
      destruct (Nat.ltb_spec (start c + 1) (length (buffer c))); try lia; f_equal; lia|]);
  rewrite Hc; split; try (cbn; apply length_upd).
  all: constructor; cbn [start end_ buffer]; rewrite ?length_upd; try lia.
  all: try (apply phys_lt; lia).
  all: try (rewrite He; simpl; unfold phys;
    repeat match goal with |- context [?a <? ?b] => destruct (Nat.ltb_spec a b) end; lia).
  all: rewrite <- (length_upd (buffer c) (start c) Uninit) at 1;
    rewrite rot_rot by (rewrite length_upd; lia);
    replace (start c) with (phys (length (buffer c)) (start c) 0) at 2
      by (unfold phys; rewrite Nat.add_0_r; apply Nat.ltb_lt in Hs; now rewrite Hs);
    rewrite (rot_write Uninit R) by lia; simpl;
    unfold rot; simpl; rewrite <- app_assoc, repeat_snoc; f_equal;
    replace (length (buffer c) - length l') with (S (length (buffer c) - S (length l'))) by lia;
    reflexivity.
Qed.

Lemma phys_add_pred n s k : s < n -> k < n -> 0 < k ->
  (if phys n s k =? 0 then n - 1 else phys n s k - 1) = phys n s (k - 1).
Proof.
  intros; unfold phys.
  destruct (Nat.ltb_spec (s + k) n), (Nat.ltb_spec (s + (k - 1)) n); try lia.
  - destruct (Nat.eqb_spec (s + k) 0); lia.
  - destruct (Nat.eqb_spec (s + k - n) 0); lia.
  - destruct (Nat.eqb_spec (s + k - n) 0); lia.
Qed.

Lemma snoc_cases l : l = [] \/ exists l' x, l = l' ++ [x].
Proof. induction l using rev_ind; [left|right]; eauto. Qed.

Lemma pop_back_ok c l : rep c l ->
  result_is (pop_back E c) (length (buffer c)) (removelast l) [] (Ret (hd_error (rev l))).
Proof.
  intros R; unfold result_is, pop_back, bind, gets, ret.
  rewrite (rep_is_empty_ok R).
  destruct (snoc_cases l) as [->|(l' & x & ->)].
  { simpl; exists c; auto. }
  rewrite rev_unit, removelast_last, app_length; cbn [hd_error length].
  replace (length l' + 1 =? 0) with false by (symmetry; apply Nat.eqb_neq; lia).
  pose proof R as [Hs Hl He Hr Ha]; rewrite app_length in *; simpl in Hl, He, Hr.
  unfold decr_end, bind, gets, modify, debug_assert.
  rewrite (rep_is_empty_ok R), app_length; cbn [length].
  replace (length l' + 1 =? 0) with false by (symmetry; apply Nat.eqb_neq; lia).
  cbn [negb obind].
  assert (Hsub : (if end_ c =? 0 then usub E (length (buffer c)) 1 else usub E (end_ c) 1)
                 = Ret (phys (length (buffer c)) (start c) (length l'))).
  { rewrite He. pose proof (@phys_add_pred (length (buffer c)) (start c) (length l' + 1)) as Hp.
    replace (length l' + 1 - 1) with (length l') in Hp by lia.
    rewrite <- Hp by lia.
    destruct (Nat.eqb_spec (phys (length (buffer c)) (start c) (length l' + 1)) 0);
      rewrite usub_fits by lia; reflexivity. }
  rewrite Hsub.
  assert (Hn : nth_error (buffer c) (phys (length (buffer c)) (start c) (length l')) = Some (Init x)).
  { rewrite (rep_nth R) by (rewrite app_length; simpl; lia).
    rewrite nth_error_app2, Nat.sub_diag by lia; reflexivity. }
  destruct (debug_build E); unfold pop_at, set_end; cbn [start end_ buffer];
  rewrite Hn; cbn;
  (eexists; split; [reflexivity|]); (split; [|cbn; apply length_upd]).
  all: constructor; unfold set_buffer; cbn [start end_ buffer]; rewrite ?length_upd; try lia.
  all: rewrite (rot_write Uninit R) by lia;
    rewrite map_app, <- app_assoc, upd_app_r by (rewrite map_length; lia);
    rewrite map_length, Nat.sub_diag, app_length; simpl; f_equal;
    replace (length (buffer c) - length l') with (S (length (buffer c) - (length l' + 1))) by lia;
    reflexivity.
Qed.

(** pushing at the back when there is room *)
Lemma push_back_room c l v : rep c l -> S (length l) < length (buffer c) ->
  result_is
   (bind (bind (gets (fun c => Ret (end_ c))) (fun i => push_at v i)) (fun _ => incr_end E) c)
   (length (buffer c)) (l ++ [v]) [] (Ret tt).
Proof.
  intros R Hroom; pose proof R as [Hs Hl He Hr Ha]; pose proof HE as [Hau Hidx].
  pose proof (rep_end_lt R) as Hel.
  unfold result_is, bind, gets, push_at.
  rewrite (proj2 (Nat.ltb_lt _ _) Hel).
  unfold incr_end, bind, gets, modify, debug_assert.
  set (c1 := set_buffer (upd (buffer c) (end_ c) (Init v)) c).
  assert (Hfull : omap negb (is_full E c1) = Ret true).
  { unfold is_full, len, capacity, c1, set_buffer; cbn [start end_ buffer]; rewrite length_upd.
    pose proof (rep_len_ok R) as Hlen; unfold len in Hlen; rewrite Hlen; cbn [obind].
    rewrite usub_fits by lia. unfold omap; cbn [obind]. f_equal.
    apply negb_true_iff, Nat.eqb_neq; lia. }
  rewrite Hfull; cbn [obind].
  unfold c1, set_buffer, set_end; cbn [start end_ buffer].
  destruct (debug_build E); rewrite uadd_fits by lia; cbn;
  rewrite length_upd;
  (eexists; split; [reflexivity|]);
  (assert (Hc : (if end_ c + 1 =? length (buffer c)
      then CB (upd (buffer c) (end_ c) (Init v)) (start c) 0
      else CB (upd (buffer c) (end_ c) (Init v)) (start c) (end_ c + 1))
      = CB (upd (buffer c) (end_ c) (Init v)) (start c) (phys (length (buffer c)) (start c) (length l + 1)));
   [rewrite He; unfold phys;
    repeat match goal with
      | |- context [?a <? ?b] => destruct (Nat.ltb_spec a b)
      | |- context [?a =? ?b] => destruct (Nat.eqb_spec a b) end; try lia; f_equal; lia|]);
  rewrite Hc; (split; [|cbn; apply length_upd]).
  all: constructor; cbn [start end_ buffer]; rewrite ?length_upd, ?app_length; cbn [length]; try lia.
  all: rewrite He, (rot_write (Init v) R) by lia;
    rewrite upd_app_r by (rewrite map_length; lia);
    rewrite map_length, Nat.sub_diag, map_app, <- app_assoc; f_equal;
    replace (length (buffer c) - length l) with (S (length (buffer c) - (length l + 1))) by lia;
    reflexivity.
Qed.

Lemma push_front_room c l v : rep c l -> S (length l) < length (buffer c) ->
  result_is
   (bind (unwinding dp v (decr_start E)) (fun _ => bind (gets (fun c => Ret (start c))) (fun i => push_at v i)) c)
   (length (buffer c)) (v :: l) [] (Ret tt).
Proof.
  intros R Hroom; pose proof R as [Hs Hl He Hr Ha].
  unfold result_is, bind, unwinding, decr_start, gets, modify, debug_assert.
  unfold bind, gets.
  assert (Hfull : omap negb (is_full E c) = Ret true).
  { rewrite (rep_is_full_ok R); unfold omap; cbn [obind]; f_equal.
    apply negb_true_iff, Nat.eqb_neq; lia. }
  rewrite Hfull; cbn [obind].
  set (n := length (buffer c)) in *.
  set (s' := if start c =? 0 then n - 1 else start c - 1).
  assert (Hsub : (if start c =? 0 then usub E n 1 else usub E (start c) 1) = Ret s').
  { unfold s'; destruct (Nat.eqb_spec (start c) 0); apply usub_fits; lia. }
  rewrite Hsub.
  assert (Hs' : s' < n) by (unfold s'; destruct (Nat.eqb_spec (start c) 0); lia).
  assert (Hst : start c = phys n s' 1).
  { unfold s', phys; destruct (Nat.eqb_spec (start c) 0);
    match goal with |- context [?a <? ?b] => destruct (Nat.ltb_spec a b) end; lia. }
  replace (if debug_build E then Ret tt else Ret tt) with (@Ret unit tt) by now destruct (debug_build E).
  unfold push_at, set_start; cbn -[Nat.ltb].
  fold n. rewrite (proj2 (Nat.ltb_lt _ _) Hs').
  (eexists; split; [reflexivity|]); (split; [|cbn; apply length_upd]).
  all: constructor; unfold set_buffer; cbn [start end_ buffer]; rewrite ?length_upd; fold n; cbn [length]; try lia.
  all: try (rewrite He; fold n; rewrite Hst; unfold phys;
    repeat match goal with |- context [?a <? ?b] => destruct (Nat.ltb_spec a b) end; lia).
  all: replace s' with (phys n s' 0) at 2
      by (unfold phys; rewrite Nat.add_0_r; apply Nat.ltb_lt in Hs'; now rewrite Hs');
    unfold n at 1; rewrite rot_upd by (fold n; lia).
  all: assert (Hrot : rot s' (buffer c) = Uninit :: removelast (map Init l ++ repeat Uninit (n - length l)));
   [ assert (H1 : rot 1 (rot s' (buffer c)) = map Init l ++ repeat Uninit (n - length l))
       by (rewrite <- rot_rot by (fold n; lia); fold n; rewrite <- Hst; exact Hr);
     destruct (rot s' (buffer c)) as [|h t] eqn:Hh;
       [exfalso; pose proof (rot_length s' (buffer c)) as Hlr; rewrite Hh in Hlr; simpl in Hlr; fold n in Hlr; lia|];
     unfold rot in H1; simpl in H1; rewrite <- H1, removelast_last; f_equal;
     assert (Hn : List.last (map Init l ++ repeat Uninit (n - length l)) Uninit = h) by (rewrite <- H1; apply last_last);
     replace (n - length l) with (S (n - length l - 1)) in Hn by lia;
     rewrite <- repeat_snoc in Hn || idtac; simpl in Hn;
     rewrite <- repeat_snoc, app_assoc, last_last in Hn; auto
   | rewrite Hrot; simpl; f_equal;
     replace (n - length l) with (S (n - S (length l))) by lia;
     simpl; rewrite <- repeat_snoc, app_assoc, removelast_last; reflexivity ].
Qed.

(** *** push_back / push_front *)
Definition matches (c : cb T) (d : deque T) : Prop :=
  rep c (items d) /\ length (buffer c) = S (cap d).

Definition sim {A} (r : cb T * list T * outcome A) (s : deque T * list T * outcome A) : Prop :=
  match s with (d', dr, o) => exists c', r = (c', dr, o) /\ matches c' d' end.

Lemma removelast_rev {A} (l : list A) x r : rev l = x :: r -> removelast l = rev r.
Proof.
  intros H. rewrite <- (rev_involutive l), H; simpl. apply removelast_last.
Qed.

Lemma push_back_ok c d v : matches c d -> sim (push_back E dp v c) (s_push_back dp v d).
Proof.
  intros [R Hn]; destruct d as [k l]; simpl in *.
  unfold push_back, s_push_back; cbn [cap items].
  unfold bind at 1. unfold unwinding. unfold bind at 1, gets at 1.
  rewrite (rep_is_full_ok R), Hn; cbn [Nat.sub]; rewrite Nat.sub_0_r.
  destruct (Nat.eqb_spec (length l) k) as [Hf|Hf].
  - (* full *)
    unfold bind at 1, gets at 1. rewrite (rep_capacity_ok R), Hn; cbn [Nat.sub]; rewrite Nat.sub_0_r.
    destruct k as [|k].
    + (* capacity zero *)
      cbn [Nat.eqb]. unfold ret; cbn. unfold drop_val.
      exists c; split; [destruct (dp v); reflexivity | split; auto].
    + cbn [Nat.eqb].
      destruct l as [|x l']; [simpl in Hf; lia|].
      unfold bind at 1.
      destruct (pop_front_ok R) as (c1 & Hpop & R1 & Hn1); rewrite Hpop; cbn [hd_error tl] in *.
      unfold bind at 1 2, drop_opt, drop_val.
      rewrite (proj2 (Nat.ltb_ge (length (x :: l')) (S k))) by lia.
      destruct (dp x) eqn:Hdx.
      * unfold unwind; cbn [existsb app orb]. exists c1; rewrite orb_false_r.
        split; [destruct (dp v); reflexivity|split; auto; cbn; lia].
      * unfold ret; cbn [app].
        destruct (push_back_room v R1) as (c2 & Hp & R2 & Hn2).
        { rewrite Hn1, Hn; simpl in Hf; lia. }
        unfold bind at 1 in Hp; rewrite Hp.
        exists c2; split; [reflexivity|]; split; auto; cbn; lia.
  - assert (Hroom : S (length l) < length (buffer c)).
    { pose proof (rep_len R); lia. }
    destruct k as [|k]; [pose proof (rep_len R); lia|].
    rewrite (proj2 (Nat.ltb_lt (length l) (S k))) by lia.
    unfold ret at 1; cbn [app].
    destruct (push_back_room v R Hroom) as (c2 & Hp & R2 & Hn2).
    rewrite Hp. exists c2; split; [reflexivity|]; split; auto; cbn; lia.
Qed.

Lemma push_front_ok c d v : matches c d -> sim (push_front E dp v c) (s_push_front dp v d).
Proof.
  intros [R Hn]; destruct d as [k l]; simpl in *.
  unfold push_front, s_push_front; cbn [cap items].
  unfold bind at 1. unfold unwinding at 1. unfold bind at 1, gets at 1.
  rewrite (rep_is_full_ok R), Hn; cbn [Nat.sub]; rewrite Nat.sub_0_r.
  destruct (Nat.eqb_spec (length l) k) as [Hf|Hf].
  - unfold bind at 1, gets at 1. rewrite (rep_capacity_ok R), Hn; cbn [Nat.sub]; rewrite Nat.sub_0_r.
    destruct k as [|k].
    + cbn [Nat.eqb]. unfold ret; cbn. unfold drop_val.
      exists c; split; [destruct (dp v); reflexivity | split; auto].
    + cbn [Nat.eqb].
      destruct (rev l) as [|x r] eqn:Hrev.
      { apply (f_equal (@length T)) in Hrev; rewrite rev_length in Hrev; simpl in Hrev; lia. }
      assert (Hlr : length l = S (length r)).
      { rewrite <- rev_length, Hrev; reflexivity. }
      unfold bind at 1.
      destruct (pop_back_ok R) as (c1 & Hpop & R1 & Hn1); rewrite Hpop.
      rewrite Hrev in *; cbn [hd_error].
      rewrite (removelast_rev _ Hrev) in R1.
      unfold bind at 1 2, drop_opt, drop_val.
      rewrite (proj2 (Nat.ltb_ge (length l) (S k))) by lia.
      destruct (dp x) eqn:Hdx.
      * unfold unwind; cbn [existsb app orb]. exists c1; rewrite orb_false_r.
        split; [destruct (dp v); reflexivity|split; auto; cbn; lia].
      * unfold ret; cbn [app].
        destruct (push_front_room v R1) as (c2 & Hp & R2 & Hn2).
        { rewrite Hn1, Hn, rev_length; lia. }
        unfold bind at 1 in Hp; rewrite Hp.
        exists c2; split; [reflexivity|]; split; auto; cbn; lia.
  - assert (Hroom : S (length l) < length (buffer c)).
    { pose proof (rep_len R); lia. }
    destruct k as [|k]; [pose proof (rep_len R); lia|].
    rewrite (proj2 (Nat.ltb_lt (length l) (S k))) by lia.
    unfold ret at 1; cbn [app].
    destruct (push_front_room v R Hroom) as (c2 & Hp & R2 & Hn2).
    rewrite Hp. exists c2; split; [reflexivity|]; split; auto; cbn; lia.
Qed.

End Rep.
