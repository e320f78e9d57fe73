(** Lemmas on the positions a buffer may occupy in its storage. *)

From Verif Require Import Base CBSpec CBSpec2 CBModel CBModel2 CBRun CBProofs CBProofs2 CBProofs3 CBProofs6.
Local Open Scope outcome_scope.
Local Open Scope list_scope.
Set Implicit Arguments.

Section Turn.
Variable T : Type.
Variable E : machine.
Hypothesis HE : indexable T E.
Implicit Types (c d : cb T) (l : list T).

Notation no := (fun _ : T => false).

Lemma pop_front_start c c' l x : rep E c (x :: l) -> pop_front E no c = (c', [], Ret (Some x)) ->
  start c' = phys (length (buffer c)) (start c) 1.
Proof.
  intros R H. pose proof R as [Hs Hl He Hr Ha]. pose proof HE as [Hau Hidx].
  unfold pop_front, bind, gets, ret in H. rewrite (rep_is_empty_ok R) in H. cbn [length Nat.eqb] in H.
  unfold pop_at in H. destruct (nth_error (buffer c) (start c)) as [[|v]|]; try discriminate.
  unfold unwinding, incr_start, bind, gets, modify, debug_assert, is_empty, set_buffer, set_start in H. cbn [start end_ buffer] in H.
  assert (Hne : (end_ c =? start c) = false).
  { pose proof (rep_is_empty_ok R) as X; unfold is_empty in X; rewrite X; reflexivity. }
  rewrite Hne in H. cbn [negb obind] in H. rewrite length_upd in H.
  rewrite uadd_fits in H by lia. cbn [obind start] in H.
  unfold phys. destruct (debug_build E), (Nat.eqb_spec (start c + 1) (length (buffer c))); injection H as <- _;
    cbn [start]; destruct (Nat.ltb_spec (start c + 1) (length (buffer c))); lia.
Qed.

Lemma push_back_start c c' l v : rep E c l -> S (length l) < length (buffer c) ->
  push_back E no v c = (c', [], Ret tt) -> start c' = start c.
Proof.
  intros R Hroom H. unfold push_back in H. unfold bind at 1 in H. unfold unwinding in H. unfold bind at 1, gets at 1 in H.
  rewrite (rep_is_full_ok HE R) in H.
  replace (length l =? length (buffer c) - 1) with false in H by (symmetry; apply Nat.eqb_neq; lia).
  unfold ret at 1 in H. cbn [app] in H. unfold bind, gets, push_at, incr_end, modify, debug_assert in H.
  destruct (end_ c <? length (buffer c)); [|discriminate]. unfold set_buffer, set_end in H; cbn [start end_ buffer] in H.
  unfold gets, bind, modify in H.
  pose proof (rep_end_lt R) as Hel. pose proof R as [Hs Hl He Hr Ha]. pose proof HE as [Hau _].
  destruct (debug_build E); cbn [obind end_] in H.
  - destruct (omap negb _) as [[]| | | |]; cbn [obind] in H; try discriminate.
    rewrite uadd_fits in H by (cbn; lia). cbn [end_ buffer] in H.
    match type of H with context [?a =? ?b] => destruct (a =? b) end; injection H as <-; reflexivity.
  - rewrite uadd_fits in H by (cbn; lia). cbn [end_ buffer] in H.
    match type of H with context [?a =? ?b] => destruct (a =? b) end; injection H as <-; reflexivity.
Qed.

Lemma place_end c k l : matches E c (Deque k l) ->
  end_ c = (start c + length l) mod (k + 1) /\ length (buffer c) = k + 1.
Proof.
  intros [[Hs Hl He Hr Ha] Hn]. cbn [items cap] in *. rewrite He, Hn in *. split; [|lia].
  replace (k + 1) with (S k) by lia. unfold phys. destruct (Nat.ltb_spec (start c + length l) (S k)) as [X|X].
  - symmetry. now apply Nat.mod_small.
  - apply (Nat.mod_unique _ _ 1); lia.
Qed.

(** pushing at the back of a buffer with room *)
Lemma push_reach c k l v : reachable E c -> matches E c (Deque k l) -> length l < k ->
  exists c', reachable E c' /\ matches E c' (Deque k (l ++ [v])) /\ start c' = start c.
Proof.
  intros Hr Hm Hl. pose proof Hm as [R Hn]. cbn [items cap] in *.
  assert (Q : s_push_back no v (Deque k l) = (Deque k (l ++ [v]), [], Ret tt)).
  { unfold s_push_back; cbn [cap items]. destruct k; [lia|]. now rewrite (proj2 (Nat.ltb_lt (length l) (S k))) by lia. }
  pose proof (push_back_ok no HE v Hm) as X. rewrite Q in X. destruct X as (c' & H & Hm'). exists c'. split; [|split; [exact Hm'|]].
  - apply (@r_call T E no (OPushBack v) c c' [] (Ret RUnit)); auto; [exact I|]. cbn. unfold mmap, bind. rewrite H. reflexivity.
  - apply (@push_back_start c c' l v R); auto. lia.
Qed.

Lemma pushes_reach c k l xs : reachable E c -> matches E c (Deque k l) -> length (l ++ xs) <= k ->
  exists c', reachable E c' /\ matches E c' (Deque k (l ++ xs)) /\ start c' = start c.
Proof.
  revert c l. induction xs as [|x xs IH]; intros c l Hr Hm Hl.
  - exists c. now rewrite app_nil_r.
  - rewrite app_length in Hl; cbn in Hl. destruct (@push_reach c k l x Hr Hm) as (c1 & Hr1 & Hm1 & S1); [lia|].
    destruct (IH c1 (l ++ [x]) Hr1 Hm1) as (c2 & Hr2 & Hm2 & S2).
    { rewrite !app_length; cbn. lia. }
    exists c2. rewrite <- app_assoc in Hm2. split; auto. split; auto. congruence.
Qed.

(** an empty buffer at any position *)
Lemma turn_reach k s (v : T) : k + 1 <= alloc_max E -> s <= k ->
  exists c, reachable E c /\ matches E c (Deque k []) /\ start c = s.
Proof.
  intros Hk. induction s as [|s IH]; intros Hs.
  - destruct (new_ok HE k Hk) as (c & H & Hm). exists c. split; [exact (@r_new T E k c Hk H)|]. split; auto.
    clear Hm. unfold new, with_capacity in H. destruct (uadd E k 1) as [n| | | |]; try discriminate. cbn [obind] in H.
    destruct (vec_with_capacity T E n) as [b| | | |]; try discriminate. cbn [obind] in H.
    destruct (vec_push_uninit E b n) as [b'| | | |]; try discriminate. injection H as <-. reflexivity.
  - destruct IH as (c & Hr & Hm & S0); [lia|].
    destruct (@push_reach c k [] v Hr Hm) as (c1 & Hr1 & Hm1 & S1); [cbn; lia|]. cbn [app] in Hm1.
    pose proof Hm1 as [R1 Hn1]. cbn [items cap] in *. destruct (pop_front_ok no HE R1) as (c2 & H2 & R2 & Hn2). cbn [hd_error tl] in H2, R2.
    exists c2. split; [|split].
    + apply (@r_call T E no OPopFront c1 c2 [] (Ret (ROpt (Some v)))); auto; [exact I|]. cbn [cb_step]. unfold mmap, bind. rewrite H2. reflexivity.
    + split; cbn; auto. lia.
    + rewrite (pop_front_start R1 H2), Hn1, S1, S0. unfold phys. destruct (Nat.ltb_spec (s + 1) (S k)); lia.
Qed.

Lemma place_reach k l s (v : T) : k + 1 <= alloc_max E -> length l <= k -> s <= k ->
  exists c, reachable E c /\ shows E c k l /\ start c = s /\ end_ c = (s + length l) mod (k + 1) /\ length (buffer c) = k + 1.
Proof.
  intros Hk Hl Hs. destruct (@turn_reach k s v Hk Hs) as (c0 & Hr0 & Hm0 & S0).
  destruct (@pushes_reach c0 k [] l Hr0 Hm0 Hl) as (c & Hr & Hm & S1). cbn [app] in Hm.
  exists c. split; auto. split; [exact (matches_shows Hm)|]. split; [congruence|]. rewrite <- S0, <- S1. exact (place_end Hm).
Qed.
End Turn.
