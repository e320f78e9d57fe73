(** How many slots the calls of the circular buffer touch. *)
From Verif Require Import Base CBSpec CBSpec3 CBModel CBRun CBProofs CBProofs2 CBModel4 CBProofs9.
Local Open Scope outcome_scope.
Set Implicit Arguments.

Section Count.
Variable T : Type.
Variable E : machine.
Variable dp : T -> bool.
Hypothesis HE : indexable T E.
Notation rep := (@rep T E).
Notation matches := (@matches T E).
Notation sim := (@sim T E _).
Implicit Types c : cb T.
Implicit Types d : deque T.

Definition cnt {P S A} (m : W T P S A) (s : S) : nat := length (snd (m s)).

Lemma cnt_bind P S A B (m : W T P S A) (f : A -> W T P S B) s :
  cnt (wbind m f) s = cnt m s + match fst (m s) with (s1, _, Ret a) => cnt (f a) s1 | _ => 0 end.
Proof.
  unfold cnt, wbind. destruct (m s) as [[[s1 d1] o] t1]. cbn [fst snd]. destruct o as [a| | | |]; cbn [snd]; try lia.
  destruct (f a s1) as [[[s2 d2] o2] t2]. cbn [snd]. rewrite app_length. reflexivity.
Qed.
Lemma cnt_plain P S A (m : M T S A) s : cnt (@plain T P S A m) s = 0.
Proof. reflexivity. Qed.
Lemma cnt_unwinding P S A v (m : W T P S A) s : cnt (unwinding_w dp v m) s = cnt m s.
Proof. reflexivity. Qed.
Lemma cnt_unwinding_list P S A v (m : W T P S A) s : cnt (unwinding_list_w dp v m) s = cnt m s.
Proof. reflexivity. Qed.
Lemma cnt_wmap P S A B (f : A -> B) (m : W T P S A) s : cnt (wmap f m) s = cnt m s.
Proof. unfold wmap. rewrite cnt_bind. destruct (fst (m s)) as [[? ?] [a| | | |]]; rewrite ?cnt_plain; lia. Qed.

(** after a computation touching nothing and returning [a] *)
Lemma cnt_after P S A B (m : W T P S A) (f : A -> W T P S B) s s1 dr a n :
  cnt m s = n -> fst (m s) = (s1, dr, Ret a) -> cnt (wbind m f) s = n + cnt (f a) s1.
Proof. intros N H. now rewrite cnt_bind, N, H. Qed.
Lemma cnt_stop P S A B (m : W T P S A) (f : A -> W T P S B) s s1 dr o n :
  cnt m s = n -> fst (m s) = (s1, dr, o) -> (forall a, o <> Ret a) -> cnt (wbind m f) s = n.
Proof. intros N H X. rewrite cnt_bind, N, H. destruct o; try lia. exfalso. eapply X. reflexivity. Qed.
(** reading fields first *)
Lemma cnt_gets S A B (g : S -> outcome A) (f : A -> W T nat S B) s a :
  g s = Ret a -> cnt (wbind (plain (gets g)) f) s = cnt (f a) s.
Proof. intros H. rewrite cnt_bind. cbn [plain fst]. unfold gets. rewrite H. reflexivity. Qed.

Lemma slot_in c i : i < length (buffer c) -> length (slot_of c i) = 1.
Proof. intros H. unfold slot_of. apply Nat.ltb_lt in H. now rewrite H. Qed.
Lemma cnt_pop_at c i : i < length (buffer c) -> cnt (pop_at_w i) c = 1.
Proof. exact (@slot_in c i). Qed.
Lemma cnt_push_at v c i : i < length (buffer c) -> cnt (push_at_w v i) c = 1.
Proof. exact (@slot_in c i). Qed.
Lemma cnt_read c i : i < length (buffer c) -> cnt (read_slot_w i) c = 1.
Proof. exact (@slot_in c i). Qed.
Lemma cnt_modify_slot f c i : i < length (buffer c) -> cnt (modify_slot_w i f) c = 1.
Proof. exact (@slot_in c i). Qed.

Lemma cnt_pop_front c d : matches c d -> cnt (pop_front_w E dp) c = Nat.min 1 (length (items d)).
Proof.
  intros [R Hn]. unfold pop_front_w. erewrite cnt_gets by reflexivity. rewrite (rep_is_empty_ok R).
  destruct (items d) as [|x l] eqn:I; [reflexivity|]. cbn [length Nat.eqb Nat.min].
  erewrite cnt_gets by reflexivity. rewrite cnt_bind. rewrite (@cnt_pop_at c (start c)) by (apply (rep_start R)).
  destruct (fst (pop_at_w (start c) c)) as [[? ?] [a| | | |]]; try lia. rewrite cnt_bind, cnt_unwinding, cnt_plain.
  destruct (fst (unwinding_w _ _ _ _)) as [[? ?] [[]| | | |]]; rewrite ?cnt_plain; lia.
Qed.

Lemma cnt_pop_back c d : matches c d -> cnt (pop_back_w E) c = Nat.min 1 (length (items d)).
Proof.
  intros M. pose proof M as [R Hn]. unfold pop_back_w. erewrite cnt_gets by reflexivity. rewrite (rep_is_empty_ok R).
  destruct (items d) as [|x l] eqn:I; [reflexivity|]. cbn [length Nat.eqb Nat.min].
  assert (NE : exists y r, rev (items d) = y :: r).
  { destruct (rev (items d)) as [|y r] eqn:Q; [|eauto]. apply (f_equal (@length T)) in Q. rewrite rev_length, I in Q. discriminate. }
  destruct NE as (y & r & Hr). destruct (pop_back_snoc M Hr) as (c' & Hp & _).
  unfold pop_back in Hp. unfold bind at 1, gets at 1 in Hp. rewrite (rep_is_empty_ok R) in Hp. cbn [length Nat.eqb] in Hp.
  rewrite cnt_bind, cnt_plain. cbn [plain fst]. unfold bind at 1 in Hp.
  destruct (decr_end E c) as [[c1 d1] [[]| | | |]]; try discriminate. rewrite (@cnt_gets _ _ _ _ _ _ (end_ c1)) by reflexivity.
  unfold bind at 1, gets at 1 in Hp. unfold bind at 1 in Hp. rewrite cnt_bind. unfold pop_at in Hp.
  assert (L : end_ c1 < length (buffer c1)).
  { destruct (Nat.le_gt_cases (length (buffer c1)) (end_ c1)) as [G|G]; [|exact G]. apply nth_error_None in G. rewrite G in Hp. discriminate. }
  rewrite (@cnt_pop_at c1 (end_ c1)) by exact L.
  destruct (fst (pop_at_w (end_ c1) c1)) as [[? ?] [a| | | |]]; rewrite ?cnt_plain; lia.
Qed.

(** the test at the head of a push, with [pop] for the element making room *)
Definition room (pop : W T nat (cb T) (option T)) : W T nat (cb T) bool :=
  wbind (plain (gets (is_full E))) (fun full : bool =>
    if full then
      wbind (plain (gets (capacity E))) (fun k =>
      if k =? 0 then plain (ret false)
      else wbind pop (fun x => wbind (plain (drop_opt dp x)) (fun _ => plain (ret true))))
    else plain (ret true)).

Lemma fst_after P S A B (m : W T P S A) (f : A -> W T P S B) s s1 (d1 : list T) a :
  fst (m s) = (s1, d1, Ret a) -> fst (wbind m f s) = match fst (f a s1) with (s2, d2, o) => (s2, d1 ++ d2, o) end.
Proof. unfold wbind. destruct (m s) as [r t]. cbn [fst]. intros ->. destruct (f a s1) as [[[? ?] ?] ?]. reflexivity. Qed.
Lemma fst_gets S A B (g : S -> outcome A) (f : A -> W T nat S B) s a :
  g s = Ret a -> fst (wbind (plain (gets g)) f s) = fst (f a s).
Proof.
  intros H. erewrite (@fst_after _ _ _ _ _ f s s [] a); [|cbn [plain fst]; unfold gets; now rewrite H].
  destruct (fst (f a s)) as [[? ?] ?]. reflexivity.
Qed.

Lemma cnt_room pop leaving d' c d v : matches c d ->
  (length (items d) = cap d -> cap d <> 0 -> exists x c1, leaving = Some x /\ cnt pop c = 1 /\ fst (pop c) = (c1, [], Ret (Some x)) /\ matches c1 d') ->
  cnt (unwinding_w dp v (room pop)) c = (if length (items d) =? cap d then if cap d =? 0 then 0 else 1 else 0) /\
  exists c1 dr, fst (unwinding_w dp v (room pop) c) =
    (if length (items d) =? cap d then
      if cap d =? 0 then (c, [], Ret false)
      else match leaving with
           | None => (c1, dr, NoFuel)
           | Some x => if dp x then (c1, [x; v], if dp v then Abort else Panic) else (c1, [x], Ret true)
           end
    else (c, [], Ret true)) /\
    (length (items d) = cap d -> cap d <> 0 -> matches c1 d').
Proof.
  intros [R Hn] Hp. rewrite cnt_unwinding. unfold room.
  assert (FL : is_full E c = Ret (length (items d) =? cap d)) by (rewrite (rep_is_full_ok HE R), Hn; cbn; now rewrite Nat.sub_0_r).
  assert (CP : capacity E c = Ret (cap d)) by (rewrite (rep_capacity_ok R), Hn; cbn; now rewrite Nat.sub_0_r).
  rewrite (@cnt_gets _ _ _ _ _ _ _ FL).
  unfold unwinding_w, unwinding. cbn [fst]. rewrite (@fst_gets _ _ _ _ _ _ _ FL).
  destruct (Nat.eqb_spec (length (items d)) (cap d)) as [F|F]; [|split; [reflexivity|]; exists c, []; split; [reflexivity|intros; contradiction]].
  rewrite (@cnt_gets _ _ _ _ _ _ _ CP), (@fst_gets _ _ _ _ _ _ _ CP).
  destruct (Nat.eqb_spec (cap d) 0) as [Z|Z]; [split; [reflexivity|]; exists c, []; split; [reflexivity|intros; contradiction]|].
  destruct (Hp F Z) as (x & c1 & -> & Cp & Rp & M1). rewrite (@cnt_after _ _ _ _ _ _ _ _ _ _ _ Cp Rp), cnt_bind, cnt_plain.
  rewrite (@fst_after _ _ _ _ _ _ _ _ _ _ Rp). unfold wbind, plain, drop_opt, drop_val, ret. cbn [fst].
  destruct (dp x); cbn.
  - split; [reflexivity|]. exists c1, []. split; [reflexivity|auto].
  - split; [reflexivity|]. exists c1, []. split; [reflexivity|auto].
Qed.

Lemma cnt_push_back v c d : matches c d -> cnt (push_back_w E dp v) c = s_push_touches dp (hd_error (items d)) d.
Proof.
  intros M. pose proof M as [R Hn].
  change (push_back_w E dp v) with (wbind (unwinding_w dp v (room (pop_front_w E dp))) (fun proceed : bool =>
    if proceed then wbind (wbind (plain (gets (fun c => Ret (end_ c)))) (push_at_w v)) (fun _ => plain (incr_end E))
    else plain (drop_val dp v))).
  destruct (@cnt_room (pop_front_w E dp) (hd_error (items d)) (Deque (cap d) (tl (items d))) c d v M) as (C & c1 & dr & X & M1).
  { intros F Z. destruct (items d) as [|x l] eqn:I; [cbn in F; congruence|].
    destruct (pop_front_cons dp HE M I) as (c1 & Hp & M1). exists x, c1. split; [reflexivity|].
    split; [rewrite (cnt_pop_front M), I; reflexivity|]. rewrite (er_pop_front _ _ c). auto. }
  assert (P : forall c2 d2, matches c2 d2 -> cnt (wbind (wbind (plain (gets (fun c => Ret (end_ c)))) (push_at_w v)) (fun _ => plain (incr_end E))) c2 = 1).
  { intros c2 d2 [R2 Hn2]. rewrite cnt_bind. erewrite cnt_gets by reflexivity.
    rewrite (@cnt_push_at v c2 (end_ c2)) by (apply (rep_end_lt R2)).
    match goal with |- 1 + ?m = 1 => assert (m = 0) as -> end; [|reflexivity]. destruct (fst (wbind _ _ c2)) as [[? ?] [[]| | | |]]; reflexivity. }
  unfold s_push_touches. destruct (Nat.eqb_spec (length (items d)) (cap d)) as [F|F].
  - rewrite F, Nat.ltb_irrefl. destruct (Nat.eqb_spec (cap d) 0) as [Z|Z].
    + rewrite (@cnt_after _ _ _ _ _ _ _ _ _ _ _ C X), cnt_plain, Z. reflexivity.
    + destruct (cap d) as [|k] eqn:K; [congruence|]. specialize (M1 F Z).
      destruct (items d) as [|x l] eqn:I; [cbn in F; discriminate|]. cbn [hd_error] in *.
      destruct (dp x); [apply (@cnt_stop _ _ _ _ _ _ _ _ _ _ _ C X); destruct (dp v); discriminate|].
      rewrite (@cnt_after _ _ _ _ _ _ _ _ _ _ _ C X), (P _ _ M1). reflexivity.
  - rewrite (@cnt_after _ _ _ _ _ _ _ _ _ _ _ C X), (P _ _ M). pose proof (rep_len R).
    destruct (cap d) as [|k] eqn:K; [lia|]. assert (Q : length (items d) <? S k = true) by (apply Nat.ltb_lt; lia). now rewrite Q.
Qed.

Lemma cnt_push_front v c d : matches c d -> cnt (push_front_w E dp v) c = s_push_touches dp (hd_error (rev (items d))) d.
Proof.
  intros M. pose proof M as [R Hn].
  change (push_front_w E dp v) with (wbind (unwinding_w dp v (room (pop_back_w E))) (fun proceed : bool =>
    if proceed then wbind (unwinding_w dp v (plain (decr_start E))) (fun _ => wbind (plain (gets (fun c => Ret (start c)))) (push_at_w v))
    else plain (drop_val dp v))).
  destruct (@cnt_room (pop_back_w E) (hd_error (rev (items d))) (Deque (cap d) (rev (tl (rev (items d))))) c d v M) as (C & c1 & dr & X & M1).
  { intros F Z. destruct (rev (items d)) as [|x l] eqn:I; [apply (f_equal (@length T)) in I; rewrite rev_length in I; cbn in I; congruence|].
    destruct (pop_back_snoc M I) as (c1 & Hp & M1). exists x, c1. split; [reflexivity|].
    split; [rewrite (cnt_pop_back M), <- rev_length, I; reflexivity|]. rewrite (er_pop_back _ c). auto. }
  assert (P : forall c2 d2, matches c2 d2 -> S (length (items d2)) < length (buffer c2) ->
    cnt (wbind (unwinding_w dp v (plain (decr_start E))) (fun _ => wbind (plain (gets (fun c => Ret (start c)))) (push_at_w v))) c2 = 1).
  { intros c2 d2 [R2 Hn2] L2. destruct (push_front_room dp HE v R2 L2) as (c3 & Hp & _). rewrite cnt_bind, cnt_unwinding, cnt_plain.
    unfold bind at 1 in Hp. rewrite (er_unwinding dp v (@er_plain T nat _ _ (decr_start E)) c2).
    destruct (unwinding dp v (decr_start E) c2) as [[c4 d4] [[]| | | |]]; try discriminate.
    rewrite (@cnt_gets _ _ _ _ _ _ (start c4)) by reflexivity.
    unfold bind, gets, push_at in Hp. rewrite (@cnt_push_at v c4 (start c4)); [reflexivity|].
    destruct (Nat.ltb_spec (start c4) (length (buffer c4))); [assumption|discriminate]. }
  unfold s_push_touches. destruct (Nat.eqb_spec (length (items d)) (cap d)) as [F|F].
  - rewrite F, Nat.ltb_irrefl. destruct (Nat.eqb_spec (cap d) 0) as [Z|Z].
    + rewrite (@cnt_after _ _ _ _ _ _ _ _ _ _ _ C X), cnt_plain, Z. reflexivity.
    + destruct (cap d) as [|k] eqn:K; [congruence|]. specialize (M1 F Z).
      destruct (rev (items d)) as [|x l] eqn:I; [apply (f_equal (@length T)) in I; rewrite rev_length in I; cbn in I; congruence|]. cbn [hd_error] in *.
      destruct (dp x); [apply (@cnt_stop _ _ _ _ _ _ _ _ _ _ _ C X); destruct (dp v); discriminate|].
      rewrite (@cnt_after _ _ _ _ _ _ _ _ _ _ _ C X), (P _ _ M1); [reflexivity|]. cbn [items tl].
      destruct M1 as [_ Hn1]. cbn [cap] in Hn1. rewrite Hn1. apply (f_equal (@length T)) in I. rewrite rev_length in I. cbn in I. rewrite rev_length. lia.
  - pose proof (rep_len R). rewrite (@cnt_after _ _ _ _ _ _ _ _ _ _ _ C X), (P _ _ M) by lia.
    destruct (cap d) as [|k] eqn:K; [lia|]. assert (Q : length (items d) <? S k = true) by (apply Nat.ltb_lt; lia). now rewrite Q.
Qed.

Lemma cnt_clear_loop f : forall c d, matches c d -> length (items d) < f ->
  cnt (clear_loop_w E dp f) c = s_drop_touches dp (rev (items d)).
Proof.
  induction f as [|f IH]; intros c d M L; [lia|]. cbn [clear_loop_w]. rewrite cnt_bind, (cnt_pop_back M).
  rewrite (er_pop_back _ c). unfold s_drop_touches. destruct (rev (items d)) as [|x r] eqn:Hr.
  - assert (I : items d = []) by (rewrite <- (rev_involutive (items d)), Hr; reflexivity).
    destruct (pop_back_nil M I) as (c' & -> & _). rewrite I. reflexivity.
  - destruct (pop_back_snoc M Hr) as (c' & -> & M').
    assert (LL : length (items d) = S (length r)) by (rewrite <- rev_length, Hr; reflexivity). rewrite LL. cbn [Nat.min drop_each].
    rewrite cnt_bind, cnt_plain. unfold plain, drop_val. cbn [fst]. destruct (dp x); [reflexivity|].
    specialize (IH c' _ M'). cbn [items] in IH. rewrite rev_involutive, rev_length in IH. rewrite IH by lia.
    unfold s_drop_touches. destruct (drop_each dp r) as [[? ?] ?]. reflexivity.
Qed.
Lemma cnt_clear c d : matches c d -> cnt (clear_w E dp) c = s_drop_touches dp (rev (items d)).
Proof. intros M. apply cnt_clear_loop; [exact M|]. destruct M as [R Hn]. pose proof (rep_len R). lia. Qed.

Lemma cnt_drain_skip n : forall c d, matches c d -> cnt (drain_skip_w E dp n) c = s_drop_touches dp (firstn n (items d)).
Proof.
  induction n as [|n IH]; intros c d M; [reflexivity|]. cbn [drain_skip_w]. rewrite cnt_bind, (cnt_pop_front M), (er_pop_front _ _ c).
  unfold s_drop_touches. destruct (items d) as [|x r] eqn:I.
  - destruct (pop_front_nil dp HE M I) as (c' & -> & _). reflexivity.
  - destruct (pop_front_cons dp HE M I) as (c' & -> & M'). cbn [length Nat.min firstn drop_each].
    rewrite cnt_bind, cnt_plain. unfold plain, drop_val. cbn [fst]. destruct (dp x); [reflexivity|].
    rewrite (IH c' _ M'). cbn [items]. unfold s_drop_touches. destruct (drop_each dp (firstn n r)) as [[? ?] ?]. reflexivity.
Qed.
Lemma cnt_drain_take n : forall c d, matches c d -> cnt (drain_take_w E dp n) c = Nat.min n (length (items d)).
Proof.
  induction n as [|n IH]; intros c d M; [reflexivity|]. cbn [drain_take_w]. rewrite cnt_bind, (cnt_pop_front M), (er_pop_front _ _ c).
  destruct (items d) as [|x r] eqn:I.
  - destruct (pop_front_nil dp HE M I) as (c' & -> & _). reflexivity.
  - destruct (pop_front_cons dp HE M I) as (c' & -> & M'). rewrite cnt_bind, (IH c' _ M'). cbn [items length].
    destruct (fst (drain_take_w E dp n c')) as [[? ?] [?| | | |]]; rewrite ?cnt_plain; lia.
Qed.
Lemma cnt_drain_all f : forall c d, matches c d -> length (items d) < f -> cnt (drain_all_w E dp f) c = length (items d).
Proof.
  induction f as [|f IH]; intros c d M L; [lia|]. cbn [drain_all_w]. rewrite cnt_bind, (cnt_pop_front M), (er_pop_front _ _ c).
  destruct (items d) as [|x r] eqn:I.
  - destruct (pop_front_nil dp HE M I) as (c' & -> & _). reflexivity.
  - destruct (pop_front_cons dp HE M I) as (c' & -> & M'). cbn [length] in *. rewrite cnt_bind, (IH c' _ M') by (cbn [items]; lia). cbn [items length].
    destruct (fst (drain_all_w E dp f c')) as [[? ?] [?| | | |]]; rewrite ?cnt_plain; lia.
Qed.
Lemma cnt_extend xs : forall c d, matches c d -> cnt (extend_w E dp xs) c = s_extend_touches dp xs d.
Proof.
  induction xs as [|x xs IH]; intros c d M; [reflexivity|]. cbn [extend_w s_extend_touches].
  rewrite cnt_bind, cnt_unwinding_list, (cnt_push_back x M). f_equal.
  rewrite (er_unwinding_list dp xs (er_push_back E dp x) c). unfold unwinding_list.
  pose proof (push_back_ok dp HE x M) as P. pose proof (s_push_back_outcome dp x d) as O.
  destruct (s_push_back dp x d) as [[d1 dr] o]. destruct P as (c1 & -> & M1).
  destruct O as [->|[->| ->]]; [apply IH; exact M1|destruct (existsb dp xs); reflexivity|reflexivity].
Qed.
Lemma cnt_into_iter n c d : matches c d ->
  cnt (into_iter_take_w E dp n) c = Nat.min n (length (items d)) + s_drop_touches dp (rev (skipn n (items d))).
Proof.
  intros M. unfold into_iter_take_w. rewrite cnt_bind, (cnt_drain_take n M). f_equal. rewrite (er_drain_take _ _ n c).
  destruct (drain_take_ok dp HE n M) as (c1 & -> & M1). rewrite cnt_bind, (cnt_clear M1). cbn [items].
  destruct (fst (clear_w E dp c1)) as [[? ?] [?| | | |]]; rewrite ?cnt_plain; lia.
Qed.

(** the slots of one of the two storages *)
Definition cnt_l {S A} (m : W T (nat + nat) S A) (s : S) : nat := length (lefts (snd (m s))).
Definition rights (t : list (nat + nat)) : list nat := flat_map (fun x => match x with inl _ => [] | inr i => [i] end) t.
Definition cnt_r {S A} (m : W T (nat + nat) S A) (s : S) : nat := length (rights (snd (m s))).

Lemma lefts_app t1 t2 : lefts (t1 ++ t2) = lefts t1 ++ lefts t2.
Proof. apply flat_map_app. Qed.
Lemma rights_app t1 t2 : rights (t1 ++ t2) = rights t1 ++ rights t2.
Proof. apply flat_map_app. Qed.
Lemma lefts_inl t : lefts (map inl t) = t.
Proof. induction t as [|i t IH]; [reflexivity|]. cbn. f_equal. exact IH. Qed.
Lemma lefts_inr t : lefts (map inr t) = [].
Proof. induction t as [|i t IH]; [reflexivity|]. exact IH. Qed.
Lemma rights_inr t : rights (map inr t) = t.
Proof. induction t as [|i t IH]; [reflexivity|]. cbn. f_equal. exact IH. Qed.
Lemma rights_inl t : rights (map inl t) = [].
Proof. induction t as [|i t IH]; [reflexivity|]. exact IH. Qed.

Lemma cnt_l_bind S A B (m : W T (nat + nat) S A) (f : A -> W T (nat + nat) S B) s :
  cnt_l (wbind m f) s = cnt_l m s + match fst (m s) with (s1, _, Ret a) => cnt_l (f a) s1 | _ => 0 end /\
  cnt_r (wbind m f) s = cnt_r m s + match fst (m s) with (s1, _, Ret a) => cnt_r (f a) s1 | _ => 0 end.
Proof.
  unfold cnt_l, cnt_r, wbind. destruct (m s) as [[[s1 d1] o] t1]. cbn [fst snd]. destruct o as [a| | | |]; cbn [snd]; try lia.
  destruct (f a s1) as [[[s2 d2] o2] t2]. cbn [snd]. rewrite lefts_app, rights_app, !app_length. auto.
Qed.

Lemma cnt_append_loop f : forall c1 c2 d1 d2, matches c1 d1 -> matches c2 d2 -> length (items d2) < f ->
  (cnt_l (append_loop_w E dp f) (c1, c2), cnt_r (append_loop_w E dp f) (c1, c2)) = s_append_touches dp (items d2) d1.
Proof.
  induction f as [|f IH]; intros c1 c2 d1 d2 M1 M2 L; [lia|]. cbn [append_loop_w].
  match goal with |- context [cnt_l (wbind ?m ?g) ?s] => destruct (cnt_l_bind m g s) as [-> ->] end.
  unfold cnt_l at 1, cnt_r at 1, on_snd_w at 1 3. cbn [snd]. rewrite lefts_inr, rights_inr.
  change (length (snd (pop_front_w E dp c2))) with (cnt (pop_front_w E dp) c2). rewrite (cnt_pop_front M2).
  rewrite (er_on_snd (S1 := cb T) (er_pop_front E dp) (c1, c2)). unfold on_snd. cbn [fst snd].
  destruct (items d2) as [|x r] eqn:I.
  - destruct (pop_front_nil dp HE M2 I) as (c' & -> & _). reflexivity.
  - destruct (pop_front_cons dp HE M2 I) as (c' & -> & M'). cbn [s_append_touches length Nat.min].
    match goal with |- context [cnt_l (wbind ?m ?g) ?s] => destruct (cnt_l_bind m g s) as [-> ->] end.
    unfold cnt_l at 1, cnt_r at 1, on_fst_w at 1 3. cbn [fst snd]. rewrite lefts_inl, rights_inl.
    change (length (snd (push_back_w E dp x c1))) with (cnt (push_back_w E dp x) c1). rewrite (cnt_push_back x M1).
    rewrite (er_on_fst (S2 := cb T) (er_push_back E dp x) (c1, c')). unfold on_fst. cbn [fst snd].
    pose proof (push_back_ok dp HE x M1) as P. pose proof (s_push_back_outcome dp x d1) as O.
    destruct (s_push_back dp x d1) as [[d3 dr] o]. destruct P as (c3 & -> & M3).
    destruct O as [->|[->| ->]]; try (cbn [length]; now rewrite !Nat.add_0_r).
    specialize (IH c3 c' d3 _ M3 M'). cbn [items] in IH. rewrite <- IH by (cbn in L; lia). reflexivity.
Qed.
Lemma cnt_append c1 c2 d1 d2 : matches c1 d1 -> matches c2 d2 ->
  (cnt_l (append_w E dp) (c1, c2), cnt_r (append_w E dp) (c1, c2)) = s_append_touches dp (items d2) d1.
Proof. intros M1 M2. apply cnt_append_loop; auto. cbn [snd]. destruct M2 as [R Hn]. pose proof (rep_len R). lia. Qed.

(** *** Access *)
Lemma spos_in c d i : matches c d -> i < length (items d) -> spos E c i < length (buffer c).
Proof.
  intros [R _] H. apply nth_error_Some. rewrite (rep_nth_spos HE R H).
  destruct (nth_error (items d) i) eqn:Q; [discriminate|]. apply nth_error_None in Q. lia.
Qed.
Lemma cnt_at A B (f : A -> B) (touch : nat -> W T nat (cb T) A) (g : cb T -> outcome nat) i c d (rest : W T nat (cb T) A -> W T nat (cb T) B) :
  matches c d -> g c = internal_index E c i ->
  (forall j, j < length (buffer c) -> cnt (rest (touch j)) c = 1) ->
  cnt (wbind (plain (gets g)) (fun j => rest (touch j))) c = if i <? length (items d) then 1 else 0.
Proof.
  intros M G H. pose proof M as [R Hn]. pose proof (rep_internal_index HE i R) as Q. rewrite <- G in Q.
  destruct (Nat.ltb_spec i (length (items d))) as [L|L].
  - rewrite (@cnt_gets _ _ _ _ _ _ _ Q). apply H. exact (spos_in M L).
  - rewrite cnt_bind, cnt_plain. cbn [plain fst]. unfold gets. rewrite Q. reflexivity.
Qed.

Lemma cnt_then A B (f : A -> B) (m : W T nat (cb T) A) c : cnt (wbind m (fun v => plain (ret (f v)))) c = cnt m c.
Proof. rewrite cnt_bind. destruct (fst (m c)) as [[? ?] [?| | | |]]; rewrite ?cnt_plain; lia. Qed.

Lemma cnt_index i c d : matches c d -> cnt (index_w E i) c = if i <? length (items d) then 1 else 0.
Proof.
  intros M. apply (@cnt_at _ _ (fun x => x) (fun j => read_slot_w j) _ i c d (fun m => m) M); [reflexivity|].
  intros j Hj. now apply cnt_read.
Qed.
Lemma cnt_index_mut i f c d : matches c d -> cnt (index_mut_w E i f) c = if i <? length (items d) then 1 else 0.
Proof.
  intros M. apply (@cnt_at _ _ (fun x => x) (fun j => modify_slot_w j f) _ i c d (fun m => m) M); [reflexivity|].
  intros j Hj. now apply cnt_modify_slot.
Qed.
Lemma empty_min c d A (m1 m2 : W T nat (cb T) A) : matches c d -> cnt m1 c = 0 -> (length (items d) <> 0 -> cnt m2 c = 1) ->
  cnt (wbind (plain (gets (fun c => Ret (is_empty c)))) (fun e : bool => if e then m1 else m2)) c = Nat.min 1 (length (items d)).
Proof.
  intros [R Hn] H1 H2. erewrite cnt_gets by reflexivity. rewrite (rep_is_empty_ok R).
  destruct (length (items d)) as [|n]; [exact H1|]. cbn [Nat.eqb Nat.min]. apply H2. discriminate.
Qed.
Lemma cnt_first c d : matches c d -> cnt (first_w E) c = Nat.min 1 (length (items d)).
Proof.
  intros M. unfold first_w. apply empty_min; [exact M|reflexivity|]. intros N.
  rewrite (@cnt_at _ _ (@Some T) (fun j => read_slot_w j) _ 0 c d (fun m => wbind m (fun v => plain (ret (Some v)))) M).
  - destruct (length (items d)); [congruence|reflexivity].
  - reflexivity.
  - intros j Hj. rewrite (cnt_then (@Some T)). now apply cnt_read.
Qed.
Lemma cnt_first_mut f c d : matches c d -> cnt (first_mut_w E f) c = Nat.min 1 (length (items d)).
Proof.
  intros M. unfold first_mut_w. apply empty_min; [exact M|reflexivity|]. intros N.
  rewrite (@cnt_at _ _ (fun _ : unit => true) (fun j => modify_slot_w j f) _ 0 c d (fun m => wbind m (fun _ => plain (ret true))) M).
  - destruct (length (items d)); [congruence|reflexivity].
  - reflexivity.
  - intros j Hj. rewrite (cnt_then (fun _ : unit => true)). now apply cnt_modify_slot.
Qed.
Lemma last_pos c d : matches c d -> length (items d) <> 0 ->
  (let* l := len E c in let* k := usub E l 1 in internal_index E c k) = internal_index E c (length (items d) - 1).
Proof.
  intros [R Hn] N. rewrite (rep_len_ok HE R). cbn [obind]. unfold usub.
  destruct (Nat.leb_spec 1 (length (items d))); [reflexivity|lia].
Qed.
Lemma cnt_last c d : matches c d -> cnt (last_w E) c = Nat.min 1 (length (items d)).
Proof.
  intros M. unfold last_w. apply empty_min; [exact M|reflexivity|]. intros N.
  rewrite (@cnt_at _ _ (@Some T) (fun j => read_slot_w j) _ (length (items d) - 1) c d (fun m => wbind m (fun v => plain (ret (Some v)))) M).
  - destruct (Nat.ltb_spec (length (items d) - 1) (length (items d))); [reflexivity|lia].
  - exact (last_pos M N).
  - intros j Hj. rewrite (cnt_then (@Some T)). now apply cnt_read.
Qed.
Lemma cnt_last_mut f c d : matches c d -> cnt (last_mut_w E f) c = Nat.min 1 (length (items d)).
Proof.
  intros M. unfold last_mut_w. apply empty_min; [exact M|reflexivity|]. intros N.
  rewrite (@cnt_at _ _ (fun _ : unit => true) (fun j => modify_slot_w j f) _ (length (items d) - 1) c d (fun m => wbind m (fun _ => plain (ret true))) M).
  - destruct (Nat.ltb_spec (length (items d) - 1) (length (items d))); [reflexivity|lia].
  - exact (last_pos M N).
  - intros j Hj. rewrite (cnt_then (fun _ : unit => true)). now apply cnt_modify_slot.
Qed.

Lemma sliced_length c d : matches c d -> length (sliced c) = length (items d).
Proof.
  intros [R Hn]. unfold sliced. pose proof R as [Hs Hl He _ _]. unfold phys in He.
  destruct (Nat.ltb_spec (start c + length (items d)) (length (buffer c))); destruct (Nat.leb_spec (start c) (end_ c));
    rewrite ?app_length, ?seq_length; lia.
Qed.
Lemma cnt_linearize c d : matches c d -> cnt (linearize_w E) c = S (cap d) + length (items d).
Proof.
  intros M. pose proof M as [R Hn]. destruct (linearize_ok HE M) as (c' & L & M' & S' & _).
  rewrite <- (er_linearize E c) in L. unfold linearize_w in *. unfold cnt. unfold rotate_w, wbind, plain, gets, modify, rotate_left in *. cbn in *.
  destruct (Nat.leb_spec (start c) (length (buffer c))) as [Q|Q]; [|pose proof (rep_start R); lia]. cbn in *.
  match goal with |- context [len E ?x] => assert (LL : len E x = Ret (length (items d))) end.
  { rewrite <- (rep_len_ok HE R). unfold len. cbn. rewrite app_length, skipn_length, firstn_length.
    replace (length (buffer c) - start c + Nat.min (start c) (length (buffer c))) with (length (buffer c)) by lia. reflexivity. }
  rewrite LL. cbn. rewrite app_nil_r, app_length, !seq_length. lia.
Qed.
Lemma cnt_linearize_with g c d : matches c d -> cnt (linearize_with_w E g) c = S (cap d) + length (items d).
Proof.
  intros M. unfold linearize_with_w. rewrite cnt_bind, (cnt_linearize M).
  destruct (fst (linearize_w E c)) as [[? ?] [?| | | |]]; rewrite ?cnt_plain; lia.
Qed.
Lemma cnt_swap a b c d : matches c d ->
  cnt (swap_w E a b) c = if (a <? length (items d)) && (b <? length (items d)) then 2 else 0.
Proof.
  intros M. pose proof M as [R Hn]. unfold swap_w.
  pose proof (rep_internal_index HE a R) as Qa. pose proof (rep_internal_index HE b R) as Qb.
  destruct (Nat.ltb_spec a (length (items d))) as [La|La]; cbn [andb].
  - rewrite (@cnt_gets _ _ _ (fun c => internal_index E c a) _ c _ Qa). destruct (Nat.ltb_spec b (length (items d))) as [Lb|Lb].
    + rewrite (@cnt_gets _ _ _ (fun c => internal_index E c b) _ c _ Qb). unfold cnt, slice_swap_w. cbn [snd].
      pose proof (spos_in M La) as Ha. pose proof (spos_in M Lb) as Hb. apply Nat.ltb_lt in Ha, Hb. rewrite Ha, Hb. reflexivity.
    + rewrite cnt_bind, cnt_plain. cbn [plain fst]. unfold gets. rewrite Qb. reflexivity.
  - rewrite cnt_bind, cnt_plain. cbn [plain fst]. unfold gets. rewrite Qa. reflexivity.
Qed.
Lemma cnt_reverse_loop m : forall a c d, matches c d -> 2 * (a + m) <= length (items d) -> cnt (reverse_loop_w E (seq a m)) c = 2 * m.
Proof.
  induction m as [|m IH]; intros a c d M L; [reflexivity|]. cbn [seq reverse_loop_w]. rewrite cnt_bind.
  assert (C : cnt (reverse_body_w E a) c = 2).
  { unfold reverse_body_w. pose proof M as [R Hn].
    erewrite cnt_gets; [|rewrite (rep_len_ok HE R); cbn [obind]; unfold usub at 1;
      rewrite (proj2 (Nat.leb_le a (length (items d)))) by lia; cbn [obind]; unfold usub;
      rewrite (proj2 (Nat.leb_le 1 (length (items d) - a))) by lia; reflexivity].
    rewrite (cnt_swap _ _ M). rewrite (proj2 (Nat.ltb_lt a _)) by lia. rewrite (proj2 (Nat.ltb_lt (length (items d) - a - 1) _)) by lia. reflexivity. }
  rewrite C, (er_reverse_body _ a c). destruct (@reverse_body_ok T E HE c d a M) as (l1 & (c1 & -> & M1) & L1 & _); [lia|].
  rewrite (IH (S a) c1 _ M1); [lia|]. cbn [items]. lia.
Qed.
Lemma cnt_reverse c d : matches c d -> cnt (reverse_w E) c = 2 * Nat.div2 (length (items d)).
Proof.
  intros M. pose proof M as [R Hn]. unfold reverse_w. rewrite (@cnt_gets _ _ _ _ _ _ _ (rep_len_ok HE R)).
  apply (@cnt_reverse_loop _ 0 c d M). rewrite Nat.div2_div. cbn [plus]. pose proof (Nat.mul_div_le (length (items d)) 2). lia.
Qed.
End Count.
