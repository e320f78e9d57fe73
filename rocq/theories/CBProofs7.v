(** Buffers whose capacity computation wrapped around: their storage is empty. *)
From Verif Require Import Base CBSpec CBSpec2 CBModel CBRun CBRun2 CBProofs CBProofs2 CBProofs3 CBProofs4.
Local Open Scope outcome_scope.
Set Implicit Arguments.

Section Hollow.
Variable T : Type.
Variable E : machine.
Variable dp : T -> bool.

Notation hollow c := (buffer c = []).

(** on an empty storage, [m] keeps the storage empty, and answers satisfy [P] *)
Definition tame {A} (P : A -> Prop) (m : M T (cb T) A) : Prop := forall c, hollow c ->
  match m c with (c', dr, r) => hollow c' /\
    match r with Ret a => P a | Panic => True | Abort => exists x, In x dr /\ dp x = true | UB | NoFuel => False end end.

Definition otame {A} (P : A -> Prop) (f : cb T -> outcome A) : Prop := forall c, hollow c ->
  match f c with Ret a => P a | Panic => True | Abort | UB | NoFuel => False end.
Definition oany {A} (r : outcome A) : Prop := match r with Ret _ | Panic => True | _ => False end.

Lemma tame_bind {A B} (P : A -> Prop) (Q : B -> Prop) (m : M T (cb T) A) f :
  tame P m -> (forall a, P a -> tame Q (f a)) -> tame Q (bind m f).
Proof.
  intros Hm Hf c Hc. unfold bind. specialize (Hm c Hc). destruct (m c) as [[c1 d1] [a| | | |]]; try tauto.
  destruct Hm as [H1 Ha]. specialize (Hf a Ha c1 H1). destruct (f a c1) as [[c2 d2] r]. destruct Hf as [H2 Hr].
  split; auto. destruct r; auto. destruct Hr as (x & Hx & Hd). exists x. split; auto. apply in_or_app; auto.
Qed.
Lemma tame_ret {A} (P : A -> Prop) a : P a -> tame P (ret a).
Proof. intros Ha c Hc. cbn. auto. Qed.
Lemma tame_gets {A} (P : A -> Prop) f : otame P f -> tame P (gets f).
Proof. intros H c Hc. cbn. split; [assumption|]. specialize (H c Hc). destruct (f c); auto; contradiction. Qed.
Lemma tame_lift {A} (P : A -> Prop) (o : outcome A) : match o with Ret a => P a | Panic => True | _ => False end ->
  tame P (liftO o).
Proof. intros H c Hc. cbn. split; auto. destruct o; auto; contradiction. Qed.
Lemma tame_modify (f : cb T -> cb T) : (forall c, hollow c -> hollow (f c)) -> tame (fun _ => True) (modify f).
Proof. intros H c Hc. cbn. auto. Qed.
Lemma tame_drop v : tame (fun _ => True) (drop_val dp v).
Proof. intros c Hc. cbn. destruct (dp v); auto. Qed.
Lemma tame_unwinding {A} (P : A -> Prop) v (m : M T (cb T) A) : tame P m -> tame P (unwinding dp v m).
Proof.
  intros Hm c Hc. unfold unwinding. specialize (Hm c Hc). destruct (m c) as [[c1 d1] [a| | | |]]; auto.
  destruct (dp v) eqn:D; split; try tauto. exists v. split; auto. apply in_or_app; cbn; auto.
Qed.
Lemma tame_unwinding_list {A} (P : A -> Prop) vs (m : M T (cb T) A) : tame P m -> tame P (unwinding_list dp vs m).
Proof.
  intros Hm c Hc. unfold unwinding_list. specialize (Hm c Hc). destruct (m c) as [[c1 d1] [a| | | |]]; auto.
  destruct (existsb dp vs) eqn:D; split; try tauto. apply existsb_exists in D. destruct D as (v & I & D).
  exists v. split; auto. apply in_or_app; auto.
Qed.
Lemma tame_weaken {A} (P Q : A -> Prop) (m : M T (cb T) A) : tame P m -> (forall a, P a -> Q a) -> tame Q m.
Proof. intros Hm H c Hc. specialize (Hm c Hc). destruct (m c) as [[c1 d1] [a| | | |]]; intuition. Qed.

Lemma any_uadd a b : oany (uadd E a b).
Proof. unfold uadd. destruct (_ <=? _); cbn; auto. destruct (debug_build E); cbn; auto. Qed.
Lemma any_usub a b : oany (usub E a b).
Proof. unfold usub. destruct (_ <=? _); cbn; auto. destruct (debug_build E); cbn; auto. Qed.
Lemma any_bind {A B} (m : outcome A) (f : A -> outcome B) : oany m -> (forall a, oany (f a)) -> oany (obind m f).
Proof. destruct m; cbn; auto. Qed.
Lemma any_len (c : cb T) : oany (len E c).
Proof. unfold len. destruct (_ <=? _); [apply any_usub|]. apply any_bind; intros; [apply any_uadd|apply any_usub]. Qed.
Lemma any_capacity (c : cb T) : oany (capacity E c).
Proof. apply any_usub. Qed.
Lemma any_is_full (c : cb T) : oany (is_full E c).
Proof. unfold is_full. apply any_bind; [apply any_len|]. intros l. apply any_bind; [apply any_capacity|]. cbn; auto. Qed.
Lemma any_internal (c : cb T) i : oany (internal_index E c i).
Proof.
  unfold internal_index. apply any_bind; [apply any_len|]. intros l. destruct (_ <=? _); [exact I|].
  apply any_bind; [apply any_uadd|]. intros s. destruct (_ <? _); [apply any_uadd|].
  apply any_bind; [apply any_uadd|]. intros t. apply any_usub.
Qed.
Lemma any_tame {A} (f : cb T -> outcome A) : (forall c, oany (f c)) -> otame (fun _ => True) f.
Proof. intros H c Hc. specialize (H c). destruct (f c); auto. Qed.

Lemma tame_assert (f : cb T -> outcome bool) : (forall c, oany (f c)) -> tame (fun _ => True) (gets (fun c => debug_assert E (f c))).
Proof.
  intros H. apply tame_gets, any_tame. intros c. unfold debug_assert. destruct (debug_build E); [|exact I].
  apply any_bind; auto. intros []; exact I.
Qed.

Ltac bnd := eapply tame_bind; [|let a := fresh "a" in let H := fresh "H" in intros a H; cbv beta in H].

Lemma tame_decr_end : tame (fun _ => True) (decr_end (T:=T) E).
Proof.
  unfold decr_end. bnd. { apply tame_assert. intros c. exact I. }
  bnd. { apply tame_gets, any_tame. intros c. destruct (_ =? _); apply any_usub. }
  apply tame_modify. auto.
Qed.
Lemma tame_decr_start : tame (fun _ => True) (decr_start (T:=T) E).
Proof.
  unfold decr_start. bnd. { apply tame_assert. intros c. apply any_bind; [apply any_is_full|]. cbn; auto. }
  bnd. { apply tame_gets, any_tame. intros c. destruct (_ =? _); apply any_usub. }
  apply tame_modify. auto.
Qed.

(** no element can be taken out or put in *)
Lemma tame_pop_at i : tame (fun _ => False) (@pop_at T i).
Proof. intros c Hc. unfold pop_at. rewrite Hc. destruct i; cbn; auto. Qed.
Lemma tame_push_at v i : tame (fun _ => False) (@push_at T v i).
Proof. intros c Hc. unfold push_at. rewrite Hc. cbn. auto. Qed.
Lemma tame_read i : otame (fun _ => False) (fun c => read_slot c i).
Proof. intros c Hc. unfold read_slot. rewrite Hc. destruct i; exact I. Qed.
Lemma tame_modify_slot i f : tame (fun _ => False) (@modify_slot T i f).
Proof. intros c Hc. unfold modify_slot. rewrite Hc. destruct i; cbn; auto. Qed.

Lemma tame_pop_back : tame (fun o => o = None) (pop_back (T:=T) E).
Proof.
  unfold pop_back. bnd. { apply tame_gets with (P := fun _ => True). intros c Hc. exact I. }
  destruct a; [apply tame_ret; auto|]. bnd; [apply tame_decr_end|].
  bnd. { apply tame_gets with (P := fun _ => True). intros c Hc. exact I. }
  bnd; [apply tame_pop_at|]. contradiction.
Qed.
Lemma tame_pop_front : tame (fun o => o = None) (pop_front E dp).
Proof.
  unfold pop_front. bnd. { apply tame_gets with (P := fun _ => True). intros c Hc. exact I. }
  destruct a; [apply tame_ret; auto|].
  bnd. { apply tame_gets with (P := fun _ => True). intros c Hc. exact I. }
  bnd; [apply tame_pop_at|]. contradiction.
Qed.
Lemma tame_drop_opt o : tame (fun _ => True) (drop_opt dp o).
Proof. destruct o; [apply tame_drop|apply tame_ret; auto]. Qed.

(** when the capacity reads other than 0 a push does not return *)
Hypothesis HU : 0 < usize_max E.

Lemma hollow_capacity : otame (fun k => k <> 0) (capacity E (T:=T)).
Proof.
  intros c Hc. unfold capacity. rewrite Hc. unfold usub; cbn. destruct (debug_build E); auto. lia.
Qed.

Lemma tame_push_back v : tame (fun _ => False) (push_back E dp v).
Proof.
  unfold push_back. eapply (tame_bind (P := fun b => b = true)).
  - apply tame_unwinding. bnd. { apply tame_gets, any_tame. exact any_is_full. }
    destruct a; [|apply tame_ret; auto]. bnd. { apply tame_gets, hollow_capacity. }
    destruct (Nat.eqb_spec a 0); [contradiction|]. bnd; [apply tame_pop_front|]. bnd; [apply tame_drop_opt|]. apply tame_ret; auto.
  - intros b ->. bnd.
    + bnd. { apply tame_gets with (P := fun _ => True). intros c Hc. exact I. } apply tame_push_at.
    + contradiction.
Qed.
Lemma tame_push_front v : tame (fun _ => False) (push_front E dp v).
Proof.
  unfold push_front. eapply (tame_bind (P := fun b => b = true)).
  - apply tame_unwinding. bnd. { apply tame_gets, any_tame. exact any_is_full. }
    destruct a; [|apply tame_ret; auto]. bnd. { apply tame_gets, hollow_capacity. }
    destruct (Nat.eqb_spec a 0); [contradiction|]. bnd; [apply tame_pop_back|]. bnd; [apply tame_drop_opt|]. apply tame_ret; auto.
  - intros b ->. bnd; [apply tame_unwinding, tame_decr_start|].
    bnd. { apply tame_gets with (P := fun _ => True). intros c Hc. exact I. } apply tame_push_at.
Qed.

Lemma tame_clear : tame (fun _ => True) (clear E dp).
Proof.
  intros c Hc. unfold clear. rewrite Hc. cbn [length clear_loop].
  revert c Hc. change (tame (fun _ => True) (bind (pop_back E) (fun x : option T => match x with
    | Some v => bind (drop_val dp v) (fun _ : unit => liftO NoFuel) | None => ret tt end))).
  bnd; [apply tame_pop_back|]. cbv beta in *. subst. apply tame_ret; auto.
Qed.
Lemma tame_drain_all : tame (fun l => l = []) (fun c => drain_all E dp (S (length (buffer c))) c).
Proof.
  intros c Hc. rewrite Hc. cbn [length drain_all].
  revert c Hc. change (tame (fun l => l = []) (bind (pop_front E dp) (fun x : option T => match x with
    | Some v => bind (liftO NoFuel) (fun vs => ret (v :: vs)) | None => ret [] end))).
  bnd; [apply tame_pop_front|]. cbv beta in *. subst. apply tame_ret; auto.
Qed.
Lemma tame_drain_skip n : tame (fun _ => True) (drain_skip E dp n).
Proof. destruct n; cbn; [apply tame_ret; auto|]. bnd; [apply tame_pop_front|]. cbv beta in *. subst. apply tame_ret; auto. Qed.
Lemma tame_drain_take n : tame (fun l => l = []) (drain_take E dp n).
Proof. destruct n; cbn; [apply tame_ret; auto|]. bnd; [apply tame_pop_front|]. cbv beta in *. subst. apply tame_ret; auto. Qed.
Lemma tame_extend xs : tame (fun _ => True) (extend E dp xs).
Proof.
  destruct xs; cbn; [apply tame_ret; auto|]. bnd; [apply tame_unwinding_list, tame_push_back|]. contradiction.
Qed.

Lemma tame_index i : otame (fun _ => False) (fun c => index E c i).
Proof.
  intros c Hc. unfold index. pose proof (any_internal c i). destruct (internal_index E c i); cbn in *; auto.
  apply tame_read; auto.
Qed.
Lemma tame_first : otame (fun o => o = None) (first (T:=T) E).
Proof.
  intros c Hc. unfold first. destruct (is_empty c); auto. pose proof (any_internal c 0).
  destruct (internal_index E c 0); cbn in *; auto. pose proof (@tame_read a c Hc) as R.
  destruct (read_slot c a); cbn; auto; contradiction.
Qed.
Lemma tame_last : otame (fun o => o = None) (last (T:=T) E).
Proof.
  intros c Hc. unfold last. destruct (is_empty c); auto. pose proof (any_len c).
  destruct (len E c) as [n| | | |]; cbn in *; auto. pose proof (any_usub n 1). destruct (usub E n 1) as [k| | | |]; cbn in *; auto.
  pose proof (any_internal c k). destruct (internal_index E c k) as [j| | | |]; cbn in *; auto. pose proof (@tame_read j c Hc) as R.
  destruct (read_slot c j); cbn; auto; contradiction.
Qed.
Lemma tame_index_mut i f : tame (fun _ => True) (index_mut (T:=T) E i f).
Proof.
  unfold index_mut. bnd. { apply tame_gets, any_tame. intros c. apply any_internal. }
  eapply tame_weaken; [apply tame_modify_slot|]. contradiction.
Qed.
Lemma tame_first_mut f : tame (fun _ => True) (first_mut (T:=T) E f).
Proof.
  unfold first_mut. bnd. { apply tame_gets with (P := fun _ => True). intros c Hc. exact I. }
  destruct a; [apply tame_ret; auto|]. bnd. { apply tame_gets, any_tame. intros c. apply any_internal. }
  bnd; [apply tame_modify_slot|]. contradiction.
Qed.
Lemma tame_last_mut f : tame (fun _ => True) (last_mut (T:=T) E f).
Proof.
  unfold last_mut. bnd. { apply tame_gets with (P := fun _ => True). intros c Hc. exact I. }
  destruct a; [apply tame_ret; auto|]. bnd.
  { apply tame_gets, any_tame. intros c. apply any_bind; [apply any_len|]. intros n. apply any_bind; [apply any_usub|].
    intros k. apply any_internal. }
  bnd; [apply tame_modify_slot|]. contradiction.
Qed.

Lemma slice_nil {A} a b : slice_range (A:=A) [] a b = Ret [] \/ slice_range (A:=A) [] a b = Panic.
Proof. unfold slice_range. destruct (_ && _); auto. rewrite skipn_nil, firstn_nil. auto. Qed.
Lemma tame_slices : otame (fun p => p = ([], [])) (slices (T:=T)).
Proof.
  intros c Hc. unfold slices. rewrite Hc.
  destruct (start c <=? end_ c); repeat (match goal with |- context [slice_range [] ?a ?b] =>
    destruct (@slice_nil (slot T) a b) as [->| ->]; cbn; auto end).
Qed.
Lemma tame_iter : otame (fun l => l = []) (iter (T:=T)).
Proof.
  intros c Hc. unfold iter. pose proof (tame_slices c Hc) as H. destruct (slices c); cbn; auto. subst. reflexivity.
Qed.
Lemma split_nil {A} k : split_at (A:=A) [] k = Ret ([], []) \/ split_at (A:=A) [] k = Panic.
Proof. unfold split_at. destruct (_ <=? _); auto. rewrite skipn_nil, firstn_nil. auto. Qed.
Lemma tame_slices_mut : otame (fun p => snd (fst p) = [] /\ snd (snd p) = []) (slices_mut (T:=T)).
Proof.
  intros c Hc. unfold slices_mut. rewrite Hc.
  destruct (start c <=? end_ c).
  - destruct (@split_nil (slot T) (end_ c)) as [->| ->]; cbn [obind fst snd]; auto.
    repeat (match goal with |- context [slice_range [] ?a ?b] =>
      destruct (@slice_nil (slot T) a b) as [->| ->]; cbn [obind read_slots]; auto end).
  - destruct (@split_nil (slot T) (start c)) as [->| ->]; cbn [obind fst snd]; auto.
    repeat (match goal with |- context [slice_range [] ?a ?b] =>
      destruct (@slice_nil (slot T) a b) as [->| ->]; cbn [obind read_slots]; auto end).
Qed.
Lemma write_nil off : write_at (T:=T) off [] [] = [].
Proof. unfold write_at. rewrite firstn_nil, skipn_nil. reflexivity. Qed.
Lemma tame_slices_mut_with g : (forall a b : list T, length (fst (g a b)) = length a /\ length (snd (g a b)) = length b) ->
  tame (fun _ => True) (slices_mut_with g).
Proof.
  intros Hg. unfold slices_mut_with. bnd. { apply tame_gets, tame_slices_mut. }
  destruct a as [[oa a] [ob b]]. cbv beta in H; cbn [fst snd] in H. destruct H as [-> ->]. apply tame_modify. intros c Hc.
  specialize (Hg [] []). destruct (g [] []) as [a b]. cbn [fst snd length] in Hg. destruct Hg as [Ha Hb].
  destruct a, b; try discriminate. unfold set_buffer; cbn [buffer]. rewrite Hc, !write_nil. reflexivity.
Qed.
Lemma tame_iter_mut_with g : (forall l : list T, length (g l) = length l) -> tame (fun _ => True) (iter_mut_with g).
Proof.
  intros Hg. unfold iter_mut_with. apply tame_slices_mut_with. intros a b; cbn [fst snd]. rewrite firstn_length, skipn_length, Hg, app_length. lia.
Qed.
Lemma tame_linearize : tame (fun l => l = []) (linearize (T:=T) E).
Proof.
  unfold linearize. eapply (tame_bind (P := fun b => b = [])).
  { apply tame_gets. intros c Hc. unfold rotate_left. rewrite Hc. destruct (_ <=? _); auto. rewrite skipn_nil, firstn_nil. reflexivity. }
  intros b ->. bnd. { apply tame_modify. auto. }
  bnd. { apply tame_gets, any_tame. exact any_len. }
  bnd. { apply tame_modify. auto. }
  bnd. { apply tame_modify. auto. }
  apply tame_gets. intros c Hc. rewrite Hc. destruct (@slice_nil (slot T) 0 (end_ c)) as [->| ->]; cbn; auto.
Qed.
Lemma tame_linearize_with g : (forall l : list T, length (g l) = length l) -> tame (fun _ => True) (linearize_with E g).
Proof.
  intros Hg. unfold linearize_with. bnd; [apply tame_linearize|]. cbv beta in *. subst. apply tame_modify. intros c Hc.
  specialize (Hg []). destruct (g []); try discriminate. unfold set_buffer; cbn [buffer]. rewrite Hc. apply write_nil.
Qed.
Lemma tame_swap_in (f h : cb T -> outcome nat) : (forall c, oany (f c)) -> (forall c, oany (h c)) ->
  tame (fun _ => True) (bind (gets (fun c => let* i := f c in let* j := h c in slice_swap (buffer c) i j))
    (fun buf => modify (set_buffer buf))).
Proof.
  intros Hf Hh. eapply (tame_bind (P := fun _ => False)).
  - apply tame_gets. intros c Hc. rewrite Hc. specialize (Hf c). specialize (Hh c).
    destruct (f c) as [i| | | |]; cbn in *; auto. destruct (h c) as [j| | | |]; cbn in *; auto.
    unfold slice_swap. destruct i; cbn; auto.
  - contradiction.
Qed.
Lemma tame_swap a b : tame (fun _ => True) (swap (T:=T) E a b).
Proof. unfold swap. apply (@tame_swap_in (fun c => internal_index E c a) (fun c => internal_index E c b)); intros; apply any_internal. Qed.
Lemma tame_reverse : tame (fun _ => True) (reverse (T:=T) E).
Proof.
  unfold reverse. bnd. { apply tame_gets, any_tame. exact any_len. }
  generalize (seq 0 (Nat.div2 a)) as r. clear. intros r. induction r as [|x r IH]; cbn; [apply tame_ret; auto|].
  bnd; [|exact IH]. unfold reverse_body. bnd.
  { apply tame_gets, any_tame. intros c. apply any_bind; [apply any_len|]. intros n. apply any_bind; intros; apply any_usub. }
  apply (@tame_swap_in (fun c => internal_index E c x) (fun c => internal_index E c a)); intros; apply any_internal.
Qed.

Lemma tame_mmap {A B} (f : A -> B) (P : A -> Prop) (Q : B -> Prop) (m : M T (cb T) A) :
  tame P m -> (forall a, P a -> Q (f a)) -> tame Q (mmap f m).
Proof. intros Hm H. unfold mmap. bnd; [exact Hm|]. apply tame_ret; auto. Qed.
Lemma otame_omap {A B} (f : A -> B) (P : A -> Prop) (Q : B -> Prop) (m : cb T -> outcome A) :
  otame P m -> (forall a, P a -> Q (f a)) -> otame Q (fun c => omap f (m c)).
Proof. intros Hm H c Hc. specialize (Hm c Hc). destruct (m c); cbn; auto. Qed.

Definition bare (r : out T) : Prop := match r with ROpt (Some _) | RElem _ | RList (_ :: _) => False | _ => True end.

Lemma tame_step o : op_usize E o -> keeps_capacity o -> tame bare (cb_step E dp o).
Proof.
  intros Ho Hk. destruct o; cbn [cb_step op_usize keeps_capacity] in *; try contradiction.
  - eapply tame_mmap; [apply tame_push_back|contradiction].
  - eapply tame_mmap; [apply tame_push_front|contradiction].
  - eapply tame_mmap; [apply tame_pop_back|intros a ->; exact I].
  - eapply tame_mmap; [apply tame_pop_front|intros a ->; exact I].
  - eapply tame_mmap; [apply tame_clear|intros a _; exact I].
  - apply tame_gets. eapply otame_omap; [apply any_tame, any_len|intros a _; exact I].
  - apply tame_gets. eapply otame_omap; [apply any_tame, any_capacity|intros a _; exact I].
  - apply tame_gets. intros c Hc. exact I.
  - apply tame_gets. eapply otame_omap; [apply any_tame, any_is_full|intros a _; exact I].
  - apply tame_gets. eapply otame_omap; [apply tame_index|intros a []].
  - eapply tame_mmap; [apply tame_index_mut|intros a _; exact I].
  - apply tame_gets. eapply otame_omap; [apply tame_first|intros a ->; exact I].
  - eapply tame_mmap; [apply tame_first_mut|intros a _; exact I].
  - apply tame_gets. eapply otame_omap; [apply tame_last|intros a ->; exact I].
  - eapply tame_mmap; [apply tame_last_mut|intros a _; exact I].
  - apply tame_gets. eapply otame_omap; [apply tame_iter|intros a ->; exact I].
  - eapply tame_mmap; [apply tame_iter_mut_with; auto|intros a _; exact I].
  - eapply tame_mmap; [apply tame_linearize|intros a ->; exact I].
  - eapply tame_mmap; [apply tame_linearize_with; auto|intros a _; exact I].
  - eapply tame_mmap; [apply tame_swap|intros a' _; exact I].
  - eapply tame_mmap; [apply tame_reverse|intros a _; exact I].
  - eapply tame_mmap; [apply tame_extend|intros a _; exact I].
  - eapply tame_mmap; [apply tame_drain_take|intros a ->; exact I].
Qed.

End Hollow.

(** ** Every obtained buffer is reachable within the limits or hollow *)
Section Obtained.
Variable T : Type.
Variable E : machine.
Hypothesis HE : indexable T E.
Hypothesis HU : 0 < usize_max E.

Notation hollow c := (buffer c = []).

Lemma drain_take_all (dp : T -> bool) f (c c' : cb T) dr vs :
  drain_all E dp f c = (c', dr, Ret vs) -> drain_take E dp f c = (c', dr, Ret vs).
Proof.
  revert c c' dr vs; induction f as [|f IH]; intros c c' dr vs; cbn; [discriminate|].
  unfold bind. destruct (pop_front E dp c) as [[c1 d1] [[v|]| | | |]]; try discriminate; auto.
  destruct (drain_all E dp f c1) as [[c2 d2] [ws| | | |]] eqn:H; try discriminate. rewrite (IH _ _ _ _ H). auto.
Qed.

(** [resize(usize::MAX)] without overflow checks *)
Lemma resize_max dp (c : cb T) k l : reachable E c -> shows E c k l -> debug_build E = false ->
  exists c', resize E dp (usize_max E) c = (c', [], match l with [] => Ret tt | _ => Panic end) /\
    match l with [] => c' = CB [] 0 0 | _ => reachable E c' /\ shows E c' k [] end.
Proof.
  intros Hr Hs Hd. pose proof (shows_matches HE Hr Hs) as Hm. pose proof HE as [Hau _].
  pose proof Hm as [R Hn]; cbn [items cap] in *. pose proof (rep_len R). pose proof (rep_alloc R).
  destruct (@drain_all_ok T E dp HE (S (length (buffer c))) c _ Hm) as (c' & H1 & Hm'); [cbn; lia|]. cbn [items cap] in *.
  assert (Hr' : reachable E c').
  { apply drain_take_all in H1. eapply (@r_call T E dp (ODrain (S (length (buffer c))))); [exact Hr|exact I|].
    cbn [cb_step]. unfold mmap, bind. rewrite H1. reflexivity. }
  assert (Hadd : uadd E (usize_max E) 1 = Ret 0).
  { unfold uadd. rewrite (proj2 (Nat.leb_gt _ _)), Hd by lia. f_equal; lia. }
  assert (Hsk : (let* l0 := len E c in if usize_max E <? l0 then let* l' := len E c in usub E l' (usize_max E) else Ret 0) = Ret 0).
  { rewrite (rep_len_ok HE R); cbn [obind]. rewrite (proj2 (Nat.ltb_ge _ _)) by lia. reflexivity. }
  exists (match l with [] => CB [] 0 0 | _ => c' end). split.
  2: { destruct l; auto. split; [auto|]. exact (matches_shows Hm'). }
  unfold resize.
  erewrite bind_Ret_nil by (unfold liftO; rewrite Hadd; reflexivity).
  erewrite bind_Ret_nil by reflexivity.
  erewrite bind_Ret_nil by (unfold gets; rewrite Hsk; reflexivity).
  erewrite bind_Ret_nil by reflexivity.
  erewrite bind_Ret_nil by exact H1. cbv zeta. rewrite map_length.
  destruct l as [|x l].
  - unfold bind, liftO. cbn [length]. rewrite usub_fits by lia; cbn [obind]. rewrite Nat.sub_0_r, Hadd. reflexivity.
  - erewrite bind_Ret_nil.
    2:{ unfold liftO. rewrite usub_fits by lia; cbn [obind]. rewrite uadd_fits by (cbn [length] in *; lia). reflexivity. }
    unfold bind, liftO, vec_push_uninit. rewrite map_length, (proj2 (Nat.leb_gt _ _)) by lia. reflexivity.
Qed.

Definition good (c : cb T) : Prop := reachable E c \/ hollow c.

Lemma new_good k c : k <= usize_max E -> new T E k = Ret c -> good c.
Proof.
  intros Hk H. destruct (Nat.le_gt_cases (k + 1) (alloc_max E)) as [L|L]; [left; eapply r_new; eauto|].
  unfold new, with_capacity, uadd in H. destruct (Nat.leb_spec (k + 1) (usize_max E)).
  - cbn [obind] in H. unfold vec_with_capacity in H. rewrite (proj2 (Nat.leb_gt _ _)) in H by lia. discriminate.
  - destruct (debug_build E); [discriminate|]. replace (k + 1 - S (usize_max E)) with 0 in H by lia. cbn in H.
    injection H as <-. right. reflexivity.
Qed.

Lemma hollow_resize dp q (c : cb T) : hollow c -> q <= usize_max E ->
  match resize E dp q c with (c', dr, r) => good c' /\ safe_end dp dr r end.
Proof.
  intros Hc Hq.
  set (post := fun p : cb T * list T * outcome unit => match p with (c', dr, r) => good c' /\ safe_end dp dr r end).
  assert (Hbind : forall A (P : A -> Prop) (m : M T (cb T) A) f c0, hollow c0 -> tame dp P m ->
    (forall a c1, P a -> hollow c1 -> post (f a c1)) -> post (bind m f c0)).
  { intros A P m f c0 H0 Hm Hf. unfold bind. specialize (Hm c0 H0). destruct (m c0) as [[c1 d1] [a| | | |]]; cbn; unfold good; try tauto.
    destruct Hm as [H1 Ha]. specialize (Hf a c1 Ha H1). destruct (f a c1) as [[c2 d2] r]. destruct Hf as [G S]. split; auto.
    destruct r; auto. destruct S as (x & X & D). exists x. split; auto. apply in_or_app; auto. }
  change (post (resize E dp q c)). unfold resize.
  destruct (uadd E q 1) as [n| | | |] eqn:Hn.
  2: { cbn. unfold good. auto. }
  2-4: exfalso; pose proof (any_uadd E q 1) as X; unfold uadd in Hn; destruct (_ <=? _); try discriminate; destruct (debug_build E); discriminate.
  apply (Hbind _ (fun x => x = n)); auto. { apply tame_lift. reflexivity. } intros a c1 -> H1.
  apply (Hbind _ (fun _ => n <= alloc_max E)); auto.
  { apply tame_lift. unfold vec_with_capacity. destruct (Nat.leb_spec n (alloc_max E)); auto. }
  intros v c2 Hna H2.
  apply (Hbind _ (fun _ => True)); auto.
  { apply tame_gets, any_tame. intros c0. apply any_bind; [apply any_len|]. intros l0. destruct (_ <? _); [|exact I].
    apply any_bind; [apply any_len|]. intros l1. apply any_usub. }
  intros s c3 _ H3. apply (Hbind _ (fun _ => True)); auto. { apply tame_drain_skip. }
  intros [] c4 _ H4. apply (Hbind _ (fun l => l = [])); auto. { apply tame_drain_all. }
  intros vs c5 -> H5. cbv zeta. cbn [map length].
  apply (Hbind _ (fun x => x = n)); auto.
  { apply tame_lift. rewrite usub_fits by lia. cbn [obind]. rewrite Nat.sub_0_r, Hn. reflexivity. }
  intros x c6 -> H6. unfold bind, liftO, vec_push_uninit. cbn [length]. rewrite Nat.add_0_l, (proj2 (Nat.leb_le _ _) Hna).
  cbn. split; [|exact I].
  unfold uadd in Hn. destruct (Nat.leb_spec (q + 1) (usize_max E)) as [L|L].
  - injection Hn as <-. left. apply (@r_new T E q); auto. unfold new, with_capacity. rewrite uadd_fits by auto. cbn [obind].
    unfold vec_with_capacity. rewrite (proj2 (Nat.leb_le _ _) Hna). cbn [obind].
    unfold vec_push_uninit. cbn [length]. rewrite Nat.add_0_l, (proj2 (Nat.leb_le _ _) Hna). reflexivity.
  - destruct (debug_build E); [discriminate|]. injection Hn as <-. right. replace (q + 1 - S (usize_max E)) with 0 by lia. reflexivity.
Qed.

Lemma mmap_end {A B} (f : A -> B) (m : M T (cb T) A) c : match m c with (c', dr, r) =>
  mmap f m c = (c', dr, omap f r) end.
Proof. unfold mmap, bind. destruct (m c) as [[c' dr] [a| | | |]]; cbn; rewrite ?app_nil_r; reflexivity. Qed.

Lemma good_step dp o c c' dr r : good c -> op_usize E o -> cb_step E dp o c = (c', dr, r) -> good c' /\ safe_end dp dr r.
Proof.
  intros G Ho H.
  assert (D : op_ok E o \/ exists q, o = OResize q /\ q <= usize_max E /\ alloc_max E < q + 1).
  { destruct o; cbn in *; auto. destruct (Nat.le_gt_cases (c0 + 1) (alloc_max E)); eauto. }
  destruct G as [G|G].
  - destruct D as [D|(q & -> & D1 & D2)].
    + split; [left; eapply r_call; eauto|].
      destruct (reachable_shows HE G) as (k & l & S & _).
      pose proof (@step_ends T E HE dp o c k l c' dr r G S D H) as X. destruct r; cbn; auto. destruct X as (x & _ & I1 & _ & D1 & _). eauto.
    + cbn [cb_step] in H. pose proof (mmap_end (fun _ => RUnit (T:=T)) (resize E dp q) c) as M.
      assert (F : q < usize_max E \/ debug_build E = true \/ q = usize_max E /\ debug_build E = false).
      { destruct (debug_build E); auto. destruct (Nat.eq_dec q (usize_max E)); auto. left; lia. }
      assert (F' : (q < usize_max E \/ debug_build E = true) \/ q = usize_max E /\ debug_build E = false) by tauto.
      destruct F' as [F'|[-> F']].
      * rewrite (resize_too_big dp c HE D2 F') in M. rewrite M in H. injection H as <- <- <-. split; [left; auto|exact I].
      * destruct (reachable_shows HE G) as (k & l & S & _).
        destruct (resize_max dp G S F') as (c2 & H2 & X). rewrite H2 in M. rewrite M in H. injection H as <- <- <-.
        destruct l; cbn. { subst c2. split; [right; reflexivity|exact I]. } split; [left; tauto|exact I].
  - assert (K : keeps_capacity o \/ exists q, o = OResize q) by (destruct o; cbn; eauto).
    destruct K as [K|(q & ->)].
    + pose proof (@tame_step T E dp HU o Ho K c G) as X. rewrite H in X. destruct X as [X1 X2]. split; [right; auto|]. destruct r; cbn; auto.
    + cbn [cb_step op_usize] in *. pose proof (@hollow_resize dp q c G Ho) as X. pose proof (mmap_end (fun _ => RUnit (T:=T)) (resize E dp q) c) as M.
      destruct (resize E dp q c) as [[c2 d2] r2]. rewrite M in H. injection H as <- <- <-.
      destruct X as [X1 X2]. split; auto. destruct r2; auto.
Qed.

Lemma hollow_append dp (c1 c2 : cb T) s dr r : good c1 -> good c2 -> hollow c1 \/ hollow c2 ->
  append E dp (c1, c2) = (s, dr, r) -> good (fst s) /\ good (snd s) /\ safe_end dp dr r.
Proof.
  intros G1 G2 Hh H. unfold append in H. cbn [append_loop snd] in H. unfold bind, on_snd in H. cbn [fst snd] in H.
  destruct (pop_front E dp c2) as [[c2' d2] p] eqn:P.
  assert (G2' : good c2' /\ safe_end dp d2 p).
  { pose proof (mmap_end (@ROpt T) (pop_front E dp) c2) as M. rewrite P in M.
    destruct (@good_step dp OPopFront c2 _ _ _ G2 I M) as [X Y]. split; auto. destruct p; auto. }
  destruct G2' as [G2' Sp].
  destruct p as [[v|]| | | |]; try contradiction.
  - destruct Hh as [Hh|Hh].
    2: { pose proof (tame_pop_front E dp c2 Hh) as X. rewrite P in X. destruct X; discriminate. }
    unfold on_fst in H. cbn [fst snd] in H. pose proof (@tame_push_back T E dp HU v c1 Hh) as X.
    destruct (push_back E dp v c1) as [[c1' d1] [[]| | | |]]; try tauto; injection H as <- <- <-; cbn; unfold good.
    + tauto.
    + destruct X as [X (x & I1 & D)]. split; [tauto|]. split; [tauto|]. exists x. split; auto. apply in_or_app; auto.
  - injection H as <- <- <-. cbn. auto.
  - injection H as <- <- <-. cbn. auto.
  - injection H as <- <- <-. cbn. auto.
Qed.

Lemma s_append_safe (dp : T -> bool) ys (d : deque T) :
  match s_append dp ys d with (_, dr, r) => safe_end dp dr r end.
Proof.
  revert d; induction ys as [|y ys IH]; intros d; cbn; [exact I|].
  pose proof (s_push_back_outcome dp y d) as X. destruct (s_push_back dp y d) as [[d1 dr] r] eqn:Q.
  destruct X as [->|[->| ->]]; cbn in *; auto.
  - specialize (IH d1). destruct (s_append dp ys d1) as [[[d2 rest] dr2] o]. destruct o; auto.
    destruct IH as (x & I1 & D). exists x. split; auto. apply in_or_app; auto.
  - unfold s_push_back, unwind in Q. destruct (cap d).
    + destruct (dp y); injection Q as _ _ Q; discriminate.
    + destruct (_ <? _); [injection Q as _ _ Q; discriminate|].
      destruct (items d) as [|z t]; [injection Q as _ _ Q; discriminate|].
      destruct (dp z) eqn:Dz; [|injection Q as _ _ Q; discriminate]. injection Q as _ <- _. exists z. cbn; auto.
Qed.

Lemma append_good dp (c1 c2 : cb T) s dr r : good c1 -> good c2 ->
  append E dp (c1, c2) = (s, dr, r) -> good (fst s) /\ good (snd s) /\ safe_end dp dr r.
Proof.
  intros G1 G2 H. pose proof G1 as [R1|N]; [|exact (hollow_append dp G1 G2 (or_introl N) H)].
  pose proof G2 as [R2|N]; [|exact (hollow_append dp G1 G2 (or_intror N) H)].
  destruct s as [c1' c2']. cbn [fst snd]. split; [left; exact (@r_append_to T E dp c1 c2 c1' c2' dr r R1 R2 H)|]. split; [left; exact (@r_append_from T E dp c1 c2 c1' c2' dr r R1 R2 H)|].
  destruct (reachable_matches HE R1) as [d1 M1]. destruct (reachable_matches HE R2) as [d2 M2].
  pose proof (@append_ok T E dp HE c1 c2 d1 d2 M1 M2) as X. pose proof (s_append_safe dp (items d2) d1) as Y.
  destruct (s_append dp (items d2) d1) as [[[d1' rest] dr'] o]. destruct X as (a & b & X & _). rewrite H in X.
  injection X as _ _ -> ->. exact Y.
Qed.

Lemma obtained_good c : obtained E c -> good c.
Proof.
  induction 1 as [k c Hk H|xs c H|d xs c H|dp o c c' dr r _ IH Ho H|dp c1 c2 c1' c2' dr r _ I1 _ I2 H
    |dp c1 c2 c1' c2' dr r _ I1 _ I2 H|g c c' dr r _ IH Hg H|bw cl c c' _ IH H].
  - eapply new_good; eauto.
  - left. eapply r_from_iter; eauto.
  - left. eapply r_from_vec; eauto.
  - eapply good_step; eauto.
  - exact (proj1 (append_good _ I1 I2 H)).
  - exact (proj1 (proj2 (append_good _ I1 I2 H))).
  - destruct IH as [R|R]; [left; eapply r_slices_mut; eauto|]. right.
    pose proof (@tame_slices_mut_with T (fun _ => false) g Hg c R) as X. rewrite H in X. tauto.
  - destruct IH as [R|R]; [left; eapply r_clone; eauto|]. right. unfold clone_cb in H. rewrite R in H. cbn in H. injection H as <-. reflexivity.
Qed.

Lemma hollow_run dp ops (c : cb T) : hollow c -> Forall (op_usize E) ops -> Forall (@keeps_capacity T) ops ->
  hollow (fst (cb_run E dp ops c)) /\ Forall (fun p => shows_nothing (snd p)) (snd (cb_run E dp ops c)).
Proof.
  unfold cb_run. revert c; induction ops as [|o ops IH]; intros c Hc Ho Hk; cbn [run]; [cbn; auto|].
  apply Forall_cons_iff in Ho as [Ho1 Ho]. apply Forall_cons_iff in Hk as [Hk1 Hk].
  pose proof (@tame_step T E dp HU o Ho1 Hk1 c Hc) as X. destruct (cb_step E dp o c) as [[c1 dr] r].
  destruct X as [H1 X]. specialize (IH c1 H1 Ho Hk).
  destruct r as [a| | | |]; try contradiction.
  - destruct (run (cb_step E dp) ops c1) as [c2 tr]. cbn [fst snd] in *. destruct IH as [I1 I2]. split; [exact I1|].
    constructor; [exact X|exact I2].
  - destruct (run (cb_step E dp) ops c1) as [c2 tr]. cbn [fst snd] in *. destruct IH as [I1 I2]. split; [exact I1|]. constructor; [exact I|exact I2].
  - cbn. split; [exact H1|]. constructor; [exact I|constructor].
Qed.

Lemma hollow_barren (c : cb T) : hollow c -> barren E c.
Proof.
  intros Hc dp ops Ho Hk. destruct (hollow_run dp c Hc Ho Hk) as [H1 H2]. split; auto. intros v.
  pose proof (@tame_push_back T E dp HU v _ H1) as A. pose proof (@tame_push_front T E dp HU v _ H1) as B. cbv zeta.
  destruct (push_back E dp v (fst (cb_run E dp ops c))) as [[? ?] [?| | | |]],
    (push_front E dp v (fst (cb_run E dp ops c))) as [[? ?] [?| | | |]]; cbn; tauto.
Qed.

(** with overflow checks no wrapping happens *)
Lemma obtained_checked : debug_build E = true -> forall c : cb T, obtained E c -> reachable E c.
Proof.
  intros D c. induction 1 as [k c Hk H|xs c H|d xs c H|dp o c c' dr r _ IH Ho H|dp c1 c2 c1' c2' dr r _ I1 _ I2 H
    |dp c1 c2 c1' c2' dr r _ I1 _ I2 H|g c c' dr r _ IH Hg H|bw cl c c' _ IH H].
  - destruct (Nat.le_gt_cases (k + 1) (alloc_max E)) as [L|L]; [eapply r_new; eauto|]. exfalso.
    unfold new, with_capacity, uadd in H. rewrite D in H. destruct (Nat.leb_spec (k + 1) (usize_max E)); [|discriminate].
    cbn [obind] in H. unfold vec_with_capacity in H. rewrite (proj2 (Nat.leb_gt _ _)) in H by lia. discriminate.
  - eapply r_from_iter; eauto.
  - eapply r_from_vec; eauto.
  - assert (X : op_ok E o \/ exists q, o = OResize q /\ alloc_max E < q + 1).
    { destruct o; cbn in *; auto. destruct (Nat.le_gt_cases (c0 + 1) (alloc_max E)); eauto. }
    destruct X as [X|(q & -> & L)]; [eapply r_call; eauto|].
    cbn [cb_step] in H. pose proof (mmap_end (fun _ => RUnit (T:=T)) (resize E dp q) c) as M.
    rewrite (resize_too_big dp c HE L (or_intror D)) in M. rewrite M in H. injection H as <- <- <-. exact IH.
  - exact (@r_append_to T E dp c1 c2 c1' c2' dr r I1 I2 H).
  - exact (@r_append_from T E dp c1 c2 c1' c2' dr r I1 I2 H).
  - eapply r_slices_mut; eauto.
  - eapply r_clone; eauto.
Qed.
End Obtained.
