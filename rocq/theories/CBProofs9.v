(** Proofs about the slots touched by calls of the circular buffer. *)
From Verif Require Import Base CBSpec CBModel CBRun CBProofs CBProofs2 CBModel4.
Local Open Scope outcome_scope.
Set Implicit Arguments.

(** ** Forgetting the slots gives the calls back *)
Section Erase.
Variable T : Type.
Variable E : machine.
Variable dp : T -> bool.

Definition erases {P S A} (m : W T P S A) (m0 : M T S A) : Prop := forall s, fst (m s) = m0 s.

Lemma er_plain P S A (m : M T S A) : erases (@plain T P S A m) m.
Proof. intros s. reflexivity. Qed.

Lemma er_bind P S A B (m : W T P S A) (f : A -> W T P S B) m0 f0 :
  erases m m0 -> (forall a, erases (f a) (f0 a)) -> erases (wbind m f) (bind m0 f0).
Proof.
  intros H F s. unfold wbind, bind. rewrite <- (H s). destruct (m s) as [[[s1 d1] o] t]. cbn [fst].
  destruct o as [a| | | |]; try reflexivity. rewrite <- (F a s1). destruct (f a s1) as [[[s2 d2] o2] t2]. reflexivity.
Qed.

Lemma er_unwinding P S A v (m : W T P S A) m0 : erases m m0 -> erases (unwinding_w dp v m) (unwinding dp v m0).
Proof. intros H s. unfold unwinding_w, unwinding. cbn [fst]. rewrite (H s). reflexivity. Qed.

Lemma er_unwinding_list P S A v (m : W T P S A) m0 :
  erases m m0 -> erases (unwinding_list_w dp v m) (unwinding_list dp v m0).
Proof. intros H s. unfold unwinding_list_w, unwinding_list. cbn [fst]. rewrite (H s). reflexivity. Qed.

Lemma er_on_fst S1 S2 A (m : W T nat S1 A) m0 : erases m m0 -> erases (on_fst_w (S2 := S2) m) (on_fst m0).
Proof. intros H s. unfold on_fst_w, on_fst. cbn [fst]. rewrite (H (fst s)). reflexivity. Qed.

Lemma er_on_snd S1 S2 A (m : W T nat S2 A) m0 : erases m m0 -> erases (on_snd_w (S1 := S1) m) (on_snd m0).
Proof. intros H s. unfold on_snd_w, on_snd. cbn [fst]. rewrite (H (snd s)). reflexivity. Qed.

Ltac er := repeat (
  first [ apply er_plain | apply er_bind | apply er_unwinding | apply er_unwinding_list | apply er_on_fst | apply er_on_snd
        | assumption | (intros ?; reflexivity)
        | match goal with
          | |- forall _, erases _ _ => intros ?
          | |- erases (if ?b then _ else _) _ => destruct b
          | |- erases (match ?b with _ => _ end) _ => destruct b
          end ]).

Lemma er_pop_back : erases (pop_back_w E) (pop_back E).
Proof. unfold pop_back_w, pop_back. er. Qed.
Lemma er_pop_front : erases (pop_front_w E dp) (pop_front E dp).
Proof. unfold pop_front_w, pop_front. er. Qed.
Lemma er_push_back v : erases (push_back_w E dp v) (push_back E dp v).
Proof. unfold push_back_w, push_back. pose proof er_pop_front. er. Qed.
Lemma er_push_front v : erases (push_front_w E dp v) (push_front E dp v).
Proof. unfold push_front_w, push_front. pose proof er_pop_back. er. Qed.
Lemma er_clear_loop f : erases (clear_loop_w E dp f) (clear_loop E dp f).
Proof. pose proof er_pop_back. induction f; cbn [clear_loop_w clear_loop]; er. Qed.
Lemma er_clear : erases (clear_w E dp) (clear E dp).
Proof. intros c. apply er_clear_loop. Qed.
Lemma er_drain_skip n : erases (drain_skip_w E dp n) (drain_skip E dp n).
Proof. pose proof er_pop_front. induction n; cbn [drain_skip_w drain_skip]; er. Qed.
Lemma er_drain_all n : erases (drain_all_w E dp n) (drain_all E dp n).
Proof. pose proof er_pop_front. induction n; cbn [drain_all_w drain_all]; er. Qed.
Lemma er_drain_take n : erases (drain_take_w E dp n) (drain_take E dp n).
Proof. pose proof er_pop_front. induction n; cbn [drain_take_w drain_take]; er. Qed.
Lemma er_resize k : erases (resize_w E dp k) (resize E dp k).
Proof.
  unfold resize_w, resize. er.
  - intros c. cbn [fst]. apply er_drain_skip.
  - intros c. cbn [fst]. apply er_drain_all.
Qed.
Lemma er_extend xs : erases (extend_w E dp xs) (extend E dp xs).
Proof. induction xs as [|x xs IH]; cbn [extend_w extend]; er. Qed.
Lemma er_append_loop f : erases (append_loop_w E dp f) (append_loop E dp f).
Proof. pose proof er_pop_front. pose proof er_push_back. induction f; cbn [append_loop_w append_loop]; er. Qed.
Lemma er_append : erases (append_w E dp) (append E dp).
Proof. intros c. apply er_append_loop. Qed.
Lemma er_into_iter n : erases (into_iter_take_w E dp n) (into_iter_take E dp n).
Proof. unfold into_iter_take_w, into_iter_take. er. apply er_drain_take. apply er_clear. Qed.

Lemma er_index i : erases (index_w E i) (gets (fun c => index E c i)).
Proof.
  intros c. unfold index_w, index, wbind, plain, gets, read_slot_w, gets. cbn.
  destruct (internal_index E c i); reflexivity.
Qed.
Lemma er_index_mut i f : erases (index_mut_w (T := T) E i f) (index_mut E i f).
Proof. unfold index_mut_w, index_mut. er. Qed.
Lemma er_first : erases (first_w E) (gets (first E)).
Proof.
  intros c. unfold first_w, first, wbind, plain, gets, ret, read_slot_w, gets. cbn.
  destruct (is_empty c); [reflexivity|]. destruct (internal_index E c 0); cbn; try reflexivity.
  destruct (read_slot c a); reflexivity.
Qed.
Lemma er_last : erases (last_w E) (gets (last E)).
Proof.
  intros c. unfold last_w, last, wbind, plain, gets, ret, read_slot_w, gets. cbn.
  destruct (is_empty c); [reflexivity|]. destruct (len E c); cbn; try reflexivity. destruct (usub E a 1); cbn; try reflexivity.
  destruct (internal_index E c a0); cbn; try reflexivity.
  destruct (read_slot c a1); reflexivity.
Qed.
Lemma er_first_mut f : erases (first_mut_w (T := T) E f) (first_mut E f).
Proof. unfold first_mut_w, first_mut. er. Qed.
Lemma er_last_mut f : erases (last_mut_w (T := T) E f) (last_mut E f).
Proof. unfold last_mut_w, last_mut. er. Qed.
Lemma er_iter : erases (@iter_w T) (gets (@iter T)).
Proof. intros c. reflexivity. Qed.
Lemma er_iter_mut g : erases (@iter_mut_with_w T g) (iter_mut_with g).
Proof. intros c. reflexivity. Qed.
Lemma er_linearize : erases (linearize_w E) (linearize E).
Proof.
  intros c. unfold linearize_w, linearize, rotate_w, wbind, bind, plain, gets, modify. cbn.
  destruct (rotate_left (buffer c) (start c)); cbn; try reflexivity.
  destruct (len E (set_buffer a c)); cbn; reflexivity.
Qed.
Lemma er_linearize_with g : erases (linearize_with_w (T := T) E g) (linearize_with E g).
Proof. unfold linearize_with_w, linearize_with. er. apply er_linearize. Qed.
Lemma er_swap a b : erases (swap_w E a b) (swap E a b).
Proof.
  intros c. unfold swap_w, swap, slice_swap_w, wbind, bind, plain, gets, modify. cbn.
  destruct (internal_index E c a); cbn; try reflexivity.
  destruct (internal_index E c b); cbn; try reflexivity.
  destruct (slice_swap (buffer c) a0 a1); reflexivity.
Qed.
Lemma er_reverse_body a : erases (reverse_body_w E a) (reverse_body E a).
Proof.
  intros c. unfold reverse_body_w, reverse_body. apply er_bind; [apply er_plain|]. intros b. apply er_swap.
Qed.
Lemma er_reverse_loop l : erases (reverse_loop_w E l) (reverse_loop E l).
Proof. induction l as [|a l IH]; cbn [reverse_loop_w reverse_loop]; [er|]. apply er_bind; [apply er_reverse_body|]. intros _. exact IH. Qed.
Lemma er_reverse : erases (reverse_w E) (reverse E).
Proof. unfold reverse_w, reverse. er. apply er_reverse_loop. Qed.

Lemma er_wmap P S A B (f : A -> B) (m : W T P S A) m0 : erases m m0 -> erases (wmap f m) (mmap f m0).
Proof. intros H. unfold wmap, mmap. er. Qed.
Lemma er_gets S A B (f : A -> B) (m : W T nat S A) g :
  erases m (gets g) -> erases (wmap f m) (gets (fun c => omap f (g c))).
Proof.
  intros H s. rewrite (er_wmap _ H s). unfold mmap, bind, gets. destruct (g s); reflexivity.
Qed.

Theorem er_step o : erases (cb_step_w E dp o) (cb_step E dp o).
Proof.
  destruct o; cbn [cb_step_w cb_step]; try solve [apply er_plain]; try (apply er_wmap); try apply er_gets.
  - apply er_push_back.
  - apply er_push_front.
  - apply er_pop_back.
  - apply er_pop_front.
  - apply er_clear.
  - intros c0. cbn [fst]. apply er_resize.
  - apply er_index.
  - apply er_index_mut.
  - apply er_first.
  - apply er_first_mut.
  - apply er_last.
  - apply er_last_mut.
  - apply er_iter.
  - apply er_iter_mut.
  - apply er_linearize.
  - apply er_linearize_with.
  - apply er_swap.
  - apply er_reverse.
  - apply er_extend.
  - apply er_drain_take.
Qed.
End Erase.

(** ** The slots listed are all that matters *)
Section Complete.
Variable T : Type.
Variable E : machine.
Variable dp : T -> bool.

(** two buffers with the same fields and storage length *)
Definition same_fields (c c' : cb T) : Prop :=
  start c = start c' /\ end_ c = end_ c' /\ length (buffer c) = length (buffer c').
(** the slots [t] have the same content *)
Definition agree (t : list nat) (c c' : cb T) : Prop :=
  forall i, In i t -> nth_error (buffer c) i = nth_error (buffer c') i.

(** The computation depends on the fields and on the slots it lists, and changes
    no other slot. *)
Definition complete {A} (m : W T nat (cb T) A) : Prop := forall c c' c1 d o t,
  same_fields c c' -> m c = ((c1, d, o), t) -> agree t c c' ->
  frame t c c1 /\ exists c1', m c' = ((c1', d, o), t) /\ same_fields c1 c1' /\ agree t c1 c1' /\ frame t c' c1'.

Lemma co_bind A B (m : W T nat (cb T) A) (f : A -> W T nat (cb T) B) :
  complete m -> (forall a, complete (f a)) -> complete (wbind m f).
Proof.
  intros H F c c' c2 d o t SF. unfold wbind.
  destruct (m c) as [[[c1 d1] o1] t1] eqn:M1. intros X AG.
  assert (A1 : agree t1 c c').
  { intros i Hi. apply AG. destruct o1 as [a| | | |]; [destruct (f a c1) as [[[? ?] ?] ?]|..]; injection X as <- <- <- <-; auto.
    apply in_or_app; auto. }
  destruct (H c c' _ _ _ _ SF M1 A1) as (Fr & c1' & M1' & SF1 & AG1 & Fr').
  rewrite M1'. destruct o1 as [a| | | |];
    try (injection X as <- <- <- <-; split; [exact Fr|]; exists c1'; auto).
  destruct (f a c1) as [[[c3 d2] o2] t2] eqn:M2. injection X as <- <- <- <-.
  assert (A2 : agree t2 c1 c1').
  { intros i Hi. destruct (in_dec Nat.eq_dec i t1) as [I|N]; [exact (AG1 i I)|].
    rewrite (Fr i N), (Fr' i N). apply AG. apply in_or_app; auto. }
  destruct (F a c1 c1' _ _ _ _ SF1 M2 A2) as (Fr2 & c3' & M2' & SF2 & AG2 & Fr2').
  split.
  - intros i N. rewrite Fr2, Fr; auto; intros I; apply N; apply in_or_app; auto.
  - exists c3'. rewrite M2'. split; [reflexivity|]. split; [exact SF2|]. split.
    + intros i Hi. destruct (in_dec Nat.eq_dec i t2) as [I|N]; [exact (AG2 i I)|].
      rewrite (Fr2 i N), (Fr2' i N). apply in_app_or in Hi. destruct Hi; [apply AG1; auto|contradiction].
    + intros i N. rewrite Fr2', Fr'; auto; intros I; apply N; apply in_or_app; auto.
Qed.

(** what reads fields only *)
Definition by_fields {A} (f : cb T -> A) : Prop := forall c c', same_fields c c' -> f c = f c'.

Lemma co_gets A (f : cb T -> outcome A) : by_fields f -> complete (plain (gets f)).
Proof.
  intros H c c' c1 d o t SF X AG. unfold plain, gets in *. injection X as <- <- <- <-.
  split; [intros i _; reflexivity|]. exists c'. rewrite (H c c' SF). repeat split; auto; apply SF.
Qed.
Lemma co_ret A (a : A) : complete (plain (ret a)).
Proof.
  intros c c' c1 d o t SF X AG. unfold plain, ret in *. injection X as <- <- <- <-.
  split; [intros i _; reflexivity|]. exists c'. repeat split; auto; apply SF.
Qed.
Lemma co_lift A (a : outcome A) : complete (plain (liftO a)).
Proof.
  intros c c' c1 d o t SF X AG. unfold plain, liftO in *. injection X as <- <- <- <-.
  split; [intros i _; reflexivity|]. exists c'. repeat split; auto; apply SF.
Qed.
Lemma co_drop v : complete (plain (drop_val dp v)).
Proof.
  intros c c' c1 d o t SF X AG. unfold plain, drop_val in *. injection X as <- <- <- <-.
  split; [intros i _; reflexivity|]. exists c'. repeat split; auto; apply SF.
Qed.
Lemma co_drop_opt v : complete (plain (drop_opt dp v)).
Proof. destruct v; [apply co_drop | apply co_ret]. Qed.
(** assignments to fields *)
Lemma co_modify g : (forall c, buffer (g c) = buffer c) -> by_fields (fun c => (start (g c), end_ (g c))) ->
  complete (plain (modify g)).
Proof.
  intros B H c c' c1 d o t SF X AG. unfold plain, modify in *. injection X as <- <- <- <-.
  split; [intros i _; now rewrite B|]. exists (g c'). specialize (H c c' SF). injection H as H1 H2.
  split; [reflexivity|]. unfold same_fields. rewrite !B. split; [split; [auto|split; [auto|apply SF]]|].
  split; [intros i []|intros i _; now rewrite B].
Qed.
Lemma co_plain_bind A B (m : M T (cb T) A) (f : A -> M T (cb T) B) :
  complete (plain m) -> (forall a, complete (plain (f a))) -> complete (plain (bind m f)).
Proof.
  intros H F. pose proof (@co_bind _ _ _ _ H F) as G. intros c c' c1 d o t SF X AG.
  assert (EQ : forall s, wbind (plain m) (fun a => plain (f a)) s = @plain T nat _ _ (bind m f) s).
  { intros s. unfold wbind, plain, bind. destruct (m s) as [[s1 d1] [a| | | |]]; try reflexivity. destruct (f a s1) as [[? ?] ?]. reflexivity. }
  rewrite <- EQ in X. destruct (G c c' _ _ _ _ SF X AG) as (Fr & c1' & X' & R). split; [exact Fr|]. exists c1'. rewrite <- EQ. auto.
Qed.

Lemma co_unwinding A v (m : W T nat (cb T) A) : complete m -> complete (unwinding_w dp v m).
Proof.
  intros H c c' c1 d o t SF X AG. unfold unwinding_w, unwinding in *.
  destruct (m c) as [[[c2 d2] o2] t2] eqn:Q. cbn in X.
  assert (t2 = t /\ c2 = c1) as [-> ->] by (destruct o2; injection X as <- <- <- <-; auto).
  destruct (H c c' _ _ _ _ SF Q AG) as (Fr & c1' & Q' & R). split; [exact Fr|]. exists c1'. rewrite Q'. cbn.
  split; [|exact R]. destruct o2; injection X as <- <-; reflexivity.
Qed.
Lemma co_unwinding_list A v (m : W T nat (cb T) A) : complete m -> complete (unwinding_list_w dp v m).
Proof.
  intros H c c' c1 d o t SF X AG. unfold unwinding_list_w, unwinding_list in *.
  destruct (m c) as [[[c2 d2] o2] t2] eqn:Q. cbn in X.
  assert (t2 = t /\ c2 = c1) as [-> ->] by (destruct o2; injection X as <- <- <- <-; auto).
  destruct (H c c' _ _ _ _ SF Q AG) as (Fr & c1' & Q' & R). split; [exact Fr|]. exists c1'. rewrite Q'. cbn.
  split; [|exact R]. destruct o2; injection X as <- <-; reflexivity.
Qed.

(** *** Reading fields *)
Lemma bf_const A (a : A) : by_fields (fun _ => a).
Proof. intros c c' _. reflexivity. Qed.
Lemma bf_end A (f : nat -> A) : by_fields (fun c => f (end_ c)).
Proof. intros c c' (H1 & H2 & H3). now rewrite H2. Qed.
Lemma bf_len : by_fields (len E).
Proof. intros c c' (H1 & H2 & H3). unfold len. now rewrite H1, H2, H3. Qed.
Lemma bf_capacity : by_fields (capacity E).
Proof. intros c c' (H1 & H2 & H3). unfold capacity. now rewrite H3. Qed.
Lemma bf_empty : by_fields (@is_empty T).
Proof. intros c c' (H1 & H2 & H3). unfold is_empty. now rewrite H1, H2. Qed.
Lemma bf_full : by_fields (is_full E).
Proof. intros c c' H. unfold is_full. now rewrite (bf_len H), (bf_capacity H). Qed.
Lemma bf_internal i : by_fields (fun c => internal_index E c i).
Proof. intros c c' H. unfold internal_index. rewrite (bf_len H). destruct H as (H1 & H2 & H3). now rewrite H1, H3. Qed.

Ltac bf := intros ?c ?c' ?SF; cbn beta;
  repeat match goal with
  | S : same_fields ?a ?b |- context [len E ?a] => rewrite (bf_len S)
  | S : same_fields ?a ?b |- context [capacity E ?a] => rewrite (bf_capacity S)
  | S : same_fields ?a ?b |- context [is_full E ?a] => rewrite (bf_full S)
  | S : same_fields ?a ?b |- context [is_empty ?a] => rewrite (bf_empty S)
  | S : same_fields ?a ?b |- context [internal_index E ?a _] => rewrite (bf_internal _ S)
  | S : same_fields ?a ?b |- _ => let H1 := fresh in let H2 := fresh in let H3 := fresh in
      destruct S as (H1 & H2 & H3); cbn; rewrite ?H1, ?H2, ?H3; clear S
  end; try reflexivity.

Ltac co := repeat (
  first [ apply co_ret | apply co_lift | apply co_drop | apply co_drop_opt | apply co_unwinding | apply co_unwinding_list
        | assumption
        | (apply co_gets; solve [bf])
        | apply co_bind | apply co_plain_bind
        | match goal with
          | |- forall _, complete _ => intros ?
          | |- complete (if ?b then _ else _) => destruct b
          | |- complete (match ?b with _ => _ end) => destruct b
          end ]).

Lemma co_incr_end : complete (plain (incr_end E)).
Proof.
  unfold incr_end. co.
  - apply co_modify; [reflexivity|]. bf.
  - apply co_modify; [intros c; destruct (_ =? _); reflexivity|].
    intros c c' (H1 & H2 & H3). rewrite H2, H3. destruct (_ =? _); cbn; now rewrite H1, ?H2.
Qed.
Lemma co_incr_start : complete (plain (incr_start E)).
Proof.
  unfold incr_start. co.
  - apply co_modify; [reflexivity|]. bf.
  - apply co_modify; [intros c; destruct (_ =? _); reflexivity|].
    intros c c' (H1 & H2 & H3). rewrite H1, H3. destruct (_ =? _); cbn; now rewrite ?H1, ?H2.
Qed.
Lemma co_decr_end : complete (plain (decr_end E)).
Proof. unfold decr_end. co. apply co_modify; [reflexivity|]. bf. Qed.
Lemma co_decr_start : complete (plain (decr_start E)).
Proof. unfold decr_start. co. apply co_modify; [reflexivity|]. bf. Qed.

(** *** Touching slots *)
Lemma slot_of_fields c c' i : same_fields c c' -> slot_of c' i = slot_of c i.
Proof. intros (_ & _ & H). unfold slot_of. now rewrite H. Qed.

Lemma frame_upd i x (c : cb T) : frame [i] c (set_buffer (upd (buffer c) i x) c).
Proof. intros j N. cbn. apply nth_error_upd_other. intros ->. apply N. now left. Qed.

(** a computation touching one slot, whose effect is decided by its content *)
Lemma co_slot A (f : slot T -> option (slot T) * outcome A) i
  (m : M T (cb T) A) :
  (forall c, m c = match nth_error (buffer c) i with
                   | None => (c, [], Panic)
                   | Some x => (match fst (f x) with Some y => set_buffer (upd (buffer c) i y) c | None => c end, [], snd (f x))
                   end) ->
  complete (fun c => (m c, slot_of c i)).
Proof.
  intros H c c' c1 d o t SF X AG. rewrite H in X. rewrite H, (slot_of_fields _ SF). unfold slot_of in *.
  destruct (Nat.ltb_spec i (length (buffer c))) as [L|L].
  - injection X as X1 <-. assert (N : nth_error (buffer c) i = nth_error (buffer c') i) by (apply AG; now left).
    rewrite N in X1. destruct (nth_error (buffer c') i) as [x|] eqn:Q; [|apply nth_error_None in Q; destruct SF as (_ & _ & S3); lia].
    destruct (f x) as [[y|] r]; cbn in X1; injection X1 as <- <- <-; cbn.
    + split; [apply frame_upd|]. eexists. split; [reflexivity|]. destruct SF as (S1 & S2 & S3).
      split; [split; [auto|split; [auto|cbn; now rewrite !length_upd]]|]. split; [|apply frame_upd].
      intros j [<-|[]]. cbn. rewrite !nth_error_upd_same; auto; lia.
    + split; [intros j _; reflexivity|]. exists c'. split; [reflexivity|]. split; [exact SF|]. split; [exact AG|intros j _; reflexivity].
  - assert (N : nth_error (buffer c) i = None) by (apply nth_error_None; lia). rewrite N in X.
    assert (N' : nth_error (buffer c') i = None) by (apply nth_error_None; destruct SF as (_ & _ & S3); lia). rewrite N'.
    injection X as <- <- <- <-. split; [intros j _; reflexivity|]. exists c'. split; [reflexivity|]. split; [exact SF|].
    split; [exact AG|intros j _; reflexivity].
Qed.

Lemma co_pop_at i : complete (pop_at_w (T := T) i).
Proof.
  apply (co_slot (fun x => match x with Uninit => (None, UB) | Init v => (Some Uninit, Ret v) end) i).
  intros c. unfold pop_at. destruct (nth_error (buffer c) i) as [[|v]|]; reflexivity.
Qed.
Lemma co_push_at v i : complete (push_at_w (T := T) v i).
Proof.
  apply (co_slot (fun x => (Some (Init v), Ret tt)) i).
  intros c. unfold push_at. destruct (Nat.ltb_spec i (length (buffer c))) as [L|L].
  - apply nth_error_Some in L. destruct (nth_error (buffer c) i); [reflexivity|contradiction].
  - apply nth_error_None in L. now rewrite L.
Qed.
Lemma co_read i : complete (read_slot_w (T := T) i).
Proof.
  apply (co_slot (fun x => match x with Uninit => (None, UB) | Init v => (None, Ret v) end) i).
  intros c. unfold gets, read_slot. destruct (nth_error (buffer c) i) as [[|v]|]; reflexivity.
Qed.
Lemma co_modify_slot i f : complete (modify_slot_w (T := T) i f).
Proof.
  apply (co_slot (fun x => match x with Uninit => (None, UB) | Init v => (Some (Init (f v)), Ret tt) end) i).
  intros c. unfold modify_slot. destruct (nth_error (buffer c) i) as [[|v]|]; reflexivity.
Qed.
Lemma co_swap_slots i j : complete (slice_swap_w (T := T) i j).
Proof.
  intros c c' c1 d o t SF X AG. unfold slice_swap_w, bind, gets, modify, slice_swap in *.
  destruct SF as (S1 & S2 & S3). rewrite <- S3.
  destruct (Nat.ltb_spec i (length (buffer c))) as [Li|Li]; [destruct (Nat.ltb_spec j (length (buffer c))) as [Lj|Lj]|]; cbn [andb] in *.
  - destruct (nth_error (buffer c) i) as [x|] eqn:Qx; [|apply nth_error_None in Qx; lia].
    destruct (nth_error (buffer c) j) as [y|] eqn:Qy; [|apply nth_error_None in Qy; lia].
    injection X as <- <- <- <-.
    assert (Nx : nth_error (buffer c') i = Some x) by (rewrite <- Qx; symmetry; apply AG; now left).
    assert (Ny : nth_error (buffer c') j = Some y) by (rewrite <- Qy; symmetry; apply AG; right; now left).
    rewrite Nx, Ny.
    assert (G : forall b : cb T, frame [i; j] b (set_buffer (upd (upd (buffer b) i y) j x) b)).
    { intros b k N. cbn. rewrite !nth_error_upd_other; auto; intros ->; apply N; cbn; auto. }
    split; [apply G|]. eexists. split; [reflexivity|].
    split; [split; [auto|split; [auto|cbn; now rewrite !length_upd]]|]. split; [|apply G].
    intros k Hk. cbn. destruct (Nat.eq_dec j k) as [<-|Nj].
    + rewrite !nth_error_upd_same; auto; rewrite length_upd; lia.
    + rewrite !(nth_error_upd_other _ _ Nj). destruct Hk as [<-|[<-|[]]]; [|contradiction]. rewrite !nth_error_upd_same; auto; lia.
  - assert (Qy : nth_error (buffer c) j = None) by (apply nth_error_None; lia).
    assert (Qy' : nth_error (buffer c') j = None) by (apply nth_error_None; lia). rewrite Qy in X. rewrite Qy'.
    destruct (nth_error (buffer c) i), (nth_error (buffer c') i); injection X as <- <- <- <-;
      (split; [intros k _; reflexivity|]; exists c'; split; [reflexivity|]; split; [unfold same_fields; auto|]; split; [exact AG|intros k _; reflexivity]).
  - assert (Qy : nth_error (buffer c) i = None) by (apply nth_error_None; lia).
    assert (Qy' : nth_error (buffer c') i = None) by (apply nth_error_None; lia). rewrite Qy in X. rewrite Qy'.
    injection X as <- <- <- <-;
      (split; [intros k _; reflexivity|]; exists c'; split; [reflexivity|]; split; [unfold same_fields; auto|]; split; [exact AG|intros k _; reflexivity]).
Qed.

Hint Resolve co_incr_end co_incr_start co_decr_end co_decr_start co_pop_at co_push_at co_read co_modify_slot co_swap_slots : co.
Ltac co1 := repeat (
  first [ solve [auto with co] | apply co_ret | apply co_lift | apply co_drop | apply co_drop_opt | apply co_unwinding | apply co_unwinding_list
        | (apply co_gets; solve [bf])
        | apply co_bind
        | match goal with
          | |- forall _, complete _ => intros ?
          | |- complete (if ?b then _ else _) => destruct b
          | |- complete (match ?b with _ => _ end) => destruct b
          end ]).

Lemma co_pop_back : complete (pop_back_w (T := T) E).
Proof. unfold pop_back_w. co1. Qed.
Lemma co_pop_front : complete (pop_front_w E dp).
Proof. unfold pop_front_w. co1. Qed.
Hint Resolve co_pop_back co_pop_front : co.
Lemma co_push_back v : complete (push_back_w E dp v).
Proof. unfold push_back_w. co1. Qed.
Lemma co_push_front v : complete (push_front_w E dp v).
Proof. unfold push_front_w. co1. Qed.
Hint Resolve co_push_back co_push_front : co.
Lemma co_clear_loop f : complete (clear_loop_w E dp f).
Proof. induction f; cbn [clear_loop_w]; co1. Qed.
(** the loops started with the length of the storage *)
Lemma co_length A (m : nat -> W T nat (cb T) A) : (forall n, complete (m n)) -> complete (fun c => m (S (length (buffer c))) c).
Proof.
  intros H c c' c1 d o t SF X AG. pose proof (H _ c c' _ _ _ _ SF X AG) as G. destruct SF as (_ & _ & S3). rewrite <- S3. exact G.
Qed.
Lemma co_clear : complete (clear_w E dp).
Proof. exact (co_length _ co_clear_loop). Qed.
Lemma co_drain_skip n : complete (drain_skip_w E dp n).
Proof. induction n; cbn [drain_skip_w]; co1. Qed.
Lemma co_drain_all n : complete (drain_all_w E dp n).
Proof. induction n; cbn [drain_all_w]; co1. Qed.
Lemma co_drain_take n : complete (drain_take_w E dp n).
Proof. induction n; cbn [drain_take_w]; co1. Qed.
Lemma co_extend xs : complete (extend_w E dp xs).
Proof. induction xs; cbn [extend_w]; co1. Qed.
Lemma co_into_iter n : complete (into_iter_take_w E dp n).
Proof. unfold into_iter_take_w. apply co_bind; [apply co_drain_take|]. intros vs. apply co_bind; [apply co_clear|]. intros _. apply co_ret. Qed.
Lemma co_index i : complete (index_w (T := T) E i).
Proof. unfold index_w. co1. Qed.
Lemma co_index_mut i f : complete (index_mut_w (T := T) E i f).
Proof. unfold index_mut_w. co1. Qed.
Lemma co_first : complete (first_w (T := T) E).
Proof. unfold first_w. co1. Qed.
Lemma co_first_mut f : complete (first_mut_w (T := T) E f).
Proof. unfold first_mut_w. co1. Qed.
Lemma bf_last : by_fields (fun c => let* l := len E c in let* k := usub E l 1 in internal_index E c k).
Proof.
  intros c c' H. rewrite (bf_len H). destruct (len E c') as [l| | | |]; try reflexivity. cbn [obind].
  destruct (usub E l 1) as [k| | | |]; try reflexivity. cbn [obind]. exact (@bf_internal k c c' H).
Qed.
Lemma co_last : complete (last_w (T := T) E).
Proof. unfold last_w. pose proof (co_gets bf_last). co1. Qed.
Lemma co_last_mut f : complete (last_mut_w (T := T) E f).
Proof. unfold last_mut_w. pose proof (co_gets bf_last). co1. Qed.
Lemma co_swap a b : complete (swap_w (T := T) E a b).
Proof. unfold swap_w. co1. Qed.
Hint Resolve co_swap : co.
Lemma co_reverse : complete (reverse_w (T := T) E).
Proof.
  assert (L : forall l, complete (reverse_loop_w (T := T) E l)).
  { induction l; cbn [reverse_loop_w]; co1. }
  unfold reverse_w. co1.
Qed.
(** *** Slices *)
Lemma slice_agree a b c c' : length (buffer c) = length (buffer c') -> agree (seq a (b - a)) c c' ->
  slice_range (buffer c) a b = slice_range (buffer c') a b.
Proof.
  intros L A. unfold slice_range. rewrite <- L. destruct ((a <=? b) && (b <=? length (buffer c))) eqn:G; [|reflexivity].
  apply andb_prop in G. destruct G as [G1 G2]. apply Nat.leb_le in G1, G2. f_equal.
  apply nth_error_ext_lt; [rewrite !firstn_length, !skipn_length; lia|].
  rewrite firstn_length, skipn_length. intros i Hi. rewrite !nth_error_firstn by lia. rewrite !nth_error_skipn.
  apply A. apply in_seq. lia.
Qed.

Lemma agree_app t1 t2 c c' : agree (t1 ++ t2) c c' -> agree t1 c c' /\ agree t2 c c'.
Proof. intros H. split; intros i Hi; apply H; apply in_or_app; auto. Qed.

Lemma sliced_fields c c' : same_fields c c' -> sliced c' = sliced c.
Proof. intros (S1 & S2 & S3). unfold sliced. now rewrite S1, S2, S3. Qed.

Lemma slices_agree c c' : same_fields c c' -> agree (sliced c) c c' -> slices c = slices c'.
Proof.
  intros (S1 & S2 & S3) A. unfold slices, sliced in *. rewrite <- S1, <- S2.
  destruct (start c <=? end_ c).
  - rewrite (@slice_agree _ _ _ _ S3 A). rewrite (@slice_agree 0 0 c c' S3); [reflexivity|]. intros i [].
  - apply agree_app in A. destruct A as [A1 A2]. rewrite <- S3, (@slice_agree _ _ _ _ S3 A1).
    rewrite (@slice_agree 0 (end_ c) c c' S3); [reflexivity|]. now rewrite Nat.sub_0_r.
Qed.

Lemma co_iter : complete (@iter_w T).
Proof.
  intros c c' c1 d o t SF X A. unfold iter_w, gets in *. injection X as <- <- <- <-.
  split; [intros i _; reflexivity|]. exists c'. unfold iter. rewrite (@slices_agree _ _ SF A), (sliced_fields SF).
  split; [reflexivity|]. split; [exact SF|]. split; [exact A|intros i _; reflexivity].
Qed.

(** everything is touched *)
Lemma co_all A (m : W T nat (cb T) A) :
  (forall c c1 d o t, m c = ((c1, d, o), t) ->
     incl (seq 0 (length (buffer c))) t /\ length (buffer c1) = length (buffer c)) -> complete m.
Proof.
  intros H c c' c1 d o t SF X AG. destruct (H _ _ _ _ _ X) as [I L].
  assert (c = c') as <-.
  { destruct SF as (S1 & S2 & S3). destruct c as [b s e], c' as [b' s' e']. cbn in *. subst s' e'. f_equal.
    apply nth_error_ext_lt; [exact S3|]. intros i Hi. apply AG. apply I. apply in_seq. lia. }
  assert (F : frame t c c1).
  { intros i N. assert (length (buffer c) <= i) by (destruct (Nat.le_gt_cases (length (buffer c)) i); [auto|]; exfalso; apply N, I, in_seq; lia).
    transitivity (@None (slot T)); [apply nth_error_None; lia|symmetry; apply nth_error_None; lia]. }
  split; [exact F|]. exists c1. split; [exact X|]. split; [repeat split; auto|]. split; [intros i _; reflexivity|exact F].
Qed.

Lemma length_rotate (b b' : list (slot T)) n : rotate_left b n = Ret b' -> length b' = length b.
Proof.
  unfold rotate_left. destruct (Nat.leb_spec n (length b)); [|discriminate]. intros X. injection X as <-.
  rewrite app_length, skipn_length, firstn_length. lia.
Qed.

Lemma linearize_shape c c1 d o t : linearize_w (T := T) E c = ((c1, d, o), t) ->
  incl (seq 0 (length (buffer c))) t /\ length (buffer c1) = length (buffer c) /\
  forall l, o = Ret l -> length l <= length (buffer c).
Proof.
  unfold linearize_w, rotate_w, wbind, plain, gets, modify. cbn.
  destruct (rotate_left (buffer c) (start c)) as [b| | | |] eqn:R; cbn;
    try (intros X; injection X as <- <- <- <-; split; [apply incl_refl|split; [reflexivity|discriminate]]).
  apply length_rotate in R.
  destruct (len E (set_buffer b c)) as [e| | | |]; cbn; intros X; injection X as <- <- <- <-; cbn;
    (split; [apply incl_appl; rewrite ?app_nil_r; apply incl_refl|split; [exact R|]]); try discriminate.
  intros l. unfold slice_range. cbn [andb Nat.leb]. destruct (Nat.leb_spec e (length b)) as [Le|]; [|discriminate]. cbn [obind].
  intros Q.
  assert (G : forall (s : list (slot T)) l, read_slots s = Ret l -> length l = length s).
  { induction s as [|[|v] s IH]; cbn; intros l0 X; try discriminate; [injection X as <-; reflexivity|].
    destruct (read_slots s); try discriminate. cbn in X. injection X as <-. cbn. f_equal. auto. }
  apply G in Q. rewrite Q, firstn_length. lia.
Qed.

Lemma co_linearize : complete (linearize_w (T := T) E).
Proof. apply co_all. intros c c1 d o t X. destruct (@linearize_shape _ _ _ _ _ X) as (H1 & H2 & _). auto. Qed.

Lemma length_write_at off (vals : list T) b : off + length vals <= length b -> length (write_at off vals b) = length b.
Proof. intros H. unfold write_at. rewrite !app_length, firstn_length, map_length, skipn_length. lia. Qed.

Lemma co_linearize_with g : (forall l, length (g l) = length l) -> complete (linearize_with_w (T := T) E g).
Proof.
  intros G. apply co_all. intros c c1 d o t. unfold linearize_with_w, wbind at 1.
  destruct (linearize_w E c) as [[[c2 d2] o2] t2] eqn:X. destruct (@linearize_shape _ _ _ _ _ X) as (H1 & H2 & H3).
  destruct o2 as [l| | | |]; unfold plain, modify; intros Y; injection Y as <- <- <- <-; auto.
  rewrite app_nil_r. split; [auto|]. cbn [set_buffer buffer]. rewrite length_write_at; [auto|]. rewrite G, H2. apply H3. reflexivity.
Qed.

Lemma nth_write_at off (vals : list T) b i : off + length vals <= length b ->
  nth_error (write_at off vals b) i =
    if (off <=? i) && (i <? off + length vals) then nth_error (map Init vals) (i - off) else nth_error b i.
Proof.
  intros L. unfold write_at. destruct (Nat.leb_spec off i) as [H1|H1]; cbn [andb].
  - rewrite nth_error_app2 by (rewrite firstn_length; lia). rewrite firstn_length, Nat.min_l by lia.
    destruct (Nat.ltb_spec i (off + length vals)).
    + apply nth_error_app1. rewrite map_length. lia.
    + rewrite nth_error_app2 by (rewrite map_length; lia). rewrite map_length, nth_error_skipn. f_equal. lia.
  - rewrite nth_error_app1 by (rewrite firstn_length; lia). apply nth_error_firstn. lia.
Qed.

Lemma read_length (s : list (slot T)) : forall l, read_slots s = Ret l -> length l = length s.
Proof.
  induction s as [|[|v] s IH]; cbn; intros l0 X; try discriminate; [injection X as <-; reflexivity|].
  destruct (read_slots s); try discriminate. cbn in X. injection X as <-. cbn. f_equal. auto.
Qed.

(** the two mutable slices of a buffer, in terms of their ranges *)
Lemma slices_mut_fields (c : cb T) : slices_mut c =
  if start c <=? end_ c then
    let* _ := split_at (buffer c) (end_ c) in
    let* s := slice_range (buffer c) (start c) (end_ c) in
    let* x := read_slots s in Ret ((start c, x), (end_ c, []))
  else
    let* s2 := slice_range (buffer c) 0 (end_ c) in
    let* s := slice_range (buffer c) (start c) (length (buffer c)) in
    let* x := read_slots s in let* y := read_slots s2 in Ret ((start c, x), (0, y)).
Proof.
  unfold slices_mut. destruct (Nat.leb_spec (start c) (end_ c)) as [L|L].
  - unfold split_at, slice_range. destruct (Nat.leb_spec (end_ c) (length (buffer c))) as [L2|L2]; [|reflexivity]. cbn [obind fst snd].
    rewrite firstn_length, Nat.min_l by lia. rewrite Nat.leb_refl. assert (Q : start c <=? end_ c = true) by (apply Nat.leb_le; lia).
    rewrite Q. cbn [andb obind]. cbn [Nat.leb andb]. cbn [obind].
    replace (firstn (end_ c - start c) (skipn (start c) (firstn (end_ c) (buffer c)))) with
      (firstn (end_ c - start c) (skipn (start c) (buffer c))).
    + destruct (read_slots _); reflexivity.
    + rewrite skipn_firstn_comm, firstn_firstn, Nat.min_id. reflexivity.
  - unfold split_at, slice_range. destruct (Nat.leb_spec (start c) (length (buffer c))) as [L2|L2]; cbn [obind fst snd].
    + rewrite firstn_length, Nat.min_l by lia. cbn [Nat.leb andb].
      assert (Q : end_ c <=? start c = true) by (apply Nat.leb_le; lia). rewrite Q.
      assert (Q2 : end_ c <=? length (buffer c) = true) by (apply Nat.leb_le; lia). rewrite Q2.
      rewrite Nat.leb_refl. cbn [andb obind]. rewrite !Nat.sub_0_r. cbn [skipn].
      rewrite (firstn_all2 (skipn (start c) (buffer c))) by (rewrite skipn_length; lia).
      rewrite firstn_firstn, Nat.min_l by lia. reflexivity.
    + cbn [Nat.leb andb]. destruct (Nat.leb_spec (end_ c) (length (buffer c))); reflexivity.
Qed.

Lemma split_length (b b' : list (slot T)) n : length b = length b' ->
  (exists p p', split_at b n = Ret p /\ split_at b' n = Ret p') \/ (split_at b n = Panic /\ split_at b' n = Panic).
Proof. intros L. unfold split_at. rewrite <- L. destruct (n <=? length b); [left|right]; eauto. Qed.

Lemma slices_mut_agree c c' : same_fields c c' -> agree (sliced c) c c' -> slices_mut c = slices_mut c'.
Proof.
  intros (S1 & S2 & S3) A. rewrite !slices_mut_fields. unfold sliced in A. rewrite <- S1, <- S2, <- S3.
  destruct (start c <=? end_ c).
  - rewrite (@slice_agree _ _ _ _ S3 A). destruct (@split_length _ _ (end_ c) S3) as [(p & p' & -> & ->)|(-> & ->)]; reflexivity.
  - apply agree_app in A. destruct A as [A1 A2]. rewrite (@slice_agree _ _ _ _ S3 A1).
    rewrite (@slice_agree 0 (end_ c) c c' S3); [reflexivity|]. now rewrite Nat.sub_0_r.
Qed.

(** where the two slices lie *)
Lemma slices_mut_where (c : cb T) oa a ob b : slices_mut c = Ret ((oa, a), (ob, b)) ->
  oa + length a <= length (buffer c) /\ ob + length b <= length (buffer c) /\
  (forall i, (oa <= i < oa + length a) \/ (ob <= i < ob + length b) <-> In i (sliced c)).
Proof.
  rewrite slices_mut_fields. unfold sliced. destruct (Nat.leb_spec (start c) (end_ c)) as [L|L].
  - unfold split_at. destruct (Nat.leb_spec (end_ c) (length (buffer c))) as [L2|]; [|discriminate]. cbn [obind].
    unfold slice_range. assert (Q : start c <=? end_ c = true) by (apply Nat.leb_le; lia).
    assert (Q2 : end_ c <=? length (buffer c) = true) by (apply Nat.leb_le; lia). rewrite Q, Q2. cbn [andb obind].
    destruct (read_slots _) as [x| | | |] eqn:R; try discriminate. cbn [obind]. intros X. injection X as <- <- <- <-.
    apply read_length in R. rewrite firstn_length, skipn_length in R. cbn [length]. split; [lia|]. split; [lia|].
    intros i. rewrite in_seq. lia.
  - unfold slice_range. cbn [Nat.leb andb]. destruct (Nat.leb_spec (end_ c) (length (buffer c))) as [L2|]; [|discriminate]. cbn [obind].
    rewrite Nat.leb_refl. destruct (Nat.leb_spec (start c) (length (buffer c))) as [L3|]; [|discriminate]. cbn [andb obind].
    destruct (read_slots (firstn (length (buffer c) - start c) _)) as [x| | | |] eqn:R; try discriminate. cbn [obind].
    destruct (read_slots (firstn (end_ c - 0) _)) as [y| | | |] eqn:R2; try discriminate. cbn [obind]. intros X. injection X as <- <- <- <-.
    apply read_length in R, R2. rewrite firstn_length, skipn_length in R. rewrite firstn_length in R2. cbn [skipn] in R2.
    split; [lia|]. split; [lia|]. intros i. rewrite in_app_iff, !in_seq. lia.
Qed.

Lemma co_iter_mut g : (forall l, length (g l) = length l) -> complete (@iter_mut_with_w T g).
Proof.
  intros G c c' c1 d o t SF X A. unfold iter_mut_with_w, iter_mut_with, slices_mut_with, bind, gets, modify in *.
  assert (t = sliced c) as -> by (destruct (slices_mut c); injection X; auto).
  rewrite (sliced_fields SF), <- (@slices_mut_agree _ _ SF A).
  destruct (slices_mut c) as [[[oa a] [ob b]]| | | |] eqn:Q;
    try (injection X as <- <- <-; split; [intros i _; reflexivity|]; exists c'; split; [reflexivity|]; split; [exact SF|]; split; [exact A|intros i _; reflexivity]).
  destruct (@slices_mut_where _ _ _ _ _ Q) as (La & Lb & Wh). destruct SF as (S1 & S2 & S3).
  set (r := g (a ++ b)) in *. cbn [fst snd] in *. injection X as <- <- <-.
  assert (Lr : length r = length a + length b) by (unfold r; rewrite G, app_length; reflexivity).
  set (xa := firstn (length a) r). set (xb := skipn (length a) r).
  assert (Lxa : length xa = length a) by (unfold xa; rewrite firstn_length; lia).
  assert (Lxb : length xb = length b) by (unfold xb; rewrite skipn_length; lia).
  assert (N : forall y : cb T, length (buffer y) = length (buffer c) -> forall i,
     nth_error (write_at ob xb (write_at oa xa (buffer y))) i =
       if (ob <=? i) && (i <? ob + length b) then nth_error (map Init xb) (i - ob)
       else if (oa <=? i) && (i <? oa + length a) then nth_error (map Init xa) (i - oa) else nth_error (buffer y) i).
  { intros y Ly i. rewrite nth_write_at by (rewrite length_write_at; lia). rewrite Lxb. destruct (_ && _); [reflexivity|].
    rewrite nth_write_at by lia. rewrite Lxa. reflexivity. }
  assert (Fr : forall y : cb T, length (buffer y) = length (buffer c) -> frame (sliced c) y (set_buffer (write_at ob xb (write_at oa xa (buffer y))) y)).
  { intros y Ly i Hi. cbn [set_buffer buffer]. rewrite N by exact Ly. rewrite <- Wh in Hi.
    destruct (Nat.leb_spec ob i), (Nat.ltb_spec i (ob + length b)); cbn [andb]; try lia;
    destruct (Nat.leb_spec oa i), (Nat.ltb_spec i (oa + length a)); cbn [andb]; try lia; reflexivity. }
  split; [apply Fr; reflexivity|]. eexists. split; [reflexivity|].
  split; [split; [exact S1|split; [exact S2|]]|].
  - cbn [set_buffer buffer]. rewrite !length_write_at; rewrite ?length_write_at; lia.
  - split; [|apply Fr; auto]. intros i Hi. cbn [set_buffer buffer]. rewrite !N by auto.
    destruct (_ && _); [reflexivity|]. destruct (_ && _); [reflexivity|]. apply A. exact Hi.
Qed.

Lemma co_wmap A B (f : A -> B) (m : W T nat (cb T) A) : complete m -> complete (wmap f m).
Proof. intros H. apply co_bind; [exact H|]. intros a. apply co_ret. Qed.

Theorem co_step o : op_ok E o -> (forall k, o <> OResize k) -> complete (cb_step_w E dp o).
Proof.
  intros Ok NR. destruct o; cbn [cb_step_w]; try (exfalso; apply (NR c); reflexivity); try solve [apply co_gets; bf]; apply co_wmap.
  - apply co_push_back.
  - apply co_push_front.
  - apply co_pop_back.
  - apply co_pop_front.
  - apply co_clear.
  - apply co_index.
  - apply co_index_mut.
  - apply co_first.
  - apply co_first_mut.
  - apply co_last.
  - apply co_last_mut.
  - apply co_iter.
  - apply co_iter_mut. exact Ok.
  - apply co_linearize.
  - apply co_linearize_with. exact Ok.
  - apply co_swap.
  - apply co_reverse.
  - apply co_extend.
  - apply co_drain_take.
Qed.
End Complete.
