(** Property theorem C99: the slots of the storage that each call of a circular
    buffer reads or writes, and the complexities documented in
    src/circular_buffer/mod.rs:13-19. *)
From Verif Require Import Base CBSpec CBModel CBRun CBModel4 CBSpec3 CBProofs CBProofs2 CBProofs3 CBProofs9 CBProofs10 CBProofs11 CBProps.
Local Open Scope list_scope.
Local Open Scope outcome_scope.

(** ** C99 *)
(** forgetting the slots listed, the calls that list slots are the calls *)
Theorem c99_listing_slots_changes_no_call : forall T E (dp : T -> bool),
  (forall o c, fst (cb_step_w E dp o c) = cb_step E dp o c) /\
  (forall k c, fst (resize_w E dp k c) = resize E dp k c) /\
  (forall p, fst (append_w E dp p) = append E dp p) /\
  (forall n c, fst (into_iter_take_w E dp n c) = into_iter_take E dp n c).
Proof.
  intros T E dp. repeat split; intros.
  - apply er_step.
  - apply er_resize.
  - apply er_append.
  - apply er_into_iter.
Qed.
Print Assumptions c99_listing_slots_changes_no_call.

(** nothing but the listed slots and the two positions matters to a call: it
    changes no other slot, and on a buffer that agrees on the listed ones it does
    and answers the same, whatever the other slots hold *)
Theorem c99_only_listed_slots_matter : forall T E (dp : T -> bool) o c c' c1 dr r t,
  op_ok E o -> (forall k, o <> OResize k) ->
  start c = start c' -> end_ c = end_ c' -> length (buffer c) = length (buffer c') ->
  cb_step_w E dp o c = ((c1, dr, r), t) ->
  (forall i, In i t -> nth_error (buffer c) i = nth_error (buffer c') i) ->
  (forall i, ~ In i t -> nth_error (buffer c1) i = nth_error (buffer c) i) /\
  exists c1', cb_step_w E dp o c' = ((c1', dr, r), t) /\ start c1 = start c1' /\ end_ c1 = end_ c1' /\
    (forall i, In i t -> nth_error (buffer c1) i = nth_error (buffer c1') i) /\
    (forall i, ~ In i t -> nth_error (buffer c1') i = nth_error (buffer c') i).
Proof.
  intros T E dp o c c' c1 dr r t Ok NR H1 H2 H3 H A.
  destruct (@co_step T E dp o Ok NR c c' c1 dr r t (conj H1 (conj H2 H3)) H A) as (F & c1' & H' & (S1 & S2 & _) & A' & F').
  split; [exact F|]. exists c1'. repeat split; auto.
Qed.
Print Assumptions c99_only_listed_slots_matter.

(** the same for [resize], whose result has a storage of its own *)
Theorem c99_only_listed_slots_matter_resize : forall T E (dp : T -> bool) k c c' c1 dr r t,
  start c = start c' -> end_ c = end_ c' -> length (buffer c) = length (buffer c') ->
  resize_w E dp k c = ((c1, dr, r), t) ->
  (forall i, In (inl i) t -> nth_error (buffer c) i = nth_error (buffer c') i) ->
  exists c1', resize_w E dp k c' = ((c1', dr, r), t) /\ (r = Ret tt -> c1' = c1) /\
    (r <> Ret tt -> start c1 = start c1' /\ end_ c1 = end_ c1' /\
       (forall i, In (inl i) t -> nth_error (buffer c1) i = nth_error (buffer c1') i) /\
       (forall i, ~ In (inl i) t -> nth_error (buffer c1) i = nth_error (buffer c) i /\
                                    nth_error (buffer c1') i = nth_error (buffer c') i)).
Proof.
  intros T E dp k c c' c1 dr r t H1 H2 H3 H A.
  assert (L : forall i, In i (lefts t) <-> In (inl i) t).
  { clear. induction t as [|[j|j] t IH]; intros i; cbn.
    - tauto.
    - rewrite IH. split; (intros [X|X]; [left; congruence|auto]).
    - rewrite IH. split; [auto|]. intros [X|X]; [discriminate|auto]. }
  destruct (@co_resize T E dp k c c' c1 dr r t (conj H1 (conj H2 H3)) H) as (c1' & H' & (S1 & S2 & _) & R1 & R2).
  { intros i Hi. apply A, L, Hi. }
  exists c1'. split; [exact H'|]. split; [exact R1|]. intros N. destruct (R2 N) as (F & A' & F').
  split; [auto|]. split; [auto|]. split.
  - intros i Hi. apply A', L, Hi.
  - intros i Hi. rewrite <- L in Hi. split; [apply F|apply F']; auto.
Qed.
Print Assumptions c99_only_listed_slots_matter_resize.

(** the number of slots touched by every call of every reachable buffer *)
Theorem c99_slots_touched : forall T E (dp : T -> bool) o c k l,
  indexable T E -> reachable E c -> shows E c k l -> op_ok E o ->
  length (snd (cb_step_w E dp o c)) = s_touches dp o (Deque k l).
Proof. intros T E dp o c k l HE R S Ok. exact (@cnt_step T E dp HE o c _ (shows_matches HE R S) Ok). Qed.
Print Assumptions c99_slots_touched.

(** [resize] moves each element kept once and writes each slot of the new storage
    once, unless dropping the surplus panics *)
Theorem c99_slots_touched_resize : forall T E (dp : T -> bool) q c k l,
  indexable T E -> reachable E c -> shows E c k l -> q + 1 <= alloc_max E ->
  length (lefts (snd (resize_w E dp q c))) = s_touches dp (OResize q) (Deque k l) /\
  length (rights (snd (resize_w E dp q c))) =
    if existsb dp (firstn (length l - q) l) then 0 else q + 1.
Proof. intros T E dp q c k l HE R S Hq. exact (@cnt_resize T E dp HE q c _ (shows_matches HE R S) Hq). Qed.
Print Assumptions c99_slots_touched_resize.

(** [append]: the slots of the receiver and of the other buffer *)
Theorem c99_slots_touched_append : forall T E (dp : T -> bool) c1 c2 k1 l1 k2 l2,
  indexable T E -> reachable E c1 -> reachable E c2 -> shows E c1 k1 l1 -> shows E c2 k2 l2 ->
  (length (lefts (snd (append_w E dp (c1, c2)))), length (rights (snd (append_w E dp (c1, c2))))) =
    s_append_touches dp l2 (Deque k1 l1).
Proof.
  intros T E dp c1 c2 k1 l1 k2 l2 HE R1 R2 S1 S2.
  exact (@cnt_append T E dp HE c1 c2 _ _ (shows_matches HE R1 S1) (shows_matches HE R2 S2)).
Qed.
Print Assumptions c99_slots_touched_append.

(** an owning iterator: a slot for each element taken, and for each one dropped
    with the iterator *)
Theorem c99_slots_touched_into_iter : forall T E (dp : T -> bool) n c k l,
  indexable T E -> reachable E c -> shows E c k l ->
  length (snd (into_iter_take_w E dp n c)) = Nat.min n (length l) + s_drop_touches dp (rev (skipn n l)).
Proof. intros T E dp n c k l HE R S. exact (@cnt_into_iter T E dp HE n c _ (shows_matches HE R S)). Qed.
Print Assumptions c99_slots_touched_into_iter.

(** [linearize]: every slot is moved once, then the elements are read from the
    front of the storage *)
Theorem c99_slots_of_linearize : forall T E (dp : T -> bool) c k l,
  indexable T E -> reachable E c -> shows E c k l ->
  snd (cb_step_w E dp OLinearize c) = seq 0 (S k) ++ seq 0 (length l).
Proof.
  intros T E dp c k l HE R SH. pose proof (shows_matches HE R SH) as M. pose proof M as [RP Hn].
  cbn [cb_step_w]. unfold wmap, linearize_w, rotate_w, wbind, plain, gets, modify, rotate_left. cbn.
  destruct (Nat.leb_spec (start c) (length (buffer c))) as [Q|Q]; [|pose proof (rep_start RP); lia]. cbn.
  match goal with |- context [len E ?x] => assert (LL : len E x = Ret (length (items (Deque k l)))) end.
  { rewrite <- (rep_len_ok HE RP). unfold len. cbn. rewrite app_length, skipn_length, firstn_length.
    replace (length (buffer c) - start c + Nat.min (start c) (length (buffer c))) with (length (buffer c)) by lia. reflexivity. }
  rewrite LL. cbn -[seq]. cbn [cap] in Hn. rewrite Hn.
  destruct (let* s := _ in read_slots s); cbn [snd]; now rewrite ?app_nil_r.
Qed.
Print Assumptions c99_slots_of_linearize.
Lemma push_touches_le {T} (dp : T -> bool) x d : s_push_touches dp x d <= 2.
Proof. unfold s_push_touches. destruct (cap d); [lia|]. destruct (_ <? _); [lia|]. destruct x as [x|]; [destruct (dp x)|]; lia. Qed.
Lemma drop_touches_le {T} (dp : T -> bool) l : s_drop_touches dp l <= length l.
Proof.
  unfold s_drop_touches. induction l as [|x l IH]; cbn; [lia|]. destruct (dp x); cbn; [lia|].
  destruct (drop_each dp l) as [[? ?] ?]. cbn in *. lia.
Qed.
Lemma extend_touches_le {T} (dp : T -> bool) xs : forall d, s_extend_touches dp xs d <= 2 * length xs.
Proof.
  induction xs as [|x xs IH]; intros d; cbn [s_extend_touches length]; [lia|].
  pose proof (push_touches_le dp (hd_error (items d)) d). destruct (s_push_back dp x d) as [[d1 ?] [?| | | |]]; try lia.
  specialize (IH d1). lia.
Qed.
Lemma append_touches_le {T} (dp : T -> bool) xs : forall d a b, s_append_touches dp xs d = (a, b) ->
  a <= 2 * b /\ b <= length xs.
Proof.
  induction xs as [|x xs IH]; intros d a b; cbn [s_append_touches length]; [intros H; injection H as <- <-; lia|].
  pose proof (push_touches_le dp (hd_error (items d)) d).
  destruct (s_push_back dp x d) as [[d1 ?] [?| | | |]]; try (intros Q; injection Q as <- <-; lia).
  destruct (s_append_touches dp xs d1) as [a1 b1] eqn:Q. destruct (IH _ _ _ Q). intros X; injection X as <- <-. lia.
Qed.

(** the documented O(1) (mod.rs:17-19): a push touches at most two slots, taking
    an element off an end and looking at one element at most one, whatever the
    capacity and the length *)
Theorem c99_documented_constant_calls : forall T E (dp : T -> bool) c k l,
  indexable T E -> reachable E c -> shows E c k l ->
  (forall o, In o [OPopBack; OPopFront; OFirst; OLast] -> length (snd (cb_step_w E dp o c)) <= 1) /\
  (forall v, length (snd (cb_step_w E dp (OPushBack v) c)) <= 2 /\ length (snd (cb_step_w E dp (OPushFront v) c)) <= 2) /\
  (forall v, length l < k -> length (snd (cb_step_w E dp (OPushBack v) c)) = 1 /\ length (snd (cb_step_w E dp (OPushFront v) c)) = 1) /\
  (forall i f, length (snd (cb_step_w E dp (OIndex i) c)) <= 1 /\ length (snd (cb_step_w E dp (OIndexMut i f) c)) <= 1) /\
  (forall f, length (snd (cb_step_w E dp (OFirstMut f) c)) <= 1 /\ length (snd (cb_step_w E dp (OLastMut f) c)) <= 1) /\
  (forall a b, length (snd (cb_step_w E dp (OSwap a b) c)) <= 2) /\
  (forall o, In o [OLen; OCapacity; OIsEmpty; OIsFull] -> snd (cb_step_w E dp o c) = []).
Proof.
  intros T E dp c k l HE R S.
  pose proof (fun o Ok => @c99_slots_touched T E dp o c k l HE R S Ok) as C.
  split; [|split; [|split; [|split; [|split; [|split]]]]].
  - intros o Ho. cbn in Ho. destruct Ho as [<-|[<-|[<-|[<-|[]]]]]; rewrite C by exact I; cbn [s_touches]; lia.
  - intros v. rewrite !C by exact I. cbn [s_touches]. split; apply push_touches_le.
  - intros v Hl. rewrite !C by exact I. cbn [s_touches]. unfold s_push_touches. cbn [cap items].
    destruct k; [lia|]. rewrite (proj2 (Nat.ltb_lt _ _)) by lia. auto.
  - intros i f. rewrite !C by exact I. cbn [s_touches]. destruct (i <? _); lia.
  - intros f. rewrite !C by exact I. cbn [s_touches]. lia.
  - intros a b. rewrite C by exact I. cbn [s_touches]. destruct (_ && _); lia.
  - intros o Ho. cbn in Ho. destruct Ho as [<-|[<-|[<-|[<-|[]]]]]; reflexivity.
Qed.
Print Assumptions c99_documented_constant_calls.

(** every other call is linear: in the length, except that [linearize] goes
    through the whole storage, [resize] through the new one, and [extend] and
    [append] depend on what is added only *)
Theorem c99_linear_calls : forall T E (dp : T -> bool) c k l,
  indexable T E -> reachable E c -> shows E c k l ->
  length (snd (cb_step_w E dp OClear c)) <= length l /\
  (forall n, length (snd (cb_step_w E dp (ODrain n) c)) <= n /\ length (snd (cb_step_w E dp (ODrain n) c)) <= length l) /\
  length (snd (cb_step_w E dp OIter c)) = length l /\
  length (snd (cb_step_w E dp OReverse c)) <= length l /\
  (forall g, (forall m, length (g m) = length m) ->
     length (snd (cb_step_w E dp (OIterMut g) c)) = length l /\
     length (snd (cb_step_w E dp (OLinearizeMut g) c)) = S k + length l) /\
  length (snd (cb_step_w E dp OLinearize c)) = S k + length l /\
  (forall xs, length (snd (cb_step_w E dp (OExtend xs) c)) <= 2 * length xs) /\
  (forall q, q + 1 <= alloc_max E -> length (snd (resize_w E dp q c)) <= length l + q + 1) /\
  (forall n, length (snd (into_iter_take_w E dp n c)) <= length l) /\
  (forall c2 k2 l2, reachable E c2 -> shows E c2 k2 l2 -> length (snd (append_w E dp (c, c2))) <= 3 * length l2).
Proof.
  intros T E dp c k l HE R S.
  pose proof (fun o Ok => @c99_slots_touched T E dp o c k l HE R S Ok) as C.
  assert (LR : forall t : list (nat + nat), length t = length (lefts t) + length (rights t)).
  { induction t as [|[x|x] t IH]; [reflexivity|..]; unfold lefts, rights in *; cbn [flat_map app length] in *; lia. }
  split; [|split; [|split; [|split; [|split; [|split; [|split; [|split; [|split]]]]]]]].
  - rewrite C by exact I. cbn [s_touches items]. pose proof (drop_touches_le dp (rev l)) as H. rewrite rev_length in H. exact H.
  - intros n. rewrite C by exact I. cbn [s_touches items]. lia.
  - rewrite C by exact I. reflexivity.
  - rewrite C by exact I. cbn [s_touches items]. pose proof (Nat.div2_odd (length l)). destruct (Nat.odd (length l)); cbn [Nat.b2n] in *; lia.
  - intros g Hg. rewrite !C by exact Hg. auto.
  - rewrite C by exact I. reflexivity.
  - intros xs. rewrite C by exact I. apply extend_touches_le.
  - intros q Hq. rewrite LR. destruct (@c99_slots_touched_resize T E dp q c k l HE R S Hq) as [-> ->].
    cbn [s_touches items]. destruct (existsb dp _); [|lia].
    pose proof (drop_touches_le dp (firstn (length l - q) l)) as H. rewrite firstn_length in H. lia.
  - intros n. rewrite (@c99_slots_touched_into_iter T E dp n c k l HE R S).
    pose proof (drop_touches_le dp (rev (skipn n l))) as H. rewrite rev_length, skipn_length in H. lia.
  - intros c2 k2 l2 R2 S2. rewrite LR.
    pose proof (@c99_slots_touched_append T E dp c c2 k l k2 l2 HE R R2 S S2) as H. symmetry in H.
    apply append_touches_le in H. lia.
Qed.
Print Assumptions c99_linear_calls.

(** the full wrapped buffer [3;4;6] of capacity 3: its elements are in the slots
    2, 3 and 0, and the free slot is 1 *)
Example c99_ex : reachable E0 demo /\ shows E0 demo 3 [3; 4; 6] /\
  snd (cb_step_w E0 never (OPushBack 5) demo) = [2; 1] /\
  snd (cb_step_w E0 never (OPushFront 5) demo) = [0; 1] /\
  snd (cb_step_w E0 never OPopBack demo) = [0] /\
  snd (cb_step_w E0 never (OIndex 2) demo) = [0] /\
  snd (cb_step_w E0 never (OSwap 0 2) demo) = [2; 0] /\
  snd (cb_step_w E0 never OIter demo) = [2; 3; 0] /\
  snd (cb_step_w E0 never OClear demo) = [0; 3; 2] /\
  snd (cb_step_w E0 never OLinearize demo) = [0; 1; 2; 3; 0; 1; 2] /\
  snd (resize_w E0 never 1 demo) = [inl 2; inl 3; inl 0; inr 0; inr 1] /\
  snd (append_w E0 never (demo2, demo)) = [inr 2; inl 0; inr 3; inl 2; inl 1; inr 0; inl 3; inl 2].
Proof. split; [exact demo_reachable|]. split; [exact demo_shows|]. vm_compute. repeat split. Qed.

(** a panicking destructor ends a call early *)
Example c99_ex_panic :
  snd (cb_step_w E0 (fun x => x =? 3) (OPushBack 5) demo) = [2] /\
  snd (cb_step_w E0 (fun x => x =? 4) OClear demo) = [0; 3] /\
  snd (resize_w E0 (fun x => x =? 3) 1 demo) = [inl 2] /\
  snd (cb_step_w E0 (fun x => x =? 4) (OExtend [7; 8; 9]) demo) = [2; 1; 3].
Proof. vm_compute. repeat split. Qed.

(** the slots not listed do not matter: here the free slot holds another value *)
Example c99_ex_agree : start demo = start (CB [Init 6; Init 9; Init 3; Init 4] 2 1) /\ buffer demo = [Init 6; nth 1 (buffer demo) Uninit; Init 3; Init 4] /\
  end_ demo = 1 /\ snd (cb_step_w E0 never OPopFront (CB [Init 6; Init 9; Init 3; Init 4] 2 1)) = [2].
Proof. vm_compute. repeat split. Qed.
