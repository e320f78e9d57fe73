(** Exact form of property C75: what [Debug] prints for a circular buffer. *)
From Coq Require Import String.
From Verif Require Import Base CBSpec CBModel CBModel2 CBRun CBProofs CBProofs2 CBProofs3 CBProofs4 CBProofs6 CBProofs8 CBProps CBProps2.
Local Open Scope list_scope.

(** ** C75 *)
(** the text for [n] elements in a buffer of capacity [k], the first of which is
    in slot [s] *)
Definition placed (k n s : nat) : string :=
  ("CircularBuffer{ start: " ++ show_usize s ++ ", end: " ++ show_usize ((s + n) mod (k + 1))
   ++ ", buf_len: " ++ show_usize (k + 1) ++ " }")%string.

(** a buffer of capacity [k] prints one of the [k + 1] texts for its number of
    elements; the elements themselves are not shown *)
Theorem c75_text_exact : forall T E (c : cb T) k l,
  indexable T E -> reachable E c -> shows E c k l ->
  exists s, s <= k /\ debug_fmt c = placed k (length l) s.
Proof.
  intros T E c k l HE Hr Hs. pose proof (shows_matches HE Hr Hs) as Hm. destruct (place_end Hm) as [He Hn].
  pose proof Hm as [R _]. pose proof (rep_start R). exists (start c). split; [lia|].
  unfold debug_fmt, placed. rewrite He, Hn. reflexivity.
Qed.
Print Assumptions c75_text_exact.

(** all of them occur, whatever the elements, and they are different from each
    other: equality of texts says nothing about the elements, and equal buffers
    of capacity at least 1 can print differently *)
Theorem c75_every_text_occurs : forall T E k (l : list T) s (v : T),
  indexable T E -> k + 1 <= alloc_max E -> length l <= k -> s <= k ->
  (exists c, reachable E c /\ shows E c k l /\ debug_fmt c = placed k (length l) s) /\
  (forall s', s' <= k -> placed k (length l) s = placed k (length l) s' -> s = s').
Proof.
  intros T E k l s v HE Hk Hl Hs. split.
  - destruct (place_reach HE l v Hk Hl Hs) as (c & Hr & Hc & H1 & H2 & H3). exists c. split; auto. split; auto.
    unfold debug_fmt, placed. rewrite H1, H2, H3. reflexivity.
  - intros s' _ H.
    apply (@debug_inj T (CB (repeat (@Uninit T) (k + 1)) s ((s + length l) mod (k + 1)))
                     (CB (repeat (@Uninit T) (k + 1)) s' ((s' + length l) mod (k + 1)))).
    unfold debug_fmt; cbn [start end_ buffer]. rewrite repeat_length. exact H.
Qed.
Print Assumptions c75_every_text_occurs.

(** texts agree exactly when capacity, number of elements and internal position
    agree *)
Theorem c75_equal_texts : forall T E (c d : cb T) k l k' l',
  indexable T E -> reachable E c -> reachable E d -> shows E c k l -> shows E d k' l' ->
  (debug_fmt c = debug_fmt d <->
   k = k' /\ length l = length l' /\ start c = start d).
Proof.
  intros T E c d k l k' l' HE Hr Hr' Hs Hs'. split.
  - intros H. destruct (debug_shape Hs Hs' HE Hr Hr' H) as [-> Hl]. destruct (debug_inj H) as (X & _). auto.
  - intros (-> & Hl & X). destruct (place_end (shows_matches HE Hr Hs)) as [H1 H2].
    destruct (place_end (shows_matches HE Hr' Hs')) as [H1' H2'].
    unfold debug_fmt. rewrite H1, H2, H1', H2', Hl, X. reflexivity.
Qed.
Print Assumptions c75_equal_texts.

Example c75_ex_exact : shows E0 demo 3 [3; 4; 6] /\ debug_fmt demo = placed 3 3 2 /\
  debug_fmt (fst (fst (linearize E0 demo))) = placed 3 3 0 /\
  placed 3 3 1 = "CircularBuffer{ start: 1, end: 0, buf_len: 4 }"%string /\
  placed 3 3 3 = "CircularBuffer{ start: 3, end: 2, buf_len: 4 }"%string.
Proof. repeat split. Qed.
