(** Property theorems C12, C17 (the capacity usize::MAX in full) and C82: the
    circular buffer without a limit on requested capacities. *)
From Verif Require Import Base CBSpec CBModel CBRun CBRun2 CBProofs CBProofs2 CBProofs3 CBProofs4 CBProofs7 CBProps.
Local Open Scope list_scope.

(** ** C12 *)
(** what [resize(usize::MAX)] does in a release build: a buffer with elements
    loses them (they are not even dropped) and the call panics; an empty buffer
    is replaced, without a panic, by one that says its capacity is [usize::MAX]
    but takes no element *)
Theorem c12_resize_max_exact_partial : forall T E (dp : T -> bool) c k l,
  indexable T E -> 0 < usize_max E -> reachable E c -> shows E c k l -> debug_build E = false ->
  exists c' r, resize E dp (usize_max E) c = (c', [], r) /\
    (l <> [] -> r = Panic /\ reachable E c' /\ shows E c' k []) /\
    (l = [] -> r = Ret tt /\ shows E c' (usize_max E) [] /\ barren E c').
Proof.
  intros T E dp c k l HE HU Hr Hs Hd. destruct (resize_max HE HU dp Hr Hs Hd) as (c' & H & X).
  destruct l as [|x l].
  - exists c', (Ret tt). split; auto. split; [congruence|]. intros _. subst c'. split; auto. split; [|apply hollow_barren; auto].
    split; [|reflexivity]. unfold capacity, usub; cbn. rewrite Hd. f_equal. lia.
  - exists c', Panic. split; auto. split; [|discriminate]. intros _. destruct X. auto.
Qed.
Print Assumptions c12_resize_max_exact_partial.

Definition demo_e : cb nat := CB [Uninit; Uninit] 1 1.
Lemma demo_e_reachable : reachable E0r demo_e.
Proof.
  apply (@r_call nat E0r never OPopBack (CB [Uninit; Init 4] 1 0) demo_e [] (Ret (ROpt (Some 4)))); [|exact I|reflexivity].
  apply (@r_call nat E0r never (OPushFront 4) (CB [Uninit; Uninit] 0 0) _ [] (Ret RUnit)); [|exact I|reflexivity].
  apply (@r_new nat E0r 1); [apply Nat.leb_le|]; reflexivity.
Qed.
Example c12_ex_max : shows E0r demo_e 1 [] /\ resize E0r never 1000 demo_e = (CB [] 0 0, [], Ret tt) /\
  snd (push_back E0r never 7 (CB [] 0 0)) = Panic.
Proof. repeat split. Qed.

(** ** C17 *)
(** [new] for every capacity a program can ask for *)
Theorem c17_new_every_capacity_partial : forall T E k, indexable T E -> 0 < usize_max E -> k <= usize_max E ->
  (k + 1 <= alloc_max E -> exists c, new T E k = Ret c /\ reachable E c /\ shows E c k []) /\
  (alloc_max E < k + 1 -> k < usize_max E \/ debug_build E = true -> new T E k = Panic) /\
  (k = usize_max E -> debug_build E = false ->
     exists c, new T E k = Ret c /\ shows E c k [] /\ barren E c).
Proof.
  intros T E k HE HU Hk. pose proof HE as [Hau _]. split; [|split].
  - intros L. destruct (new_ok HE k L) as (c & H & Hm). exists c. split; auto. split; [eapply r_new; eauto|]. exact (matches_shows Hm).
  - intros L D. unfold new, with_capacity, uadd. destruct (Nat.leb_spec (k + 1) (usize_max E)).
    + cbn [obind]. unfold vec_with_capacity. rewrite (proj2 (Nat.leb_gt _ _)) by lia. reflexivity.
    + destruct D as [D|D]; [lia|]. rewrite D. reflexivity.
  - intros -> D. exists (CB [] 0 0). split; [|split; [|apply hollow_barren; auto]].
    + unfold new, with_capacity, uadd. rewrite (proj2 (Nat.leb_gt _ _)), D by lia.
      replace (usize_max E + 1 - S (usize_max E)) with 0 by lia. reflexivity.
    + split; [|reflexivity]. unfold capacity, usub; cbn. rewrite D. f_equal. lia.
Qed.
Print Assumptions c17_new_every_capacity_partial.

(** ** C82 *)
(** Whatever capacities are asked for, no call ever reads uninitialised memory
    or fails to end; it aborts only if a destructor panics. *)
Theorem c82_no_undefined_behaviour : forall T E (dp : T -> bool) o c c' dr r,
  indexable T E -> 0 < usize_max E -> obtained E c -> op_usize E o -> cb_step E dp o c = (c', dr, r) -> safe_end dp dr r.
Proof. intros T E dp o c c' dr r HE HU H Ho Hs. exact (proj2 (good_step HE HU dp o (obtained_good HE HU H) Ho Hs)). Qed.
Print Assumptions c82_no_undefined_behaviour.

(** the same for [append], also of a buffer that never took an element *)
Theorem c82_append_no_undefined_behaviour : forall T E (dp : T -> bool) c1 c2 s dr r,
  indexable T E -> 0 < usize_max E -> obtained E c1 -> obtained E c2 -> append E dp (c1, c2) = (s, dr, r) -> safe_end dp dr r.
Proof.
  intros T E dp c1 c2 s dr r HE HU H1 H2 H.
  exact (proj2 (proj2 (append_good HE HU dp (obtained_good HE HU H1) (obtained_good HE HU H2) H))).
Qed.
Print Assumptions c82_append_no_undefined_behaviour.

(** A buffer is one covered by the other properties, or a useless one; the
    latter only without overflow checks. *)
Theorem c82_sound_or_barren : forall T E (c : cb T),
  indexable T E -> 0 < usize_max E -> obtained E c -> reachable E c \/ barren E c.
Proof. intros T E c HE HU H. destruct (obtained_good HE HU H); auto. right. apply hollow_barren; auto. Qed.
Print Assumptions c82_sound_or_barren.

Theorem c82_checked_builds_are_sound : forall T E (c : cb T),
  indexable T E -> 0 < usize_max E -> debug_build E = true -> obtained E c -> reachable E c.
Proof. exact (fun T E c HE HU D => @obtained_checked T E HE HU D c). Qed.
Print Assumptions c82_checked_builds_are_sound.

(** a useless buffer whose ends have run away, and one brought back to use *)
Definition barren_ops : list (op nat) := [OPushFront 4; OPopBack; OPushFront 5; OLen; OIter; OClear; OReverse].
Example c82_ex : exists c, new nat E0r 1000 = Ret c /\
  cb_run E0r never barren_ops c =
    (CB [] 999 999, [([], Panic); ([], Panic); ([], Panic); ([], Ret (RNat 1)); ([], Panic); ([], Panic); ([], Ret RUnit)]) /\
  shows E0r (fst (fst (resize E0r never 3 c))) 3 [] /\ iter (fst (fst (push_back E0r never 8 (fst (fst (resize E0r never 3 c)))))) = Ret [8].
Proof. eexists. repeat split. Qed.
