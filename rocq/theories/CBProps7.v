(** Property theorem C105: what the comparisons of circular buffers ask about the
    elements, whatever is answered. *)
From Verif Require Import Base CBSpec CBModel CBRun CBModel5 CBSpec4 CBProofs12 CBProps.
Local Open Scope list_scope.
Local Open Scope outcome_scope.

(** ** C105 *)
(** [==]: elements at equal positions, in order, up to the first [false]; [true]
    only if nothing is left over *)
Theorem c105_eq_asks_pairwise : forall T E1 E2 early elems (a b : cb T) ka la kb lb r tr,
  shows E1 a ka la -> shows E2 b kb lb -> held elems [] (cb_eq_d early a b) = (r, tr) ->
  pairwise (fun x => x = true) la lb tr /\ length tr <= Nat.min (length la) (length lb) /\
  (early = true -> length la <> length lb -> tr = []) /\
  match r with
  | Ret true => length la = length lb /\ exhausted (fun x => x = true) la lb tr
  | Ret false => ends_with (Some false) tr \/ length la <> length lb /\ (early = true \/ exhausted (fun x => x = true) la lb tr)
  | Panic => ends_with None tr
  | _ => False
  end.
Proof.
  assert (H : forall T early elems (la lb : list T) r tr, held elems [] (iter_eq_d early la lb) = (r, tr) ->
    pairwise (fun x => x = true) la lb tr /\ length tr <= Nat.min (length la) (length lb) /\
    (early = true -> length la <> length lb -> tr = []) /\
    match r with
    | Ret true => length la = length lb /\ exhausted (fun x => x = true) la lb tr
    | Ret false => ends_with (Some false) tr \/ length la <> length lb /\ (early = true \/ exhausted (fun x => x = true) la lb tr)
    | Panic => ends_with None tr
    | _ => False
    end).
  { intros T early elems la lb r tr. unfold iter_eq_d. destruct (Nat.eqb_spec (length la) (length lb)) as [L|L]; cbn [negb].
    all: assert (S : forall x, eq_stop x = None <-> x = true) by (intros []; cbn; split; congruence).
    all: assert (M : held elems [] (iter_eq_from la lb) = (r, tr) -> pairwise (fun x => x = true) la lb tr /\
      match r with
      | Ret v => (exhausted (fun x => x = true) la lb tr /\ v = is_eq (Nat.compare (length la) (length lb))) \/ (ends_with (Some false) tr /\ v = false)
      | Panic => ends_with None tr
      | _ => False
      end).
    1,3: rewrite eq_pw; intros X; destruct (pw_ok _ _ _ _ _ _ X) as [[P1 P2] P3]; split;
      [split; [exact P1|]; intros p e q Q N; destruct (P2 p e q Q N) as (x & Hx & Gx); exists x; rewrite <- S; auto|];
      destruct r as [v| | | |]; auto; destruct P3 as [[[Q1 Q2] Q3]|([] & Q & Q3)]; [left|discriminate Q3|right; injection Q3 as <-; auto];
      split; [|exact Q3]; split; [exact Q1|]; eapply Forall_impl; [|exact Q2]; intros e (x & Hx & Gx); exists x; rewrite <- S; auto.
    - rewrite andb_false_r. intros X. destruct (M X) as [P1 P3]. split; [exact P1|]. split; [exact (pairwise_short P1)|]. split; [contradiction|].
      destruct r as [[]| | | |]; auto; destruct P3 as [[Q1 Q2]|[Q1 Q2]]; auto; try discriminate Q2. rewrite L, Nat.compare_refl in Q2. discriminate Q2.
    - rewrite andb_true_r. destruct early.
      + cbn. intros X; injection X as <- <-. split; [split; [reflexivity|intros [|]; discriminate]|]. split; [cbn; lia|]. split; [auto|]. right. auto.
      + intros X. destruct (M X) as [P1 P3]. split; [exact P1|]. split; [exact (pairwise_short P1)|]. split; [discriminate|].
        destruct r as [[]| | | |]; auto; destruct P3 as [[Q1 Q2]|[Q1 Q2]]; auto; try discriminate Q2.
        split; [|exact Q1]. symmetry in Q2. unfold is_eq in Q2. destruct (Nat.compare_spec (length la) (length lb)); [assumption|discriminate..]. }
  intros T E1 E2 early elems a b ka la kb lb r tr Sa Sb. unfold cb_eq_d. rewrite (both_shows _ Sa Sb). apply H.
Qed.
Print Assumptions c105_eq_asks_pairwise.

(** likewise against a slice: it is compared as a buffer of the same elements is *)
Theorem c105_eq_slice_asks_pairwise : forall T E1 E2 early elems (a b : cb T) ka la kb lb,
  shows E1 a ka la -> shows E2 b kb lb ->
  held elems [] (cb_eq_slice_d early a lb) = held elems [] (cb_eq_d early a b).
Proof.
  intros T E1 E2 early elems a b ka la kb lb Sa Sb. unfold cb_eq_d. rewrite (both_shows _ Sa Sb). destruct Sa as [_ Sa]. unfold cb_eq_slice_d. now rewrite Sa.
Qed.
Print Assumptions c105_eq_slice_asks_pairwise.

(** [cmp]: up to the first answer other than [Equal], which is the result; the
    lengths decide if there is none *)
Theorem c105_cmp_asks_pairwise : forall T E1 E2 elems (a b : cb T) ka la kb lb r tr,
  shows E1 a ka la -> shows E2 b kb lb -> held elems [] (cb_cmp_d a b) = (r, tr) ->
  pairwise (fun x => x = Eq) la lb tr /\ length tr <= Nat.min (length la) (length lb) /\
  match r with
  | Ret v => exhausted (fun x => x = Eq) la lb tr /\ v = Nat.compare (length la) (length lb) \/ v <> Eq /\ ends_with (Some v) tr
  | Panic => ends_with None tr
  | _ => False
  end.
Proof.
  intros T E1 E2 elems a b ka la kb lb r tr Sa Sb. unfold cb_cmp_d. rewrite (both_shows _ Sa Sb), cmp_pw. intros X.
  assert (S : forall x, cmp_stop x = None <-> x = Eq) by (intros []; cbn; split; congruence).
  destruct (pw_ok _ _ _ _ _ _ X) as [[P1 P2] P3]. assert (P : pairwise (fun x => x = Eq) la lb tr).
  { split; [exact P1|]. intros p e q Q N; destruct (P2 p e q Q N) as (x & Hx & Gx); exists x; rewrite <- S; auto. }
  split; [exact P|]. split; [exact (pairwise_short P)|]. destruct r as [v| | | |]; auto. destruct P3 as [[[Q1 Q2] Q3]|(x & Q & Q3)].
  - left. split; [|exact Q3]. split; [exact Q1|]. eapply Forall_impl; [|exact Q2]. intros e (x & Hx & Gx); exists x; rewrite <- S; auto.
  - right. destruct x; try discriminate Q3; injection Q3 as <-; (split; [discriminate|exact Q]).
Qed.
Print Assumptions c105_cmp_asks_pairwise.

(** [partial_cmp]: likewise, "not comparable" ending it too *)
Theorem c105_partial_cmp_asks_pairwise : forall T E1 E2 elems (a b : cb T) ka la kb lb r tr,
  shows E1 a ka la -> shows E2 b kb lb -> held elems [] (cb_partial_cmp_d a b) = (r, tr) ->
  pairwise (fun x => x = Some Eq) la lb tr /\ length tr <= Nat.min (length la) (length lb) /\
  match r with
  | Ret v => exhausted (fun x => x = Some Eq) la lb tr /\ v = Some (Nat.compare (length la) (length lb)) \/ v <> Some Eq /\ ends_with (Some v) tr
  | Panic => ends_with None tr
  | _ => False
  end.
Proof.
  intros T E1 E2 elems a b ka la kb lb r tr Sa Sb. unfold cb_partial_cmp_d. rewrite (both_shows _ Sa Sb), pc_pw. intros X.
  assert (S : forall x, pc_stop x = None <-> x = Some Eq) by (intros [[]|]; cbn; split; congruence).
  destruct (pw_ok _ _ _ _ _ _ X) as [[P1 P2] P3]. assert (P : pairwise (fun x => x = Some Eq) la lb tr).
  { split; [exact P1|]. intros p e q Q N; destruct (P2 p e q Q N) as (x & Hx & Gx); exists x; rewrite <- S; auto. }
  split; [exact P|]. split; [exact (pairwise_short P)|]. destruct r as [v| | | |]; auto. destruct P3 as [[[Q1 Q2] Q3]|(x & Q & Q3)].
  - left. split; [|exact Q3]. split; [exact Q1|]. eapply Forall_impl; [|exact Q2]. intros e (x & Hx & Gx); exists x; rewrite <- S; auto.
  - right. destruct x as [[]|]; try discriminate Q3; injection Q3 as <-; (split; [discriminate|exact Q]).
Qed.
Print Assumptions c105_partial_cmp_asks_pairwise.

(** the operators ask what [==], [partial_cmp] and [cmp] ask, and read their result;
    [max] takes the second of two equal buffers, [min] the first *)
Theorem c105_operators_ask_the_same : forall T early elems pelems celems (a b : cb T),
  (forall v tr, held elems [] (cb_eq_d early a b) = (Ret v, tr) -> held elems [] (cb_ne_d early a b) = (Ret (negb v), tr)) /\
  (forall v tr, held pelems [] (cb_partial_cmp_d a b) = (Ret v, tr) ->
     exists lt le gt ge, held pelems [] (cb_lt_d a b) = (Ret lt, tr) /\ held pelems [] (cb_le_d a b) = (Ret le, tr) /\
       held pelems [] (cb_gt_d a b) = (Ret gt, tr) /\ held pelems [] (cb_ge_d a b) = (Ret ge, tr) /\
       (lt = true <-> v = Some Lt) /\ (gt = true <-> v = Some Gt) /\
       (le = true <-> v = Some Lt \/ v = Some Eq) /\ (ge = true <-> v = Some Gt \/ v = Some Eq)) /\
  (forall v tr, held celems [] (cb_cmp_d a b) = (Ret v, tr) ->
     exists mx mn, held celems [] (cb_max_d a b) = (Ret mx, tr) /\ held celems [] (cb_min_d a b) = (Ret mn, tr) /\
       (mx = false <-> v = Gt) /\ (mn = true <-> v = Gt)) /\
  (forall tr, held elems [] (cb_eq_d early a b) = (Panic, tr) -> held elems [] (cb_ne_d early a b) = (Panic, tr)) /\
  (forall tr, held pelems [] (cb_partial_cmp_d a b) = (Panic, tr) ->
     held pelems [] (cb_lt_d a b) = (Panic, tr) /\ held pelems [] (cb_le_d a b) = (Panic, tr) /\
     held pelems [] (cb_gt_d a b) = (Panic, tr) /\ held pelems [] (cb_ge_d a b) = (Panic, tr)) /\
  (forall tr, held celems [] (cb_cmp_d a b) = (Panic, tr) ->
     held celems [] (cb_max_d a b) = (Panic, tr) /\ held celems [] (cb_min_d a b) = (Panic, tr)).
Proof.
  intros T early elems pelems celems a b. unfold cb_ne_d, cb_lt_d, cb_le_d, cb_gt_d, cb_ge_d, cb_max_d, cb_min_d. rewrite !held_map.
  repeat split; intros; try (match goal with H : held _ _ _ = _ |- _ => rewrite H end; reflexivity).
  - rewrite H. cbn [fst snd omap]. do 4 eexists. do 4 (split; [reflexivity|]). destruct v as [[]|]; repeat split; intros; try discriminate; auto;
      try (destruct H0; discriminate).
  - rewrite H. cbn [fst snd omap]. do 2 eexists. do 2 (split; [reflexivity|]). destruct v; repeat split; intros; try discriminate; auto.
Qed.
Print Assumptions c105_operators_ask_the_same.

(** elements that answer the same each time: the comparisons of C14 *)
Theorem c105_steady_answers : forall T E1 E2 early peq pc cmp (a b : cb T) ka la kb lb,
  shows E1 a ka la -> shows E2 b kb lb ->
  fst (held (fun _ x y => Some (peq x y)) [] (cb_eq_d early a b)) = cb_eq peq a b /\
  fst (held (fun _ x y => Some (peq x y)) [] (cb_eq_slice_d early a lb)) = cb_eq_slice peq a lb /\
  fst (held (fun _ x y => Some (pc x y)) [] (cb_partial_cmp_d a b)) = cb_partial_cmp pc a b /\
  fst (held (fun _ x y => Some (cmp x y)) [] (cb_cmp_d a b)) = cb_cmp cmp a b.
Proof.
  intros T E1 E2 early peq pc cmp a b ka la kb lb Sa Sb.
  assert (Q : forall la lb, fst (held (fun _ x y => Some (peq x y)) [] (iter_eq_d early la lb)) = Ret (iter_eq peq la lb)).
  { intros l l'. unfold iter_eq_d. destruct (Nat.eqb_spec (length l) (length l')) as [L|L]; cbn [negb]; rewrite ?andb_false_r, ?andb_true_r; [apply eq_steady|].
    destruct early; [|apply eq_steady]. cbn. now rewrite eq_length. }
  unfold cb_eq_d, cb_partial_cmp_d, cb_cmp_d. rewrite !(both_shows _ Sa Sb). destruct Sa as [_ Sa], Sb as [_ Sb].
  unfold cb_eq_slice_d, cb_eq, cb_eq_slice, cb_partial_cmp, cb_cmp. rewrite Sa, Sb. cbn [obind].
  split; [apply Q|]. split; [apply Q|]. split; [apply pc_steady|apply cmp_steady].
Qed.
Print Assumptions c105_steady_answers.

(** elements whose answers change: [==] of a buffer with itself first says yes, then
    no; a panic at the third element; a difference in length is seen at the end or,
    in newer std, at once *)
Definition tired (n : nat) (before : list (nat * nat * option bool)) (x y : nat) : option bool :=
  if length before <? n then Some (x =? y) else if length before =? n then Some false else None.
Definition bad_third (before : list (nat * nat * option bool)) (x y : nat) : option bool :=
  if length before <? 2 then Some true else None.
Example c105_ex :
  held (tired 1) [] (cb_eq_d false demo demo) = (Ret false, [(3, 3, Some true); (4, 4, Some false)]) /\
  held (tired 3) [] (cb_eq_d false demo demo) = (Ret true, [(3, 3, Some true); (4, 4, Some true); (6, 6, Some true)]) /\
  held bad_third [] (cb_ne_d false demo demo) = (Panic, [(3, 3, Some true); (4, 4, Some true); (6, 6, None)]) /\
  held bad_third [] (cb_eq_d false demo demo2) = (Ret false, [(3, 7, Some true); (4, 8, Some true)]) /\
  held bad_third [] (cb_eq_d true demo demo2) = (Ret false, []) /\
  held bad_third [] (cb_eq_slice_d false demo [9; 8]) = (Ret false, [(3, 9, Some true); (4, 8, Some true)]).
Proof. repeat split. Qed.
(** elements that are not comparable, or all equal *)
Example c105_ex_order :
  held (fun _ x y => Some (if x =? 4 then None else Some Eq)) [] (cb_le_d demo demo) = (Ret false, [(3, 3, Some (Some Eq)); (4, 4, Some None)]) /\
  held (fun _ x y => Some Eq) [] (cb_cmp_d demo demo2) = (Ret Gt, [(3, 7, Some Eq); (4, 8, Some Eq)]) /\
  held (fun _ x y => Some Eq) [] (cb_max_d demo demo2) = (Ret false, [(3, 7, Some Eq); (4, 8, Some Eq)]) /\
  held (fun bf x y => if length bf =? 0 then Some Eq else None) [] (cb_cmp_d demo demo2) = (Panic, [(3, 7, Some Eq); (4, 8, None)]).
Proof. repeat split. Qed.
