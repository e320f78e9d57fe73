(** Property theorems C96: counters of keys whose [Eq] and [Hash] answer otherwise
    at every lookup, also within one call. *)
From Coq Require Import Permutation.
From Verif Require Import Base HMModel CTModel CTModel4 CTSpec CTSpec3 CTSpec4 CTRun CTRun2 CTRun3 CTProofs4 CTProps CTProps4.
Local Open Scope list_scope.

(** ** C96 *)
(** Keys that answer alike at every lookup: the calls of [CTModel]. *)
Lemma loop_alike S A B (f : A -> B) (g : B -> S -> S * outcome unit) l : forall s,
  for_each g (map f l) s = for_each (fun a => g (f a)) l s.
Proof. induction l as [|a l IH]; intros s; cbn; auto. destruct (g (f a) s) as [s' [[]| | | |]]; auto. Qed.
Lemma loop_ext S A (f g : A -> S -> S * outcome unit) l : (forall a s, f a s = g a s) -> forall s, for_each f l s = for_each g l s.
Proof. intros H. induction l as [|a l IH]; intros s; cbn; auto. rewrite H. destruct (g a s) as [s' [[]| | | |]]; auto. Qed.

Theorem c96_unchanging_equality : forall K (eqb : K -> K -> bool) cl E,
  let fixed A := map (pair eqb : A -> _) in
  (forall h xs c, ct_extend_q E h (fixed K xs) c = ct_extend eqb E h xs c) /\
  (forall h xs c, ct_extend_ref_q E h (fixed K xs) c = ct_extend_ref eqb E h xs c) /\
  (forall h xs, ct_from_iter_q E h (fixed K xs) = ct_from_iter eqb E h xs) /\
  (forall h xs, ct_from_iter_ref_q cl E h (fixed K xs) = ct_from_iter_ref eqb cl E h xs) /\
  (forall l c, ct_add_assign_q E (fixed _ l) c = ct_add_assign eqb E l c /\ ct_add_q E c (fixed _ l) = ct_add eqb E c l) /\
  (forall l c, ct_add_assign_ref_q cl E (fixed _ l) c = ct_add_assign_ref eqb cl E l c /\ ct_add_ref_q cl E c (fixed _ l) = ct_add_ref eqb cl E c l) /\
  (forall l c, ct_sub_assign_q E (fixed _ l) c = ct_sub_assign eqb E l c /\ ct_sub_q E c (fixed _ l) = ct_sub eqb E c l) /\
  (forall l c, ct_sub_assign_ref_q cl E (fixed _ l) c = ct_sub_assign_ref eqb cl E l c /\ ct_sub_ref_q cl E c (fixed _ l) = ct_sub_ref eqb cl E c l) /\
  (forall l, ct_from_q E (fixed _ l) = ct_from eqb E l /\ ct_from_ref_q cl E (fixed _ l) = ct_from_ref eqb cl E l).
Proof.
  intros K eqb cl E fixed. unfold fixed. clear fixed.
  assert (P : forall xs (c : counter K), for_each (ct_push_q E) (map (pair eqb) xs) c = for_each (ct_push eqb E) xs c).
  { intros xs c. now rewrite loop_alike. }
  assert (C : forall l, hm_collect_q E (map (pair eqb) l) = hm_collect eqb E l).
  { intros l. unfold hm_collect_q, hm_collect. rewrite map_length. destruct (hm_reserve _ _ _); auto. now rewrite loop_alike. }
  repeat split; intros.
  - unfold ct_extend_q, ct_extend. now rewrite P.
  - unfold ct_extend_ref_q, ct_extend_ref. now rewrite !map_id, P.
  - unfold ct_from_iter_q, ct_from_iter. destruct (ct_with_capacity _ _ _); cbn; auto. now rewrite P.
  - unfold ct_from_iter_ref_q, ct_from_iter_ref. destruct (ct_with_capacity _ _ _); cbn; auto.
    rewrite map_map. replace (map (fun x => clone_item cl (eqb, x)) xs) with (map (pair eqb) (map cl xs)) by now rewrite map_map.
    now rewrite P.
  - unfold ct_add_assign_q, ct_add_assign. now rewrite loop_alike.
  - unfold ct_add_q, ct_add, ct_add_assign_q, ct_add_assign. now rewrite loop_alike.
  - unfold ct_add_assign_ref_q, ct_add_assign_ref. now rewrite loop_alike.
  - unfold ct_add_ref_q, ct_add_ref. now rewrite loop_alike.
  - unfold ct_sub_assign_q, ct_sub_assign. now rewrite loop_alike.
  - unfold ct_sub_q, ct_sub, ct_sub_assign_q, ct_sub_assign. now rewrite loop_alike.
  - unfold ct_sub_assign_ref_q, ct_sub_assign_ref. now rewrite loop_alike.
  - unfold ct_sub_ref_q, ct_sub_ref. now rewrite loop_alike.
  - unfold ct_from_q, ct_from. now rewrite C.
  - unfold ct_from_ref_q, ct_from_ref. rewrite <- (C (map _ l)), !map_map. reflexivity.
Qed.
Print Assumptions c96_unchanging_equality.

Notation q_total l := (total (map snd l)).

Lemma bumps_q K E (l : list ((K -> K -> bool) * (K * nat))) : forall (c c' : counter K) r,
  usizes E (map snd l) -> debug_build E = true \/ total (ct_map c) + q_total l <= usize_max E ->
  for_each (fun e => ct_bump (fst e) E (fst (snd e)) (snd (snd e))) l c = (c', r) ->
  r = Ret tt /\ each_q (@adds K) l (ct_map c) (ct_map c') \/
  r = Panic /\ exists l1 q k n l2, l = l1 ++ (q, (k, n)) :: l2 /\ each_q (@adds K) l1 (ct_map c) (ct_map c') /\ stuck q E k n (ct_map c').
Proof.
  induction l as [|[q [k n]] l IH]; intros c c' r U B; cbn [for_each fst snd].
  - intros X; injection X as <- <-. left. split; auto. constructor.
  - cbn [map snd] in U, B. inversion U as [|? ? U1 U2]; subst. cbn in U1. rewrite total_cons in B. cbn [snd] in B.
    destruct (ct_bump q E k n c) as [c1 r1] eqn:H.
    assert (B1 : debug_build E = true \/ total (ct_map c) + n <= usize_max E) by (destruct B; [left; auto|right; lia]).
    destruct (bump_lawless _ _ _ _ _ _ _ _ U1 B1 H) as [[-> A]|(-> & -> & S)].
    + intros X. pose proof (adds_total _ _ _ _ _ _ A) as T.
      assert (B2 : debug_build E = true \/ total (ct_map c1) + q_total l <= usize_max E) by (destruct B; [left; auto|right; lia]).
      destruct (IH _ _ _ U2 B2 X) as [[-> Y]|(-> & l1 & q' & k' & n' & l2 & -> & Y & Z)].
      * left. split; auto. econstructor; eauto.
      * right. split; auto. exists ((q, (k, n)) :: l1), q', k', n', l2. split; auto. split; auto. econstructor; eauto.
    + intros X; injection X as <- <-. right. split; auto. exists [], q, k, n, l. split; auto. split; auto. constructor.
Qed.

Lemma push_loop_q K E (xs : list ((K -> K -> bool) * K)) (c : counter K) :
  for_each (ct_push_q E) xs c =
  for_each (fun e => ct_bump (fst e) E (fst (snd e)) (snd (snd e))) (map (fun x => (fst x, (snd x, 1))) xs) c.
Proof. now rewrite loop_alike. Qed.
Lemma ref_loop_q K (cl : K -> K) (f : (K -> K -> bool) -> K -> nat -> counter K -> counter K * outcome unit) l (c : counter K) :
  for_each (fun e => f (fst e) (cl (fst (snd e))) (snd (snd e))) l c =
  for_each (fun e => f (fst e) (fst (snd e)) (snd (snd e))) (map (fun e => (fst e, (cl (fst (snd e)), snd (snd e)))) l) c.
Proof. now rewrite loop_alike. Qed.

Lemma ones_usizes K (E : machine) (xs : list ((K -> K -> bool) * K)) : 1 <= usize_max E ->
  usizes E (map snd (map (fun x => (fst x, (snd x, 1))) xs)).
Proof. intros U. rewrite map_map. apply Forall_map, Forall_forall. cbn. auto. Qed.

Lemma each_under K (step : (K -> K -> bool) -> K -> nat -> list (K * nat) -> list (K * nat) -> Prop) q l m m' :
  each (step q) l m m' -> each_q step (map (pair q) l) m m'.
Proof. induction 1; cbn; econstructor; eauto. Qed.
Lemma pair_snd A B (a : A) (l : list B) : map snd (map (pair a) l) = l.
Proof. rewrite map_map. cbn. apply map_id. Qed.

(** Every counting call adds each number it is handed to one entry that answers
    to the key at that moment, or to a new entry if none does. *)
Theorem c96_every_number_goes_to_one_entry : forall K cl E (o : qop K) l c c' r,
  1 <= usize_max E -> qop_usizes E o -> q_handed cl o = Some l ->
  debug_build E = true \/ total (ct_map c) + q_total l <= usize_max E ->
  ct_step_q cl E o c = (c', r) ->
  (r = Ret RUnit /\ each_q (@adds K) l (ct_map c) (ct_map c')) \/
  (r = Panic /\ q_refused E o (ct_map c) /\ c' = c) \/
  (r = Panic /\ exists l1 q k n l2, l = l1 ++ (q, (k, n)) :: l2 /\ each_q (@adds K) l1 (ct_map c) (ct_map c') /\ stuck q E k n (ct_map c')).
Proof.
  intros K cl E o l c c' r U Ho Hh B H.
  assert (G : forall c1 r1, for_each (fun e => ct_bump (fst e) E (fst (snd e)) (snd (snd e))) l c = (c1, r1) -> usizes E (map snd l) ->
    c' = c1 -> r = omap (fun _ => RUnit) r1 ->
    (r = Ret RUnit /\ each_q (@adds K) l (ct_map c) (ct_map c')) \/
    (r = Panic /\ q_refused E o (ct_map c) /\ c' = c) \/
    (r = Panic /\ exists l1 q k n l2, l = l1 ++ (q, (k, n)) :: l2 /\ each_q (@adds K) l1 (ct_map c) (ct_map c') /\ stuck q E k n (ct_map c'))).
  { intros c1 r1 X V -> ->. destruct (bumps_q _ _ _ _ _ _ V B X) as [[-> Y]|[-> Y]]; cbn; auto. }
  destruct o as [h xs|h xs|l0|l0|l0|l0|q o]; cbn in Hh; try discriminate; try injection Hh as <-; cbn [ct_step_q] in H; unfold unit_out in H.
  - unfold ct_extend_q, hm_reserve in H. destruct (Nat.leb_spec (length (ct_map c) + h) (alloc_max E)).
    + rewrite push_loop_q in H. destruct (for_each _ _ _) as [c1 r1] eqn:P. injection H as <- <-. eapply G; eauto using ones_usizes.
    + injection H as <- <-. right; left. cbn. auto.
  - unfold ct_extend_ref_q, hm_reserve in H. rewrite map_id in H. destruct (Nat.leb_spec (length (ct_map c) + h) (alloc_max E)).
    + rewrite push_loop_q in H. destruct (for_each _ _ _) as [c1 r1] eqn:P. injection H as <- <-. eapply G; eauto using ones_usizes.
    + injection H as <- <-. right; left. cbn. auto.
  - unfold ct_add_assign_q in H. destruct (for_each _ _ _) as [c1 r1] eqn:P. injection H as <- <-. eapply G; eauto.
  - unfold ct_add_assign_ref_q in H. rewrite (ref_loop_q _ cl (fun q k n => ct_bump q E k n)) in H.
    destruct (for_each _ _ _) as [c1 r1] eqn:P. injection H as <- <-. eapply G; eauto.
    cbn in Ho. unfold usizes in *. rewrite Forall_map in *. rewrite Forall_map. cbn. eapply Forall_impl; [|exact Ho]. auto.
  - destruct (handed cl o) as [l0|] eqn:Hl; [|discriminate]. cbn in Hh. injection Hh as <-. rewrite pair_snd in B.
    destruct (c94_every_number_goes_to_one_entry _ _ _ _ _ _ _ _ _ U Ho Hl B H) as [[-> Y]|[(-> & Y & ->)|(-> & l1 & k & n & l2 & -> & Y & Z)]].
    + left. split; auto. now apply each_under.
    + right; left. auto.
    + right; right. split; auto. exists (map (pair q) l1), q, k, n, (map (pair q) l2). rewrite map_app. split; auto. split; auto. now apply each_under.
Qed.
Print Assumptions c96_every_number_goes_to_one_entry.

Lemma each_q_adds_total K l (m m' : list (K * nat)) : each_q (@adds K) l m m' -> total m' = total m + q_total l.
Proof. induction 1 as [|q k n l m1 m2 m3 A _ IH]; cbn [map snd]; [unfold total; cbn; lia|]. apply adds_total in A. rewrite total_cons. cbn [snd]. lia. Qed.

(** However the lookups are answered, no count is lost or counted twice. *)
Theorem c96_total_is_conserved : forall K cl E (ops : list (qop K)) ls c c' tr,
  1 <= usize_max E -> Forall (qop_usizes E) ops -> Forall2 (fun o l => q_handed cl o = Some l) ops ls ->
  ct_run_q cl E ops c = (c', tr) -> Forall (fun r => r = Ret RUnit) tr ->
  debug_build E = true \/ total (ct_map c) + q_total (concat ls) <= usize_max E ->
  total (ct_map c') = total (ct_map c) + q_total (concat ls).
Proof.
  intros K cl E ops. induction ops as [|o ops IH]; intros ls c c' tr U F N H R B; inversion N as [|? l ? ls' N1 N2]; subst; cbn in H.
  - injection H as <- _. cbn. unfold total. cbn. lia.
  - destruct (ct_step_q cl E o c) as [c1 r1] eqn:S. destruct (ct_run_q cl E ops c1) as [c2 tr2] eqn:Q. injection H as <- <-.
    inversion R as [|? ? R1 R2]; subst. inversion F as [|? ? F1 F2]; subst. cbn [concat] in *. rewrite map_app, total_app in *.
    assert (B1 : debug_build E = true \/ total (ct_map c) + q_total l <= usize_max E) by (destruct B; [left; auto|right; lia]).
    destruct (c96_every_number_goes_to_one_entry _ _ _ _ _ _ _ _ U F1 N1 B1 S) as [[_ A]|[(A & _)|(A & _)]]; try discriminate.
    apply each_q_adds_total in A. rewrite (IH ls' c1 c2 tr2); auto; [lia|]. destruct B as [B|B]; auto. right; lia.
Qed.
Print Assumptions c96_total_is_conserved.

(** Collecting counts every item once. *)
Theorem c96_from_iter_total_is_length : forall K cl E hint (xs : list ((K -> K -> bool) * K)) c,
  1 <= usize_max E -> debug_build E = true \/ length xs <= usize_max E ->
  ct_from_iter_q E hint xs = Ret c \/ ct_from_iter_ref_q cl E hint xs = Ret c -> total (ct_map c) = length xs.
Proof.
  intros K cl E hint xs c U B H.
  assert (G : forall ys, length ys = length xs -> finish (for_each (ct_push_q E) ys (Counter [])) = Ret c -> total (ct_map c) = length xs).
  { intros ys L X. rewrite push_loop_q in X. destruct (for_each _ _ _) as [c1 r1] eqn:P. unfold finish in X. cbn in X.
    assert (T : q_total (map (fun x : (K -> K -> bool) * K => (fst x, (snd x, 1))) ys) = length xs).
    { rewrite <- L. unfold total. rewrite !map_map. cbn. clear. induction ys; cbn; auto. }
    assert (B' : debug_build E = true \/ total (ct_map (Counter (@nil (K * nat)))) + q_total (map (fun x : (K -> K -> bool) * K => (fst x, (snd x, 1))) ys) <= usize_max E) by (rewrite T; exact B).
    destruct (bumps_q _ _ _ _ _ _ (ones_usizes _ E ys U) B' P) as [[-> Y]|[-> _]]; [|discriminate].
    cbn in X. injection X as <-. apply each_q_adds_total in Y. rewrite Y, T. reflexivity. }
  unfold ct_from_iter_q, ct_from_iter_ref_q, ct_with_capacity, hm_reserve in H. destruct (_ <=? _) in H; cbn [obind] in H; [|destruct H; discriminate].
  destruct H as [H|H]; [apply (G xs); auto|apply (G (map (clone_item cl) xs)); auto using map_length].
Qed.
Print Assumptions c96_from_iter_total_is_length.

(** Subtraction takes each number from one entry that answers at that moment. *)
Theorem c96_subtraction_takes_from_one_entry_each : forall K cl E (o : qop K) l c c' r,
  q_taken cl o = Some l -> ct_step_q cl E o c = (c', r) ->
  (r = Ret RUnit /\ each_q (@takes K) l (ct_map c) (ct_map c')) \/
  (r = Panic /\ exists l1 q k n l2, l = l1 ++ (q, (k, n)) :: l2 /\ each_q (@takes K) l1 (ct_map c) (ct_map c') /\
     (forall e, In e (ct_map c') -> q k (fst e) = false) /\ alloc_max E <= length (ct_map c')).
Proof.
  intros K cl E o l c c' r Hl H.
  assert (G : forall (l : list ((K -> K -> bool) * (K * nat))) c c1 r1, for_each (fun e => ct_lower (fst e) E (fst (snd e)) (snd (snd e))) l c = (c1, r1) ->
    (r1 = Ret tt /\ each_q (@takes K) l (ct_map c) (ct_map c1)) \/
    (r1 = Panic /\ exists l1 q k n l2, l = l1 ++ (q, (k, n)) :: l2 /\ each_q (@takes K) l1 (ct_map c) (ct_map c1) /\
     (forall e, In e (ct_map c1) -> q k (fst e) = false) /\ alloc_max E <= length (ct_map c1))).
  { clear. induction l as [|[q [k n]] l IH]; intros c c1 r1; cbn [for_each fst snd].
    - intros X; injection X as <- <-. left. split; auto. constructor.
    - destruct (ct_lower q E k n c) as [c0 r0] eqn:H. destruct (lower_lawless _ _ _ _ _ _ _ _ H) as [[-> A]|(-> & -> & S)].
      + intros X. destruct (IH _ _ _ X) as [[-> Y]|(-> & l1 & q' & k' & n' & l2 & -> & Y & Z)].
        * left. split; auto. econstructor; eauto.
        * right. split; auto. exists ((q, (k, n)) :: l1), q', k', n', l2. split; auto. split; auto. econstructor; eauto.
      + intros X; injection X as <- <-. right. split; auto. exists [], q, k, n, l. split; auto. split; auto. constructor. }
  destruct o as [h xs|h xs|l0|l0|l0|l0|q o]; cbn in Hl; try discriminate; try injection Hl as <-; cbn [ct_step_q] in H; unfold unit_out in H.
  - unfold ct_sub_assign_q in H. destruct (for_each _ _ _) as [c1 r1] eqn:P. injection H as <- <-. destruct (G _ _ _ _ P) as [[-> Y]|[-> Y]]; cbn; auto.
  - unfold ct_sub_assign_ref_q in H. rewrite (ref_loop_q _ cl (fun q k n => ct_lower q E k n)) in H.
    destruct (for_each _ _ _) as [c1 r1] eqn:P. injection H as <- <-. destruct (G _ _ _ _ P) as [[-> Y]|[-> Y]]; cbn; auto.
  - destruct (taken cl o) as [l0|] eqn:Ht; [|discriminate]. cbn in Hl. injection Hl as <-.
    destruct (c94_subtraction_takes_from_one_entry_each _ _ _ _ _ _ _ _ _ Ht H) as [[-> Y]|(-> & l1 & k & n & l2 & -> & Y & Z)].
    + left. split; auto. now apply each_under.
    + right. split; auto. exists (map (pair q) l1), q, k, n, (map (pair q) l2). rewrite map_app. split; auto. split; auto. now apply each_under.
Qed.
Print Assumptions c96_subtraction_takes_from_one_entry_each.

(** Neither counting nor subtracting leaves an entry with count 0, whether the
    call returns or panics; subtraction removes at most what it is handed. *)
Theorem c96_no_zero_counts : forall K cl E (o : qop K) l c c' r,
  let positive := Forall (fun e : K * nat => 0 < snd e) in
  1 <= usize_max E -> qop_usizes E o -> positive (map snd l) -> positive (ct_map c) ->
  q_handed cl o = Some l /\ (debug_build E = true \/ total (ct_map c) + q_total l <= usize_max E) \/ q_taken cl o = Some l ->
  ct_step_q cl E o c = (c', r) ->
  positive (ct_map c') /\ (q_taken cl o = Some l -> total (ct_map c') <= total (ct_map c) <= total (ct_map c') + q_total l).
Proof.
  intros K cl E o l c c' r positive U Ho Pl Pc Hl H.
  assert (A : forall (q : K -> K -> bool) k n m m', adds q k n m m' -> 0 < n -> positive m -> positive m').
  { intros q k n m m' [m2 _ P|l1 k' v l2 -> _] N Pm.
    - eapply Permutation_Forall; [exact P|]. constructor; auto.
    - apply Forall_app in Pm. destruct Pm as [P1 P2]. inversion P2; subst. apply Forall_app. split; auto. constructor; cbn in *; auto. lia. }
  assert (T : forall (q : K -> K -> bool) k n m m', takes q k n m m' -> positive m -> positive m').
  { intros q k n m m' [_|l1 k' v l2 -> _ L|l1 k' v l2 -> _ L] Pm; auto; apply Forall_app in Pm; destruct Pm as [P1 P2];
      inversion P2; subst; apply Forall_app; split; auto. constructor; cbn in *; auto. lia. }
  assert (GA : forall l m m', each_q (@adds K) l m m' -> positive (map snd l) -> positive m -> positive m').
  { induction 1 as [|q k n l' m1 m2 m3 B _ IH]; auto. cbn. intros Q R. inversion Q; subst. apply IH; auto. eapply A; eauto. }
  assert (GT : forall l m m', each_q (@takes K) l m m' -> (positive m -> positive m') /\ total m' <= total m <= total m' + q_total l).
  { induction 1 as [|q k n l' m1 m2 m3 B _ [IH1 IH2]]; [split; auto; lia|]. cbn [map snd]. rewrite total_cons. cbn [snd].
    pose proof (takes_total _ _ _ _ _ _ B). split; [|lia]. intros X. apply IH1. eapply T; eauto. }
  assert (D : q_taken cl o = Some l -> positive (ct_map c') /\ total (ct_map c') <= total (ct_map c) <= total (ct_map c') + q_total l).
  { intros X. destruct (c96_subtraction_takes_from_one_entry_each _ _ _ _ _ _ _ _ X H) as [[_ Y]|(_ & l1 & q & k & n & l2 & -> & Y & _)];
      destruct (GT _ _ _ Y) as [Z1 Z2]; split; auto. rewrite map_app, total_app. lia. }
  split; [|tauto]. destruct Hl as [[Hl B]|Hl]; [|tauto].
  destruct (c96_every_number_goes_to_one_entry _ _ _ _ _ _ _ _ U Ho Hl B H) as [[_ X]|[(_ & _ & ->)|(_ & l1 & q & k & n & l2 & -> & X & _)]]; auto.
  - exact (GA _ _ _ X Pl Pc).
  - unfold positive in Pl. rewrite map_app, Forall_app in Pl. exact (GA _ _ _ X (proj1 Pl) Pc).
Qed.
Print Assumptions c96_no_zero_counts.

Lemma insert_puts K (q : K -> K -> bool) E k n m m' r : hm_insert q E k n m = (m', r) ->
  (exists v, r = Ret v) /\ puts q k n m m' \/ r = Panic /\ m' = m /\ (forall e, In e m -> q k (fst e) = false) /\ alloc_max E <= length m.
Proof.
  unfold hm_insert, hm_entry. destruct (hm_get q k m) as [v|] eqn:G.
  - destruct (split_entry _ _ _ _ _ G) as (l1 & k' & l2 & M & Q & S & _). intros H; injection H as <- <-. left. split; eauto.
    rewrite S. eapply put_old; eauto.
  - unfold hm_reserve. destruct (Nat.leb_spec (length m + 1) (alloc_max E)); cbn [obind]; intros H'; injection H' as <- <-.
    + left. split; eauto. apply put_new; [apply no_entry; auto|]. reflexivity.
    + right. repeat split; auto; [apply no_entry; auto|lia].
Qed.

(** Converting a map looks up every key once more: an entry that is answered for
    by another one replaces its count, so that the new counter holds at most what
    the map held, and less exactly when something was replaced that counted. *)
Theorem c96_conversion_puts_each_entry : forall K cl E (rhs : list ((K -> K -> bool) * (K * nat))) c,
  (ct_from_q E rhs = Ret c -> each_q (@puts K) rhs [] (ct_map c)) /\
  (ct_from_ref_q cl E rhs = Ret c -> each_q (@puts K) (map (fun e => (fst e, (cl (fst (snd e)), snd (snd e)))) rhs) [] (ct_map c)) /\
  (ct_from_q E rhs = Ret c \/ ct_from_ref_q cl E rhs = Ret c ->
     length (ct_map c) <= length rhs /\ total (ct_map c) <= q_total rhs /\
     (length (ct_map c) = length rhs -> total (ct_map c) = q_total rhs) /\
     (forall e, In e (ct_map c) -> In (snd e) (map (fun e => snd (snd e)) rhs))).
Proof.
  intros K cl E rhs c.
  assert (L : forall l m m' r, for_each (fun e m => match hm_insert (fst e) E (fst (snd e)) (snd (snd e)) m with
      | (m', Ret _) => (m', Ret tt) | (m', _) => (m', Panic) end) l m = (m', r) -> r = Ret tt -> each_q (@puts K) l m m').
  { clear. induction l as [|[q [k n]] l IH]; intros m m' r; cbn [for_each fst snd].
    - intros H _; injection H as <- _. constructor.
    - destruct (hm_insert q E k n m) as [m1 r1] eqn:I. destruct (insert_puts _ _ _ _ _ _ _ _ I) as [[[v ->] P]|(-> & _)].
      + intros H R. econstructor; eauto.
      + intros H R. injection H as _ <-. discriminate. }
  assert (C : forall l, match hm_collect_q E l with (m, o) => obind o (fun _ => Ret (Counter m)) end = Ret c -> each_q (@puts K) l [] (ct_map c)).
  { intros l. unfold hm_collect_q. destruct (hm_reserve _ _ _); try discriminate. destruct (for_each _ _ _) as [m r] eqn:F.
    destruct r as [[]| | | |]; cbn; try discriminate. intros H; injection H as <-. eapply L; eauto. }
  assert (S : forall l m m', each_q (@puts K) l m m' ->
    length m' <= length m + length l /\ total m' <= total m + q_total l /\
    (length m' = length m + length l -> total m' = total m + q_total l) /\
    (forall e, In e m' -> In (snd e) (map snd m) \/ In (snd e) (map (fun e => snd (snd e)) l))).
  { clear. induction 1 as [|q k n l m1 m2 m3 P _ (I1 & I2 & I3 & I4)].
    - cbn. repeat split; auto; try (unfold total; cbn; lia). intros e I. left. now apply in_map.
    - cbn [map snd length]. rewrite total_cons. cbn [snd].
      destruct P as [m' _ P|l1 k' v l2 -> _].
      + pose proof (Permutation_length P) as PL. pose proof (total_perm _ _ _ P) as PT. rewrite total_cons in PT. cbn in PL, PT.
        repeat split; try lia.
        intros e I. destruct (I4 e I) as [J|J]; [|right; right; exact J]. apply (Permutation_in _ (Permutation_sym (Permutation_map snd P))) in J.
        cbn in J. destruct J as [J|J]; [right; left; exact J|left; exact J].
      + rewrite app_length in *. rewrite total_app, total_cons in *. cbn [snd length] in *. repeat split; try lia.
        intros e I. destruct (I4 e I) as [J|J]; [|right; right; exact J]. rewrite map_app in *. apply in_app_or in J. cbn in J.
        destruct J as [J|[J|J]]; [left; apply in_or_app; auto|right; left; exact J|left; apply in_or_app; right; right; exact J]. }
  assert (Z : forall l, each_q (@puts K) l [] (ct_map c) -> length l = length rhs -> q_total l = q_total rhs ->
    map (fun e => snd (snd e)) l = map (fun e => snd (snd e)) rhs ->
     length (ct_map c) <= length rhs /\ total (ct_map c) <= q_total rhs /\
     (length (ct_map c) = length rhs -> total (ct_map c) = q_total rhs) /\
     (forall e, In e (ct_map c) -> In (snd e) (map (fun e => snd (snd e)) rhs))).
  { intros l H A B D. destruct (S _ _ _ H) as (S1 & S2 & S3 & S4). rewrite A, B, D in *. cbn in *. unfold total in *. cbn in *. repeat split; auto.
    intros e I. destruct (S4 e I) as [[]|]; auto. }
  split; [apply C|]. split; [apply C|]. intros [H|H]; apply C in H.
  - apply (Z _ H); auto.
  - apply (Z _ H); [apply map_length| |]; unfold total; now rewrite !map_map.
Qed.
Print Assumptions c96_conversion_puts_each_entry.

(** Conversion, unlike counting, can lose counts. *)
Theorem c96_conversion_keeps_the_total_refuted :
  ~ forall K E (rhs : list ((K -> K -> bool) * (K * nat))) c,
    ct_from_q E rhs = Ret c -> total (ct_map c) = q_total rhs.
Proof.
  intros H. specialize (H key Ec [(unequal, ((1, 0), 3)); (alike, ((2, 0), 4))] (Counter [((1, 0), 4)]) eq_refl). discriminate.
Qed.
Print Assumptions c96_conversion_keeps_the_total_refuted.

Definition c96_counting : list (qop key) :=
  [QExtend 2 [(unequal, (1, 0)); (unequal, (1, 0)); (alike, (7, 0))]; QCall below (OPush (0, 3));
   QAddRef [(below, ((0, 9), 3)); (unequal, ((0, 9), 4)); (alike, ((5, 9), 5))]].
Example c96_ex :
  ct_run_q kcl Ec c96_counting (Counter []) = (Counter [((0, 0), 9); ((1, 0), 6); ((1, 0), 1)], [Ret RUnit; Ret RUnit; Ret RUnit]) /\
  Forall (qop_usizes Ec) c96_counting /\
  Forall2 (fun o l => q_handed kcl o = Some l) c96_counting
    [[(unequal, ((1, 0), 1)); (unequal, ((1, 0), 1)); (alike, ((7, 0), 1))]; [(below, ((0, 3), 1))];
     [(below, ((0, 0), 3)); (unequal, ((0, 0), 4)); (alike, ((5, 0), 5))]] /\
  ct_step_q kcl Ec (QSub [(below, ((0, 0), 2)); (unequal, ((0, 0), 9)); (alike, ((3, 3), 20))]) (Counter [((0, 0), 9); ((1, 0), 6); ((1, 0), 1)]) =
    (Counter [((1, 0), 4); ((1, 0), 1)], Ret RUnit) /\
  ct_from_iter_q Ec 3 [(unequal, (1, 0)); (unequal, (1, 0)); (alike, (1, 0))] = Ret (Counter [((1, 0), 2); ((1, 0), 1)]) /\
  ct_from_ref_q kcl Ec [(unequal, ((1, 8), 3)); (unequal, ((1, 9), 4)); (alike, ((2, 0), 5))] = Ret (Counter [((1, 0), 5); ((1, 0), 3)]).
Proof. split; [reflexivity|]. split; [repeat constructor; apply Nat.leb_le; reflexivity|]. split; [repeat constructor|]. repeat split. Qed.
