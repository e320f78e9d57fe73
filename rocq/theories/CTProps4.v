(** Property theorems C94: counters of keys whose [Eq] and [Hash] break their
    contracts. *)
From Coq Require Import Permutation.
From Verif Require Import Base HMModel CTModel CTSpec CTSpec3 CTRun CTRun2 CTProofs4 CTProps.
Local Open Scope list_scope.

(** ** C94 *)
Lemma split_entry K (eqb : K -> K -> bool) k (m : hmap K nat) n : hm_get eqb k m = Some n ->
  exists l1 k' l2, m = l1 ++ (k', n) :: l2 /\ eqb k k' = true /\
    (forall v, hm_set eqb k v m = l1 ++ (k', v) :: l2) /\ hm_remove eqb k m = l1 ++ l2.
Proof.
  unfold hm_get. induction m as [|[k' v] m IH]; cbn; [discriminate|].
  destruct (eqb k k') eqn:Q; cbn.
  - intros H; injection H as ->. exists [], k', m. auto.
  - intros H. destruct (IH H) as (l1 & k1 & l2 & -> & A & B & C). exists ((k', v) :: l1), k1, l2. cbn.
    repeat split; auto; [intros x; now rewrite B|now rewrite C].
Qed.
Lemma no_entry K (eqb : K -> K -> bool) k (m : hmap K nat) : hm_get eqb k m = None ->
  forall e, In e m -> eqb k (fst e) = false.
Proof.
  unfold hm_get. induction m as [|[k' v] m IH]; cbn; [tauto|].
  destruct (eqb k k') eqn:Q; cbn; [discriminate|]. intros H e [<-|I]; auto.
Qed.

Lemma total_app K (l1 l2 : list (K * nat)) : total (l1 ++ l2) = total l1 + total l2.
Proof. unfold total. now rewrite map_app, list_sum_app. Qed.
Lemma total_cons K (e : K * nat) l : total (e :: l) = snd e + total l.
Proof. reflexivity. Qed.
Lemma total_perm K (l1 l2 : list (K * nat)) : Permutation l1 l2 -> total l1 = total l2.
Proof. induction 1; rewrite ?total_cons; lia. Qed.

Lemma bump_lawless K (eqb : K -> K -> bool) E k n (c c' : counter K) r :
  n <= usize_max E -> debug_build E = true \/ total (ct_map c) + n <= usize_max E ->
  ct_bump eqb E k n c = (c', r) ->
  r = Ret tt /\ adds eqb k n (ct_map c) (ct_map c') \/ r = Panic /\ c' = c /\ stuck eqb E k n (ct_map c).
Proof.
  intros Hn B. unfold ct_bump, hm_entry. destruct c as [m]. cbn [ct_map] in *.
  destruct (hm_get eqb k m) as [v|] eqn:G.
  - destruct (split_entry _ _ _ _ _ G) as (l1 & k' & l2 & M & Q & S & _).
    unfold uadd. destruct (Nat.leb_spec (v + n) (usize_max E)).
    + intros X; injection X as <- <-. left. split; auto. cbn. rewrite S. eapply add_old; eauto.
    + assert (D : debug_build E = true).
      { destruct B as [B|B]; auto. exfalso. subst m. rewrite total_app, total_cons in B. cbn in B. lia. }
      rewrite D. intros X; injection X as <- <-. right. split; auto. split; auto. right. split; auto.
      exists (k', v). subst m. split; [apply in_or_app; right; left; auto|]. split; auto.
  - unfold hm_reserve. destruct (Nat.leb_spec (length m + 1) (alloc_max E)); cbn [obind].
    + unfold uadd. cbn [Nat.add]. rewrite (proj2 (Nat.leb_le _ _)) by lia.
      intros X; injection X as <- <-. left. split; auto.
      apply add_new; [apply no_entry; auto|]. reflexivity.
    + intros X; injection X as <- <-. right. split; auto. split; auto. left. split; [apply no_entry; auto|lia].
Qed.

Lemma adds_total K (eqb : K -> K -> bool) k n m m' : adds eqb k n m m' -> total m' = total m + n.
Proof.
  intros [m2 _ P|l1 k' v l2 -> _].
  - rewrite <- (total_perm _ _ _ P), total_cons. cbn. lia.
  - rewrite !total_app, !total_cons. cbn. lia.
Qed.

Lemma bumps_lawless K (eqb : K -> K -> bool) E l : forall (c c' : counter K) r,
  usizes E l -> debug_build E = true \/ total (ct_map c) + total l <= usize_max E ->
  for_each (fun e => ct_bump eqb E (fst e) (snd e)) l c = (c', r) ->
  r = Ret tt /\ each (adds eqb) l (ct_map c) (ct_map c') \/
  r = Panic /\ exists l1 k n l2, l = l1 ++ (k, n) :: l2 /\ each (adds eqb) l1 (ct_map c) (ct_map c') /\ stuck eqb E k n (ct_map c').
Proof.
  induction l as [|[k n] l IH]; intros c c' r U B; cbn [for_each fst snd].
  - intros X; injection X as <- <-. left. split; auto. constructor.
  - inversion U as [|? ? U1 U2]; subst. cbn in U1. rewrite total_cons in B. cbn [snd] in B.
    destruct (ct_bump eqb E k n c) as [c1 r1] eqn:H.
    assert (B1 : debug_build E = true \/ total (ct_map c) + n <= usize_max E) by (destruct B; [left; auto|right; lia]).
    destruct (bump_lawless _ _ _ _ _ _ _ _ U1 B1 H) as [[-> A]|(-> & -> & S)].
    + intros X. pose proof (adds_total _ _ _ _ _ _ A) as T.
      assert (B2 : debug_build E = true \/ total (ct_map c1) + total l <= usize_max E) by (destruct B; [left; auto|right; lia]).
      destruct (IH _ _ _ U2 B2 X) as [[-> Y]|(-> & l1 & k' & n' & l2 & -> & Y & Z)].
      * left. split; auto. econstructor; eauto.
      * right. split; auto. exists ((k, n) :: l1), k', n', l2. split; auto. split; auto. econstructor; eauto.
    + intros X; injection X as <- <-. right. split; auto. exists [], k, n, l. split; auto. split; auto. constructor.
Qed.

(** the loops of the counting calls *)
Lemma push_loop K (eqb : K -> K -> bool) E xs : forall c : counter K,
  for_each (ct_push eqb E) xs c = for_each (fun e => ct_bump eqb E (fst e) (snd e)) (map (fun x => (x, 1)) xs) c.
Proof. induction xs as [|x xs IH]; intros c; cbn; auto. unfold ct_push. destruct (ct_bump _ _ _ _ _) as [c' [[]| | | |]]; auto. Qed.
Lemma ref_loop K (f : K -> nat -> counter K -> counter K * outcome unit) (cl : K -> K) l : forall c,
  for_each (fun e => f (cl (fst e)) (snd e)) l c = for_each (fun e => f (fst e) (snd e)) (map (fun e => (cl (fst e), snd e)) l) c.
Proof. induction l as [|x l IH]; intros c; cbn; auto. destruct (f _ _ _) as [c' [[]| | | |]]; auto. Qed.

(** Every counting call adds each number it is handed to one entry that answers
    to the key, or to a new entry if none does, one after the other.  It stops
    at a number for which there is no room (or that overflows, in checked
    builds), or before the first one if the room asked for is refused. *)
Theorem c94_every_number_goes_to_one_entry : forall K (eqb : K -> K -> bool) cl E o l c c' r,
  1 <= usize_max E -> op_usizes E o -> handed cl o = Some l ->
  debug_build E = true \/ total (ct_map c) + total l <= usize_max E ->
  ct_step eqb cl E o c = (c', r) ->
  (r = Ret RUnit /\ each (adds eqb) l (ct_map c) (ct_map c')) \/
  (r = Panic /\ refused E o (ct_map c) /\ c' = c) \/
  (r = Panic /\ exists l1 k n l2, l = l1 ++ (k, n) :: l2 /\ each (adds eqb) l1 (ct_map c) (ct_map c') /\ stuck eqb E k n (ct_map c')).
Proof.
  intros K eqb cl E o l c c' r U Ho Hh B H.
  assert (G : forall c1 r1, for_each (fun e => ct_bump eqb E (fst e) (snd e)) l c = (c1, r1) -> usizes E l -> c' = c1 -> r = omap (fun _ => RUnit) r1 ->
    (r = Ret RUnit /\ each (adds eqb) l (ct_map c) (ct_map c')) \/
    (r = Panic /\ refused E o (ct_map c) /\ c' = c) \/
    (r = Panic /\ exists l1 k n l2, l = l1 ++ (k, n) :: l2 /\ each (adds eqb) l1 (ct_map c) (ct_map c') /\ stuck eqb E k n (ct_map c'))).
  { intros c1 r1 X V -> ->. destruct (bumps_lawless _ _ _ _ _ _ _ V B X) as [[-> Y]|[-> Y]]; cbn; auto. }
  assert (O : forall xs : list K, usizes E (map (fun x => (x, 1)) xs)).
  { intros xs. apply Forall_map, Forall_forall. cbn. auto. }
  destruct o; cbn in Hh; try discriminate; injection Hh as <-; cbn [ct_step] in H; unfold unit_out in H.
  - injection H as <- <-. eapply G; [|apply (O [k])|reflexivity|reflexivity]. cbn. destruct (ct_push eqb E k c) as [c1 r1] eqn:P.
    unfold ct_push in P. rewrite P. destruct r1 as [[]| | | |]; auto.
  - unfold ct_extend, hm_reserve in H. destruct (Nat.leb_spec (length (ct_map c) + hint) (alloc_max E)).
    + rewrite push_loop in H. destruct (for_each _ _ _) as [c1 r1] eqn:P. injection H as <- <-. eapply G; eauto.
    + injection H as <- <-. right; left. cbn. auto.
  - unfold ct_extend_ref, hm_reserve in H. rewrite map_id in H. destruct (Nat.leb_spec (length (ct_map c) + hint) (alloc_max E)).
    + rewrite push_loop in H. destruct (for_each _ _ _) as [c1 r1] eqn:P. injection H as <- <-. eapply G; eauto.
    + injection H as <- <-. right; left. cbn. auto.
  - unfold ct_add_assign in H. destruct (for_each _ _ _) as [c1 r1] eqn:P. injection H as <- <-. eapply G; eauto.
  - unfold ct_add_assign_ref in H. rewrite (ref_loop _ (ct_bump eqb E) cl) in H. destruct (for_each _ _ _) as [c1 r1] eqn:P. injection H as <- <-.
    eapply G; eauto. apply Forall_map. exact Ho.
Qed.
Print Assumptions c94_every_number_goes_to_one_entry.

Lemma each_adds_total K (eqb : K -> K -> bool) l m m' : each (adds eqb) l m m' -> total m' = total m + total l.
Proof. induction 1 as [|k n l m1 m2 m3 A _ IH]; [unfold total; cbn; lia|]. rewrite total_cons, IH, (adds_total _ _ _ _ _ _ A). cbn. lia. Qed.

(** Hence nothing is lost: the total of all counts grows by what is counted,
    over any history of counting calls, each with a relation of its own. *)
Theorem c94_total_is_conserved : forall K cl E (ops : list ((K -> K -> bool) * op K)) ns c c' tr,
  1 <= usize_max E -> Forall (fun p => op_usizes E (snd p)) ops -> Forall2 (fun p n => counted (snd p) = Some n) ops ns ->
  ct_run_l cl E ops c = (c', tr) -> Forall (fun r => r = Ret RUnit) tr ->
  debug_build E = true \/ total (ct_map c) + list_sum ns <= usize_max E ->
  total (ct_map c') = total (ct_map c) + list_sum ns.
Proof.
  intros K cl E ops. induction ops as [|[eqb o] ops IH]; intros ns c c' tr U F N H R B; inversion N as [|? n ? ns' N1 N2]; subst; cbn in H.
  - injection H as <- _. cbn. lia.
  - destruct (ct_step eqb cl E o c) as [c1 r1] eqn:S. destruct (ct_run_l cl E ops c1) as [c2 tr2] eqn:Q. injection H as <- <-.
    inversion R as [|? ? R1 R2]; subst. inversion F as [|? ? F1 F2]; subst. cbn in F1, N1. cbn [list_sum fold_right] in *.
    fold (list_sum ns') in *.
    assert (T : exists l, handed cl o = Some l /\ total l = n).
    { destruct o; cbn in N1 |- *; try discriminate; injection N1 as <-; eexists; (split; [reflexivity|]); unfold total; auto.
      - cbn. rewrite map_map. cbn. clear. induction xs; cbn; auto.
      - cbn. rewrite map_map. cbn. clear. induction xs; cbn; auto.
      - rewrite map_map. reflexivity. }
    destruct T as (l & Hl & <-).
    assert (B1 : debug_build E = true \/ total (ct_map c) + total l <= usize_max E) by (destruct B; [left; auto|right; lia]).
    destruct (c94_every_number_goes_to_one_entry _ _ _ _ _ _ _ _ _ U F1 Hl B1 S)
      as [[_ A]|[(A & _)|(A & _)]]; try discriminate.
    apply each_adds_total in A. rewrite (IH ns' c1 c2 tr2); auto; [lia|]. destruct B as [B|B]; auto. right; lia.
Qed.
Print Assumptions c94_total_is_conserved.

Theorem c94_from_iter_total_is_length : forall K (eqb : K -> K -> bool) cl E hint xs c,
  1 <= usize_max E -> debug_build E = true \/ length xs <= usize_max E ->
  ct_from_iter eqb E hint xs = Ret c \/ ct_from_iter_ref eqb cl E hint xs = Ret c -> total (ct_map c) = length xs.
Proof.
  intros K eqb cl E hint xs c U B H.
  assert (G : forall ys, length ys = length xs -> finish (for_each (ct_push eqb E) ys (Counter [])) = Ret c -> total (ct_map c) = length xs).
  { intros ys L X. rewrite push_loop in X. destruct (for_each _ _ _) as [c1 r1] eqn:P. unfold finish in X. cbn in X.
    assert (V : usizes E (map (fun x : K => (x, 1)) ys)) by (apply Forall_map, Forall_forall; cbn; auto).
    assert (T : total (map (fun x : K => (x, 1)) ys) = length xs).
    { rewrite <- L. unfold total. rewrite map_map. cbn. clear. induction ys; cbn; auto. }
    assert (B' : debug_build E = true \/ total (ct_map (Counter (@nil (K * nat)))) + total (map (fun x : K => (x, 1)) ys) <= usize_max E) by (rewrite T; exact B).
    destruct (bumps_lawless _ _ _ _ _ _ _ V B' P) as [[-> Y]|[-> _]]; [|discriminate].
    cbn in X. injection X as <-. apply each_adds_total in Y. rewrite Y, T. reflexivity. }
  unfold ct_from_iter, ct_from_iter_ref, ct_with_capacity, hm_reserve in H. destruct (_ <=? _) in H; cbn [obind] in H; [|destruct H; discriminate].
  destruct H as [H|H]; [apply (G xs); auto|apply (G (map cl xs)); auto using map_length].
Qed.
Print Assumptions c94_from_iter_total_is_length.

(** Subtraction takes from one answering entry each, and an entry of which
    nothing is left disappears. *)
Lemma lower_lawless K (eqb : K -> K -> bool) E k n (c c' : counter K) r : ct_lower eqb E k n c = (c', r) ->
  r = Ret tt /\ takes eqb k n (ct_map c) (ct_map c') \/
  r = Panic /\ c' = c /\ (forall e, In e (ct_map c) -> eqb k (fst e) = false) /\ alloc_max E <= length (ct_map c).
Proof.
  unfold ct_lower, hm_entry. destruct c as [m]. cbn [ct_map]. destruct (hm_get eqb k m) as [v|] eqn:G.
  - destruct (split_entry _ _ _ _ _ G) as (l1 & k' & l2 & M & Q & S & R).
    destruct (Nat.leb_spec v n).
    + intros X; injection X as <- <-. left. split; auto. cbn. rewrite R. eapply take_all; eauto.
    + rewrite usub_fits by lia. intros X; injection X as <- <-. left. split; auto. cbn. rewrite S. eapply take_some; eauto.
  - unfold hm_reserve. destruct (Nat.leb_spec (length m + 1) (alloc_max E)); cbn [obind]; intros X; injection X as <- <-.
    + left. split; auto. apply take_none. apply no_entry; auto.
    + right. split; auto. split; auto. split; [apply no_entry; auto|lia].
Qed.

Theorem c94_subtraction_takes_from_one_entry_each : forall K (eqb : K -> K -> bool) cl E o l c c' r,
  taken cl o = Some l -> ct_step eqb cl E o c = (c', r) ->
  (r = Ret RUnit /\ each (takes eqb) l (ct_map c) (ct_map c')) \/
  (r = Panic /\ exists l1 k n l2, l = l1 ++ (k, n) :: l2 /\ each (takes eqb) l1 (ct_map c) (ct_map c') /\
     (forall e, In e (ct_map c') -> eqb k (fst e) = false) /\ alloc_max E <= length (ct_map c')).
Proof.
  intros K eqb cl E o l c c' r Hl H.
  assert (G : forall l c c1 r1, for_each (fun e => ct_lower eqb E (fst e) (snd e)) l c = (c1, r1) ->
    (r1 = Ret tt /\ each (takes eqb) l (ct_map c) (ct_map c1)) \/
    (r1 = Panic /\ exists l1 k n l2, l = l1 ++ (k, n) :: l2 /\ each (takes eqb) l1 (ct_map c) (ct_map c1) /\
     (forall e, In e (ct_map c1) -> eqb k (fst e) = false) /\ alloc_max E <= length (ct_map c1))).
  { clear. induction l as [|[k n] l IH]; intros c c1 r1; cbn [for_each fst snd].
    - intros X; injection X as <- <-. left. split; auto. constructor.
    - destruct (ct_lower eqb E k n c) as [c0 r0] eqn:H. destruct (lower_lawless _ _ _ _ _ _ _ _ H) as [[-> A]|(-> & -> & S)].
      + intros X. destruct (IH _ _ _ X) as [[-> Y]|(-> & l1 & k' & n' & l2 & -> & Y & Z)].
        * left. split; auto. econstructor; eauto.
        * right. split; auto. exists ((k, n) :: l1), k', n', l2. split; auto. split; auto. econstructor; eauto.
      + intros X; injection X as <- <-. right. split; auto. exists [], k, n, l. split; auto. split; auto. constructor. }
  destruct o; cbn in Hl; try discriminate; injection Hl as <-; cbn [ct_step] in H; unfold unit_out, ct_sub_assign, ct_sub_assign_ref in H.
  - destruct (for_each _ _ _) as [c1 r1] eqn:P. injection H as <- <-. destruct (G _ _ _ _ P) as [[-> Y]|[-> Y]]; cbn; auto.
  - rewrite (ref_loop _ (ct_lower eqb E) cl) in H. destruct (for_each _ _ _) as [c1 r1] eqn:P. injection H as <- <-.
    destruct (G _ _ _ _ P) as [[-> Y]|[-> Y]]; cbn; auto.
Qed.
Print Assumptions c94_subtraction_takes_from_one_entry_each.

Lemma takes_total K (eqb : K -> K -> bool) k n m m' : takes eqb k n m m' -> total m' <= total m <= total m' + n.
Proof. intros [_|l1 k' v l2 -> _ L|l1 k' v l2 -> _ L]; rewrite ?total_app, ?total_cons; cbn [snd]; lia. Qed.

(** so no more disappears than is subtracted *)
Theorem c94_subtraction_is_bounded : forall K (eqb : K -> K -> bool) cl E o l c c' r,
  taken cl o = Some l -> ct_step eqb cl E o c = (c', r) ->
  total (ct_map c') <= total (ct_map c) <= total (ct_map c') + total l.
Proof.
  intros K eqb cl E o l c c' r Hl H.
  assert (G : forall l m m', each (takes eqb) l m m' -> total m' <= total m <= total m' + total l).
  { induction 1 as [|k n l' m1 m2 m3 A _ IH]; [lia|]. apply takes_total in A. rewrite total_cons. cbn [snd]. lia. }
  destruct (c94_subtraction_takes_from_one_entry_each _ _ _ _ _ _ _ _ _ Hl H) as [[_ X]|(_ & l1 & k & n & l2 & -> & X & _)].
  - exact (G _ _ _ X).
  - apply G in X. rewrite total_app. lia.
Qed.
Print Assumptions c94_subtraction_is_bounded.

(** Counting and subtracting never leave an entry with count 0, whether they
    return or panic. *)
Theorem c94_no_zero_counts : forall K (eqb : K -> K -> bool) cl E o l c c' r,
  let positive := Forall (fun e : K * nat => 0 < snd e) in
  1 <= usize_max E -> op_usizes E o -> positive l -> positive (ct_map c) ->
  handed cl o = Some l /\ (debug_build E = true \/ total (ct_map c) + total l <= usize_max E) \/ taken cl o = Some l ->
  ct_step eqb cl E o c = (c', r) -> positive (ct_map c').
Proof.
  intros K eqb cl E o l c c' r positive U Ho Pl Pc Hl H.
  assert (A : forall k n m m', adds eqb k n m m' -> 0 < n -> positive m -> positive m').
  { intros k n m m' [m2 _ P|l1 k' v l2 -> _] N Pm.
    - eapply Permutation_Forall; [exact P|]. constructor; auto.
    - apply Forall_app in Pm. destruct Pm as [P1 P2]. inversion P2; subst. apply Forall_app. split; auto. constructor; cbn in *; auto. lia. }
  assert (T : forall k n m m', takes eqb k n m m' -> positive m -> positive m').
  { intros k n m m' [_|l1 k' v l2 -> _ L|l1 k' v l2 -> _ L] Pm; auto; apply Forall_app in Pm; destruct Pm as [P1 P2];
      inversion P2; subst; apply Forall_app; split; auto. constructor; cbn in *; auto. lia. }
  assert (GA : forall l m m', each (adds eqb) l m m' -> positive l -> positive m -> positive m').
  { induction 1 as [|k n l' m1 m2 m3 B _ IH]; auto. intros Q R. inversion Q; subst. apply IH; auto. eapply A; eauto. }
  assert (GT : forall l m m', each (takes eqb) l m m' -> positive m -> positive m').
  { induction 1 as [|k n l' m1 m2 m3 B _ IH]; eauto. }
  destruct Hl as [[Hl B]|Hl].
  - destruct (c94_every_number_goes_to_one_entry _ _ _ _ _ _ _ _ _ U Ho Hl B H) as [[_ X]|[(_ & _ & ->)|(_ & l1 & k & n & l2 & -> & X & _)]]; auto.
    + exact (GA _ _ _ X Pl Pc).
    + apply Forall_app in Pl. exact (GA _ _ _ X (proj1 Pl) Pc).
  - destruct (c94_subtraction_takes_from_one_entry_each _ _ _ _ _ _ _ _ _ Hl H) as [[_ X]|(_ & l1 & k & n & l2 & -> & X & _)]; exact (GT _ _ _ X Pc).
Qed.
Print Assumptions c94_no_zero_counts.

(** Every call returns or panics, and all counts stay [usize] values. *)
Theorem c94_every_call_returns_or_panics : forall K (eqb : K -> K -> bool) cl E o c c' r,
  1 <= usize_max E -> op_usizes E o -> usizes E (ct_map c) -> ct_step eqb cl E o c = (c', r) ->
  usizes E (ct_map c') /\ (r = Panic \/ exists v, r = Ret v).
Proof.
  intros K eqb cl E o c c' r U Ho Hc H.
  assert (GS : forall k v m, v <= usize_max E -> usizes E m -> usizes E (hm_set eqb k v m)).
  { intros k v m V. induction m as [|[k' v'] m IH]; cbn; auto. intros F. inversion F; subst.
    destruct (eqb k k'); constructor; cbn; auto. now apply IH. }
  assert (GR : forall k m, usizes E m -> usizes E (hm_remove eqb k m)).
  { intros k m. induction m as [|[k' v'] m IH]; cbn; auto. intros F. inversion F; subst. destruct (eqb k k'); auto. constructor; auto. now apply IH. }
  assert (GG : forall k m v, usizes E m -> hm_get eqb k m = Some v -> v <= usize_max E).
  { intros k m v F G. destruct (split_entry _ _ _ _ _ G) as (l1 & k' & l2 & -> & _). apply Forall_app in F. destruct F as [_ F]. inversion F; auto. }
  assert (GU : forall a b, a <= usize_max E -> b <= usize_max E -> match uadd E a b with Ret n => n <= usize_max E | Panic => True | _ => False end).
  { intros a b A B. unfold uadd. destruct (Nat.leb_spec (a + b) (usize_max E)); auto. destruct (debug_build E); auto. lia. }
  assert (GB : forall k v c, v <= usize_max E -> usizes E (ct_map c) ->
    usizes E (ct_map (fst (ct_bump eqb E k v c))) /\ (snd (ct_bump eqb E k v c) = Panic \/ snd (ct_bump eqb E k v c) = Ret tt)).
  { intros k v [m] V F. cbn in F. unfold ct_bump, hm_entry; cbn [ct_map]. destruct (hm_get eqb k m) as [n|] eqn:G.
    - pose proof (GU n v (GG _ _ _ F G) V) as X. destruct (uadd E n v); cbn; auto; contradiction.
    - unfold hm_reserve. destruct (_ <=? _); cbn [obind]; [|cbn; auto].
      pose proof (GU 0 v ltac:(lia) V) as X. destruct (uadd E 0 v); cbn; auto; try contradiction; (split; [|auto]); constructor; cbn; auto; lia. }
  assert (GL : forall k v c, usizes E (ct_map c) ->
    usizes E (ct_map (fst (ct_lower eqb E k v c))) /\ (snd (ct_lower eqb E k v c) = Panic \/ snd (ct_lower eqb E k v c) = Ret tt)).
  { intros k v [m] F. cbn in F. unfold ct_lower, hm_entry; cbn [ct_map]. destruct (hm_get eqb k m) as [n|] eqn:G.
    - destruct (Nat.leb_spec n v); cbn; auto. rewrite usub_fits by lia. cbn. split; auto. apply GS; auto. apply GG in G; auto. lia.
    - unfold hm_reserve. destruct (_ <=? _); cbn; auto. }
  assert (GF : forall A (f : A -> counter K -> counter K * outcome unit) (P : A -> Prop),
    (forall a c, P a -> usizes E (ct_map c) -> usizes E (ct_map (fst (f a c))) /\ (snd (f a c) = Panic \/ snd (f a c) = Ret tt)) ->
    forall l c, Forall P l -> usizes E (ct_map c) ->
      usizes E (ct_map (fst (for_each f l c))) /\ (snd (for_each f l c) = Panic \/ snd (for_each f l c) = Ret tt)).
  { intros A f P Hf. induction l as [|a l IH]; intros c0 F0 F; cbn; auto. inversion F0; subst.
    destruct (Hf a c0 ltac:(auto) F) as [X Y]. destruct (f a c0) as [c1 r1]; cbn in *. destruct Y as [->| ->]; auto. }
  assert (GO : forall q : counter K * outcome unit, unit_out q = (c', r) -> usizes E (ct_map (fst q)) /\ (snd q = Panic \/ snd q = Ret tt) ->
    usizes E (ct_map c') /\ (r = Panic \/ exists v, r = Ret v)).
  { intros [c1 r1] Q [X Y]. injection Q as <- <-. cbn in *. split; auto. destruct Y as [->| ->]; cbn; eauto. }
  assert (T : forall xs : list K, Forall (fun _ => True) xs) by (intros; apply Forall_forall; auto).
  destruct o; cbn [ct_step] in H; try (injection H as <- <-; split; auto; eauto; fail).
  - eapply GO; [exact H|]. apply GB; auto.
  - eapply GO; [exact H|]. unfold ct_extend, hm_reserve. destruct (_ <=? _); cbn; auto. eapply GF with (P := fun _ => True); auto. intros; apply GB; auto.
  - eapply GO; [exact H|]. unfold ct_extend_ref, hm_reserve. destruct (_ <=? _); cbn; auto. eapply GF with (P := fun _ => True); auto. intros; apply GB; auto.
  - eapply GO; [exact H|]. eapply GF; [|exact Ho|exact Hc]. cbn. intros; apply GB; auto.
  - eapply GO; [exact H|]. eapply GF; [|exact Ho|exact Hc]. cbn. intros; apply GB; auto.
  - eapply GO; [exact H|]. eapply GF with (P := fun _ => True); [intros; apply GL; auto|apply Forall_forall; auto|exact Hc].
  - eapply GO; [exact H|]. eapply GF with (P := fun _ => True); [intros; apply GL; auto|apply Forall_forall; auto|exact Hc].
  - injection H as <- <-. split; auto. unfold ct_index. destruct (ct_get eqb c k); cbn; eauto.
  - unfold ct_insert, hm_insert, hm_entry in H. destruct (hm_get eqb k (ct_map c)) as [v|].
    + injection H as <- <-. cbn; eauto.
    + unfold hm_reserve in H. destruct (_ <=? _); cbn in H; injection H as <- <-; cbn; eauto. split; eauto. constructor; auto.
  - unfold ct_get_mut in H. destruct (ct_get eqb c k); injection H as <- <-; cbn; eauto.
  - injection H as <- <-. cbn. split; eauto. constructor.
  - injection H as <- <-. cbn. split; eauto. unfold usizes, hm_retain. apply Forall_forall. intros e I. apply filter_In in I.
    destruct I as [I _]. revert e I. now apply Forall_forall.
  - injection H as <- <-. cbn. split; eauto. unfold usizes, hm_map_values. apply Forall_map, Forall_forall. cbn. auto.
  - eapply GO; [exact H|]. unfold ct_reserve, hm_reserve. cbn. destruct (_ <=? _); auto.
Qed.
Print Assumptions c94_every_call_returns_or_panics.

(** A lookup shows a stored entry that answers, and fails only if none does;
    [most_common] still lists all entries by falling counts. *)
Theorem c94_lookups_and_most_common : forall K (eqb : K -> K -> bool) E c,
  (forall k e, ct_get_key_value eqb c k = Some e -> In e (ct_map c) /\ eqb k (fst e) = true) /\
  (forall k, ct_get eqb c k = option_map snd (ct_get_key_value eqb c k)) /\
  (forall k, ct_get_key_value eqb c k = None -> forall e, In e (ct_map c) -> eqb k (fst e) = false) /\
  (usizes E (ct_map c) -> forall r, ct_into_most_common E c r <->
     Permutation (ct_map c) r /\ ForallOrdPairs (fun p q => snd q <= snd p) r).
Proof.
  intros K eqb E [m]. unfold ct_get_key_value, ct_get; cbn [ct_map].
  split; [|split; [|split]].
  - intros k e. induction m as [|[k' v] m IH]; cbn; [discriminate|]. destruct (eqb k k') eqn:Q; [intros H; injection H as <-; auto|].
    intros H. destruct (IH H); auto.
  - reflexivity.
  - intros k H. apply no_entry. unfold hm_get. now rewrite H.
  - intros F r. unfold ct_into_most_common, iterates; cbn [ct_map]. split.
    + intros (l & P & S). apply sorted_desc in S; [|eapply Permutation_Forall; eauto]. split; [|tauto]. eapply Permutation_trans; [exact P|]. tauto.
    + intros [P S]. exists m. split; auto. apply sorted_desc; auto.
Qed.
Print Assumptions c94_lookups_and_most_common.

(** keys none of which equals itself (like NaN), then a relation that says yes to
    everything, then one that is not symmetric *)
Definition unequal (a b : key) : bool := false.
Definition alike (a b : key) : bool := true.
Definition below (a b : key) : bool := fst a <? fst b.
Definition c94_counting : list ((key -> key -> bool) * op key) :=
  [(unequal, OExtend 1 [(1, 0); (1, 0)]); (alike, OPush (7, 0)); (below, OAddRef [((0, 9), 3); ((5, 9), 4)])].
Example c94_ex :
  ct_run_l kcl Ec c94_counting (Counter []) = (Counter [((5, 0), 4); ((1, 0), 5); ((1, 0), 1)], [Ret RUnit; Ret RUnit; Ret RUnit]) /\
  Forall (fun p => op_usizes Ec (snd p)) c94_counting /\ Forall2 (fun p n => counted (snd p) = Some n) c94_counting [2; 1; 7] /\
  fst (ct_run_l kcl Ec (c94_counting ++ [(below, OSub [((0, 0), 2)]); (alike, OSub [((9, 9), 3)])]) (Counter [])) = Counter [((1, 0), 5); ((1, 0), 1)] /\
  (* no room for a 17th entry, of a key counted before *)
  ct_run_l kcl Ec [(unequal, OExtend 0 (repeat (1, 0) 16)); (unequal, OPush (1, 0)); (alike, OPush (2, 0)); (unequal, OSub [((1, 0), 1)])] (Counter []) =
    (Counter (((1, 0), 2) :: repeat ((1, 0), 1) 15), [Ret RUnit; Panic; Ret RUnit; Panic]) /\
  ct_from_iter unequal Ec 3 [(1, 0); (1, 0)] = Ret (Counter [((1, 0), 1); ((1, 0), 1)]).
Proof. split; [reflexivity|]. split; [repeat constructor; apply Nat.leb_le; reflexivity|]. split; [repeat constructor|]. repeat split. Qed.
