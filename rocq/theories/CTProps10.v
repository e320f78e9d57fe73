(** Property theorems C119: of a counter only the counts matter. *)
From Coq Require Import Permutation.
From Verif Require Import Base HMModel HMProofs CTModel CTSpec CTRun CTProofs CTProofs2 CTProofs3 CTProps CTSpec9.
Set Implicit Arguments.

Section Det.
Variable K : Type.
Variable eqb : K -> K -> bool.
Hypothesis L : eq_laws eqb.
Variable E : machine.
Variable cl : K -> K.
Local Notation like := (like eqb).

Lemma le_none f g x : like f g -> (f x = None <-> g x = None).
Proof. intros H. specialize (H x). unfold like_entry in H. destruct (f x) as [[]|], (g x) as [[]|]; split; intros; try discriminate; try contradiction; auto. Qed.
Lemma like_dom f g x : like f g -> (f x <> None <-> g x <> None).
Proof. intros H. now rewrite (le_none x H). Qed.
Lemma like_count f g x : like f g -> count f x = count g x.
Proof. intros H. specialize (H x). unfold like_entry, count in *. destruct (f x) as [[]|], (g x) as [[]|]; tauto. Qed.
Lemma entry_refl o : like_entry eqb o o.
Proof. destruct o as [[]|]; cbn; auto. split; auto. apply (eq_refl' L). Qed.
Lemma like_refl f : like f f.
Proof. intros x. apply entry_refl. Qed.
Lemma like_sym f g : like f g -> like g f.
Proof.
  intros H x. specialize (H x). unfold like_entry in *. destruct (f x) as [[]|], (g x) as [[]|]; auto.
  destruct H; split; auto. now apply (eq_sym' L).
Qed.
Lemma like_same f f' g g' : same f' f -> same g' g -> like f g -> like f' g'.
Proof. intros A B H x. rewrite (A x), (B x). apply H. Qed.

Lemma like_plus f g l : like f g -> like (plus eqb E f l) (plus eqb E g l).
Proof.
  intros H x. specialize (H x). unfold plus, like_entry in *.
  destruct (f x) as [[]|], (g x) as [[]|]; try contradiction.
  - destruct H as [H ->]. auto.
  - destruct (entry_in eqb l x) as [[]|]; auto. split; auto. apply (eq_refl' L).
Qed.
Lemma like_minus f g l : like f g -> like (minus eqb f l) (minus eqb g l).
Proof.
  intros H x. specialize (H x). unfold minus, like_entry in *.
  destruct (f x) as [[]|], (g x) as [[]|]; try contradiction; auto.
  destruct H as [H ->]. destruct (entry_in eqb l x) as [[? v]|]; auto. destruct (_ <=? v); auto.
Qed.
Lemma like_size f g n : like f g -> has_size eqb f n -> has_size eqb g n.
Proof. intros H. apply size_dom. intros y. now apply like_dom. Qed.

Lemma amount_app x l m : amount eqb x (l ++ m) = amount eqb x l + amount eqb x m.
Proof. unfold amount. now rewrite filter_app, map_app, list_sum_app. Qed.

Lemma plus_dom f l x : plus eqb E f l x <> None <-> f x <> None \/ exists e, In e l /\ eqb x (fst e) = true.
Proof.
  unfold plus. destruct (f x) as [[]|]; [split; [left; discriminate|discriminate]|].
  unfold entry_in. destruct (find _ l) as [[k n]|] eqn:F.
  - apply find_some in F. split; [intros _; right; eauto|discriminate].
  - split; [congruence|]. intros [?|(e & I & Q)]; [congruence|]. apply find_none with (x := e) in F; congruence.
Qed.

Lemma size_cong f n y z : has_size eqb f n -> eqb y z = true -> f y = None -> f z = None.
Proof.
  intros (ks & _ & _ & H) Q N. destruct (f z) eqn:F; auto. exfalso.
  assert (X : f z <> None) by congruence. apply H in X. destruct X as (k & I & Q2).
  assert (Y : f y <> None) by (apply H; exists k; split; auto; eapply (eq_trans' L); eauto). auto.
Qed.

(** where an addition stops is where no other addition goes on *)
Lemma stops f g l1 e w f' g' :
  like f g -> same f' (plus eqb E f l1) -> same g' (plus eqb E g (l1 ++ e :: w)) ->
  ((debug_build E = true /\ usize_max E < count f (fst e) + amount eqb (fst e) (l1 ++ [e])) \/ (f' (fst e) = None /\ full eqb E f')) ->
  (exists n, has_size eqb g' n /\ n <= alloc_max E) ->
  (debug_build E = true -> forall x, count g x + amount eqb x (l1 ++ e :: w) <= usize_max E) -> False.
Proof.
  intros H S1 S2 [[D O]|[N F]] (n & Z & Le) B.
  - specialize (B D (fst e)). rewrite <- (like_count _ H) in B.
    change (e :: w) with ([e] ++ w) in B. rewrite app_assoc, amount_app in B. lia.
  - assert (X : alloc_max E < n); [|lia].
    apply (size_grows L (fst e) F Z); auto.
    + intros y. rewrite (S1 y), (S2 y), !plus_dom. intros [A|(d & I & Q)].
      * left. now apply (like_dom y H).
      * right. exists d. split; auto. apply in_or_app; auto.
    + intros y z Q. apply (size_cong F Q).
    + rewrite (S2 (fst e)). apply plus_dom. right. exists e. split; [apply in_or_app; cbn; auto|apply (eq_refl' L)].
Qed.

Lemma split_cases (A : Type) (l1 m1 l2 m2 : list A) e d : l1 ++ e :: l2 = m1 ++ d :: m2 ->
  (l1 = m1 /\ e = d) \/ (exists w, m1 = l1 ++ e :: w) \/ (exists w, l1 = m1 ++ d :: w).
Proof.
  revert m1. induction l1 as [|a l1 IH]; intros [|b m1] Q; cbn in Q; injection Q as Q1 Q2; subst.
  - left; auto.
  - right; left. exists m1. auto.
  - right; right. exists l1. auto.
  - destruct (IH m1 Q2) as [[-> ->]|[(w & ->)|(w & ->)]]; [left|right; left|right; right]; cbn; eauto.
Qed.

Lemma adds_det l f g f' g' r r' : like f g -> adds eqb E l f f' r -> adds eqb E l g g' r' -> r = r' /\ like f' g'.
Proof.
  intros H [(-> & S1 & Z1 & B1)|(-> & l1 & e & l2 & -> & S1 & Z1 & B1 & P1)] [(-> & S2 & Z2 & B2)|(-> & m1 & d & m2 & Q & S2 & Z2 & B2 & P2)].
  - split; auto. eapply like_same; eauto. now apply like_plus.
  - exfalso. subst. eapply stops; [apply like_sym; exact H|exact S2|exact S1|exact P2|exact Z1|exact B1].
  - exfalso. eapply stops; [exact H|exact S1|exact S2|exact P1|exact Z2|exact B2].
  - split; auto. destruct (@split_cases _ _ _ _ _ _ _ Q) as [[-> ->]|[(w & ->)|(w & ->)]].
    + eapply like_same; eauto. now apply like_plus.
    + exfalso. eapply stops; [exact H|exact S1|exact S2|exact P1|exact Z2|exact B2].
    + exfalso. eapply stops; [apply like_sym; exact H|exact S2|exact S1|exact P2|exact Z1|exact B1].
Qed.

Lemma like_blocked l f g : like f g -> blocked eqb E l f -> blocked eqb E l g.
Proof.
  intros H (l1 & e & l2 & Q & N & F). exists l1, e, l2. split; auto.
  split; [now apply (le_none (fst e) (like_minus l1 H))|]. eapply like_size; [|exact F]. now apply like_minus.
Qed.

Lemma blocked_at f f' l1 e w : same f' (minus eqb f l1) -> f' (fst e) = None -> full eqb E f' -> blocked eqb E (l1 ++ e :: w) f.
Proof.
  intros S N F. exists l1, e, w. split; auto. split; [now rewrite <- (S (fst e))|]. eapply full_same; eauto.
Qed.

Lemma subtracts_det l f g f' g' r r' : like f g -> subtracts eqb E l f f' r -> subtracts eqb E l g g' r' -> r = r' /\ like f' g'.
Proof.
  intros H [(-> & S1 & B1)|(-> & l1 & e & l2 & -> & S1 & N1 & F1 & B1)] [(-> & S2 & B2)|(-> & m1 & d & m2 & Q & S2 & N2 & F2 & B2)].
  - split; auto. eapply like_same; eauto. now apply like_minus.
  - exfalso. subst. apply B1. eapply like_blocked; [apply like_sym; exact H|]. eapply blocked_at; eauto.
  - exfalso. apply B2. eapply like_blocked; [exact H|]. eapply blocked_at; eauto.
  - split; auto. destruct (@split_cases _ _ _ _ _ _ _ Q) as [[-> ->]|[(w & ->)|(w & ->)]].
    + eapply like_same; eauto. now apply like_minus.
    + exfalso. apply B2. eapply like_blocked; [exact H|]. eapply blocked_at; eauto.
    + exfalso. apply B1. eapply like_blocked; [apply like_sym; exact H|]. eapply blocked_at; eauto.
Qed.

Lemma reserves_det n f g : like f g -> reserves eqb E n f -> cannot_reserve eqb E n g -> False.
Proof.
  intros H (s & Z & A) (t & Z2 & B). apply (like_size H) in Z. rewrite (size_unique L Z Z2) in A. lia.
Qed.

Lemma answer_refl r : @same_answer K eqb r r.
Proof.
  destruct r as [o| | | |]; cbn; auto. destruct o; cbn; auto; [apply entry_refl|]. split; tauto.
Qed.

Lemma extends_det h xs f g f' g' r r' : like f g -> extends eqb E h xs f f' r -> extends eqb E h xs g g' r' -> r = r' /\ like f' g'.
Proof.
  intros H [(R1 & A1)|(R1 & S1 & ->)] [(R2 & A2)|(R2 & S2 & ->)].
  - eapply adds_det; eauto.
  - exfalso; eapply reserves_det; eauto.
  - exfalso; eapply reserves_det; [apply like_sym; exact H| |]; eauto.
  - split; auto. eapply like_same; eauto.
Qed.

Lemma enum_det f g l l' : like f g -> enumerates eqb f l -> enumerates eqb g l' ->
  length l = length l' /\ forall x n, (exists k, In (k, n) l /\ eqb x k = true) <-> (exists k, In (k, n) l' /\ eqb x k = true).
Proof.
  assert (Half : forall f g l l', like f g -> enumerates eqb f l -> enumerates eqb g l' ->
    forall x n, (exists k, In (k, n) l /\ eqb x k = true) -> (exists k, In (k, n) l' /\ eqb x k = true)).
  { clear. intros f g l l' H [D1 H1] [D2 H2] x n (k & I & Q).
    assert (F : f x = Some (k, n)) by (apply H1; auto).
    specialize (H x). rewrite F in H. unfold like_entry in H. destruct (g x) as [[k' n']|] eqn:G; [|contradiction].
    destruct H as [_ ->]. apply H2 in G. exists k'. exact G. }
  intros H En1 En2. split; [|intros x n; split; [apply (Half f g)|apply (Half g f)]; auto using like_sym].
  rewrite <- (map_length fst l), <- (map_length fst l').
  assert (Cov : forall l l' : list (K * nat), (forall x n, (exists k, In (k, n) l /\ eqb x k = true) -> exists k, In (k, n) l' /\ eqb x k = true) ->
    forall k, In k (map fst l) -> exists q, In q (map fst l') /\ eqb k q = true).
  { intros m m' X k I. apply in_map_iff in I. destruct I as ([k0 n] & <- & I).
    destruct (X k0 n) as (q & J & Q); [exists k0; split; auto; apply (eq_refl' L)|].
    exists q. split; auto. apply in_map_iff. exists (q, n). auto. }
  apply Nat.le_antisymm; apply (distinct_count_le L).
  - apply En1.
  - apply Cov. intros x n. apply (Half f g); auto.
  - apply En2.
  - apply Cov. intros x n. apply (Half g f); auto using like_sym.
Qed.

Lemma allowed_det o f g f' g' r r' : blind eqb o -> like f g ->
  allowed eqb E cl o f f' r -> allowed eqb E cl o g g' r' -> same_answer eqb r r' /\ like f' g'.
Proof.
  intros Bl H. pose proof H as H0.
  assert (Weak : r = r' /\ like f' g' -> same_answer eqb r r' /\ like f' g').
  { intros [-> X]. split; auto. apply answer_refl. }
  destruct o as [k|h xs|h xs|l|l|l|l|k|k|k|k| | |pick|k n|k|k u| |p|u|n]; cbn [allowed]; intros A B.
  - apply Weak. eapply adds_det; eauto.
  - apply Weak. eapply extends_det; eauto.
  - apply Weak. eapply extends_det; eauto.
  - apply Weak. eapply adds_det; eauto.
  - apply Weak. eapply adds_det; eauto.
  - apply Weak. eapply subtracts_det; eauto.
  - apply Weak. eapply subtracts_det; eauto.
  - destruct A as [S ->], B as [S2 ->]. split; [|eapply like_same; eauto].
    specialize (H k). unfold like_entry in H. cbn. destruct (f k) as [[]|], (g k) as [[]|]; cbn; try contradiction; auto.
    destruct H as [_ ->]; auto.
  - destruct A as [S ->], B as [S2 ->]. split; [|eapply like_same; eauto]. apply (H k).
  - destruct A as [S ->], B as [S2 ->]. split; [|eapply like_same; eauto].
    specialize (H k). unfold like_entry in H. destruct (f k) as [[]|], (g k) as [[]|]; cbn; try contradiction; auto.
    destruct H as [_ ->]; auto.
  - destruct A as [S ->], B as [S2 ->]. split; [|eapply like_same; eauto].
    specialize (H k). unfold like_entry in H. destruct (f k) as [[]|], (g k) as [[]|]; cbn; try contradiction; auto.
  - destruct A as [S (n & Z & ->)], B as [S2 (m & Z2 & ->)]. split; [|eapply like_same; eauto].
    apply (like_size H) in Z. rewrite (size_unique L Z Z2). reflexivity.
  - destruct A as [S (b & Z & ->)], B as [S2 (b' & Z2 & ->)]. split; [|eapply like_same; eauto].
    assert (Q : same f (@empty K) <-> same g (@empty K)).
    { split; intros X x; apply (le_none x H); apply X. }
    cbn. replace b' with b; auto. apply eq_true_iff_eq. rewrite Z, Z2. exact Q.
  - destruct A as [S (l & Z & ->)], B as [S2 (l' & Z2 & ->)]. split; [|eapply like_same; eauto].
    exact (enum_det H Z Z2).
  - specialize (H0 k). unfold like_entry in H0. destruct (f k) as [[q old]|] eqn:F, (g k) as [[q' old']|] eqn:G; try contradiction.
    + destruct H0 as [Q ->], A as [S ->], B as [S2 ->]. split; [reflexivity|]. eapply like_same; [exact S|exact S2|].
      intros x. cbv beta. destruct (eqb x k); [cbn; auto|apply H].
    + destruct A as [(R & S & ->)|(Fu & S & ->)], B as [(R2 & S2 & ->)|(Fu2 & S2 & ->)].
      * split; [reflexivity|]. eapply like_same; [exact S|exact S2|]. intros x. cbv beta. destruct (eqb x k); [apply entry_refl|apply H].
      * exfalso. eapply (@reserves_det 1); [exact H|exact R|]. exists (alloc_max E). split; [exact Fu2|lia].
      * exfalso. eapply (@reserves_det 1); [apply like_sym; exact H|exact R2|]. exists (alloc_max E). split; [exact Fu|lia].
      * split; [reflexivity|]. eapply like_same; eauto.
  - destruct A as [S ->], B as [S2 ->]. split.
    + unfold like_entry in H0. specialize (H0 k). destruct (f k) as [[]|], (g k) as [[]|]; cbn; try contradiction; auto. destruct H0 as [_ ->]; auto.
    + eapply like_same; [exact S|exact S2|]. intros x. cbv beta. destruct (eqb x k); [exact Logic.I|apply H].
  - specialize (H0 k). unfold like_entry in H0. destruct (f k) as [[q old]|] eqn:F, (g k) as [[q' old']|] eqn:G; try contradiction.
    + destruct H0 as [Q ->], A as [S ->], B as [S2 ->]. split; [reflexivity|]. eapply like_same; [exact S|exact S2|].
      intros x. cbv beta. destruct (eqb x k); [cbn; auto|apply H].
    + destruct A as [S ->], B as [S2 ->]. split; [reflexivity|]. eapply like_same; eauto.
  - destruct A as [S ->], B as [S2 ->]. split; [reflexivity|]. eapply like_same; [exact S|exact S2|apply like_refl].
  - destruct A as [S ->], B as [S2 ->]. split; [reflexivity|]. eapply like_same; [exact S|exact S2|].
    intros x. cbv beta. specialize (H x). unfold like_entry in H. cbn in Bl.
    destruct (f x) as [[q n]|], (g x) as [[q' n']|]; try contradiction; [|exact Logic.I].
    destruct H as [Q ->]. rewrite (Bl q q' n' Q). destruct (p q' n'); cbn; auto.
  - destruct A as [S ->], B as [S2 ->]. split; [reflexivity|]. eapply like_same; [exact S|exact S2|].
    intros x. cbv beta. specialize (H x). unfold like_entry in H. cbn in Bl.
    destruct (f x) as [[q n]|], (g x) as [[q' n']|]; try contradiction; [|exact Logic.I].
    destruct H as [Q ->]. rewrite (Bl q q' n' Q). cbn; auto.
  - destruct A as [S [[R ->]|[R ->]]], B as [S2 [[R2 ->]|[R2 ->]]]; (split; [|eapply like_same; eauto]); try reflexivity;
      exfalso; [eapply reserves_det; eauto|eapply reserves_det; [apply like_sym; exact H| |]; eauto].
Qed.

Lemma history_det ops f g f' g' tr tr' : Forall (blind eqb) ops -> like f g ->
  history eqb E cl ops f f' tr -> history eqb E cl ops g g' tr' -> Forall2 (same_answer eqb) tr tr' /\ like f' g'.
Proof.
  intros Bl. revert f g f' g' tr tr'. induction Bl as [|o ops B Bl IH]; intros f g f' g' tr tr' H H1 H2.
  - inversion H1; inversion H2; subst. split; auto. eapply like_same; eauto.
  - inversion H1 as [|o1 q1 a1 f1 f2 r1 t1 A1 T1]; subst. inversion H2 as [|o2 q2 a2 g1 g2 r2 t2 A2 T2]; subst.
    edestruct allowed_det as [A H']; [exact B|exact H|exact A1|exact A2|]. destruct (IH _ _ _ _ _ _ H' T1 T2). auto.
Qed.
End Det.

Lemma get_like K (eqb : K -> K -> bool) a b : eq_laws eqb ->
  (forall x, ct_get eqb a x = ct_get eqb b x) <-> like eqb (shown eqb a) (shown eqb b).
Proof.
  intros L. unfold like, like_entry, shown, ct_get_key_value, ct_get, hm_get. split; intros H x; specialize (H x).
  - destruct (hm_entry_of eqb x (ct_map a)) as [[k n]|] eqn:A, (hm_entry_of eqb x (ct_map b)) as [[k' n']|] eqn:B; cbn in H; try discriminate; auto.
    injection H as ->. split; auto. apply entry_of_some in A, B.
    eapply (eq_trans' L); [|apply B]. apply (eq_sym' L). apply A.
  - destruct (hm_entry_of eqb x (ct_map a)) as [[k n]|] eqn:A, (hm_entry_of eqb x (ct_map b)) as [[k' n']|] eqn:B; cbn; try contradiction; auto.
    destruct H as [_ ->]; auto.
Qed.

(** ** C119: equal counters are exchangeable *)
(** whatever the stored representatives of keys and the order of the table *)
Theorem c119_equal_counters_answer_alike : forall K (eqb : K -> K -> bool) cl E ops a b,
  eq_laws eqb -> (forall k, eqb (cl k) k = true) -> 1 <= usize_max E ->
  ct_valid eqb E a -> ct_valid eqb E b -> ct_eq eqb a b = true ->
  Forall (op_ok eqb E) ops -> Forall (blind eqb) ops ->
  Forall2 (same_answer eqb) (snd (ct_run eqb cl E ops a)) (snd (ct_run eqb cl E ops b)) /\
  ct_eq eqb (fst (ct_run eqb cl E ops a)) (fst (ct_run eqb cl E ops b)) = true.
Proof.
  intros K eqb cl E ops a b L CL U Va Vb Q Ok Bl.
  destruct (ct_run eqb cl E ops a) as [a' tr] eqn:Ra, (ct_run eqb cl E ops b) as [b' tr'] eqn:Rb. cbn [fst snd].
  destruct (c51_history_is_finite_map _ _ _ _ _ _ _ _ L CL U Va Ok Ra) as [Va' Ha].
  destruct (c51_history_is_finite_map _ _ _ _ _ _ _ _ L CL U Vb Ok Rb) as [Vb' Hb].
  pose proof (proj1 (get_like a b L) (proj1 (c50_equality_is_same_lookups _ _ _ _ _ L Va Vb) Q)) as Q'.
  destruct (history_det L Bl Q' Ha Hb) as [T Li]. split; auto.
  apply (c50_equality_is_same_lookups _ _ _ _ _ L Va' Vb'). now apply (get_like _ _ L).
Qed.
Print Assumptions c119_equal_counters_answer_alike.

(** ... so calls that lead to the same counts are interchangeable. *)
(** pairs of histories that do the same *)
Definition ways {K} (k : K) (n m h h' : nat) (u v : nat -> nat) (p q : K -> nat -> bool) (g g' : K -> nat -> nat)
  (xs ys : list K) (l l' : list (K * nat)) : list (list (op K) * list (op K)) :=
  [([OPush k], [OExtend h [k]]);
   ([OPush k], [OAdd [(k, 1)]]);
   ([OExtend h xs], map (@OPush K) xs);
   ([OExtend h (xs ++ ys)], [OExtend h' xs; OExtend 0 ys]);
   ([OExtend h xs; OExtendRef h' ys], [OExtendRef h' ys; OExtend h xs]);
   ([OExtend h xs; OAdd l], [OAdd l; OExtend h' xs]);
   ([OAdd l; OAdd l'], [OAdd l'; OAdd l]);
   ([OAdd l], [OAddRef l]);
   ([OSub l], [OSubRef l]);
   ([OInsert k n; OInsert k m], [OInsert k m]);
   ([OInsert k n; ORemove k], [ORemove k]);
   ([ORemove k; ORemove k], [ORemove k]);
   ([OGetMut k u; OGetMut k v], [OGetMut k (fun n => v (u n))]);
   ([OInsert k n; OGetMut k u], [OInsert k (u n)]);
   ([ORetain p; ORetain q], [ORetain (fun k n => p k n && q k n)]);
   ([ORetain p; ORetain q], [ORetain q; ORetain p]);
   ([ORetain (fun _ _ => false)], [OClear]);
   ([OIterMut g; OIterMut g'], [OIterMut (fun k n => g' k (g k n))]);
   ([OSub l; OClear], [OClear; OReserve h]);
   ([OReserve h; OGet k; OIndex k; OIter (fun l => l)], [])].

Section Ways.
Variable K : Type.
Variable eqb : K -> K -> bool.
Hypothesis L : eq_laws eqb.
Variable E : machine.
Variable cl : K -> K.
Hypothesis CL : forall k, eqb (cl k) k = true.

(** what a call that returns does *)
Definition effect (o : op K) (f : fm K) : fm K :=
  match o with
  | OPush k => plus eqb E f [(k, 1)]
  | OExtend _ xs | OExtendRef _ xs => plus eqb E f (unitl xs)
  | OAdd l => plus eqb E f l
  | OAddRef l => plus eqb E f (clonel cl l)
  | OSub l => minus eqb f l
  | OSubRef l => minus eqb f (clonel cl l)
  | OInsert k n => fun x => if eqb x k then match f k with Some (k', _) => Some (k', n) | None => Some (k, n) end else f x
  | ORemove k => fun x => if eqb x k then None else f x
  | OGetMut k g => fun x => match f k with Some (k', old) => if eqb x k then Some (k', g old) else f x | None => f x end
  | OClear => empty
  | ORetain p => fun x => match f x with Some (k, n) => if p k n then Some (k, n) else None | None => None end
  | OIterMut g => fun x => match f x with Some (k, n) => Some (k, g k n) | None => None end
  | _ => f
  end.

Lemma effect_same o f g : same f g -> same (effect o f) (effect o g).
Proof.
  intros H. destruct o; cbn [effect]; auto using plus_same, minus_same; intros x; rewrite ?(H k), ?(H x); reflexivity.
Qed.

Lemma allowed_effect o f f' r : allowed eqb E cl o f f' r -> r <> Panic -> same f' (effect o f).
Proof.
  intros A N. assert (X : forall l r, adds eqb E l f f' r -> r <> Panic -> same f' (plus eqb E f l)).
  { intros l r0 [(_ & Y & _)|(-> & _)] Z; [exact Y|congruence]. }
  assert (Y : forall l r, subtracts eqb E l f f' r -> r <> Panic -> same f' (minus eqb f l)).
  { intros l r0 [(_ & Y & _)|(-> & _)] Z; [exact Y|congruence]. }
  destruct o; cbn [allowed effect] in *; eauto; try solve [destruct A; auto].
  - destruct A as [[_ A]|(_ & _ & ->)]; [eauto|congruence].
  - destruct A as [[_ A]|(_ & _ & ->)]; [eauto|congruence].
  - intros x. destruct (f k) as [[k' old]|] eqn:F.
    + destruct A as [A _]. rewrite (A x). reflexivity.
    + destruct A as [(_ & A & _)|(_ & _ & ->)]; [|congruence]. rewrite (A x). reflexivity.
  - intros x. destruct (f k) as [[k' old]|] eqn:F; destruct A as [A _]; rewrite (A x); reflexivity.
Qed.

Definition effects (ops : list (op K)) (f : fm K) : fm K := fold_left (fun f o => effect o f) ops f.
Lemma effects_same ops f g : same f g -> same (effects ops f) (effects ops g).
Proof. revert f g. induction ops as [|o ops IH]; intros f g H; cbn; auto. apply IH. now apply effect_same. Qed.
Lemma history_effects ops f f' tr : history eqb E cl ops f f' tr -> ~ In Panic tr -> same f' (effects ops f).
Proof.
  induction 1 as [|o ops f f1 f2 r tr A H IH]; intros N; cbn; auto.
  eapply same_trans; [apply IH; intros X; apply N; now right|].
  apply effects_same. eapply allowed_effect; [exact A|]. intros ->. apply N. now left.
Qed.

(** a map as counters show it *)
Definition natural (f : fm K) : Prop :=
  in_range E f /\ (forall x y, eqb x y = true -> f x = f y) /\ (forall x k n, f x = Some (k, n) -> eqb x k = true).

Lemma like_amounts f l m : (forall x, amount eqb x l = amount eqb x m) ->
  (forall x, entry_in eqb l x = None <-> entry_in eqb m x = None) -> like eqb (plus eqb E f l) (plus eqb E f m).
Proof.
  intros A N x. unfold plus, like_entry. rewrite (A x). specialize (N x).
  destruct (f x) as [[]|]; [split; auto; apply (eq_refl' L)|].
  destruct (entry_in eqb l x) as [[k i]|] eqn:X, (entry_in eqb m x) as [[k' j]|] eqn:Y; auto.
  - split; auto. unfold entry_in in X, Y. apply find_some in X, Y. cbn in *.
    eapply (eq_trans' L); [apply (eq_sym' L); apply X|apply Y].
  - destruct N as [_ N]. discriminate N; auto.
  - destruct N as [N _]. discriminate N; auto.
Qed.
Lemma like_swap f l m : like eqb (plus eqb E f (l ++ m)) (plus eqb E f (m ++ l)).
Proof.
  apply like_amounts.
  - intros x. rewrite !CTProofs.amount_app. lia.
  - intros x. rewrite !entry_in_app. destruct (entry_in eqb l x), (entry_in eqb m x); split; congruence.
Qed.
Lemma eqb_cl x k : eqb x (cl k) = eqb x k.
Proof.
  apply eq_true_iff_eq. split; intros H; eapply (eq_trans' L); try exact H; [apply CL|apply (eq_sym' L), CL].
Qed.
Lemma entry_clonel l x : entry_in eqb (clonel cl l) x = option_map (fun e => (cl (fst e), snd e)) (entry_in eqb l x).
Proof.
  unfold entry_in, clonel. induction l as [|[k n] l IH]; cbn; auto. rewrite eqb_cl. destruct (eqb x k); auto.
Qed.
Lemma amount_clonel l x : amount eqb x (clonel cl l) = amount eqb x l.
Proof.
  induction l as [|[k n] l IH]; auto. unfold clonel in *. cbn [map]. rewrite !amount_cons. cbn [fst snd]. rewrite eqb_cl. now rewrite IH.
Qed.

Lemma range_plus f l : in_range E (plus eqb E f l).
Proof.
  intros x k n. unfold plus. destruct (f x) as [[]|]; [|destruct (entry_in eqb l x) as [[]|]; [|discriminate]];
    intros X; injection X as <- <-; apply wrap_le.
Qed.
Lemma pushes f xs : in_range E f -> same (effects (map (@OPush K) xs) f) (plus eqb E f (unitl xs)).
Proof.
  revert f. induction xs as [|x xs IH]; intros f R; cbn [map effects fold_left unitl].
  - apply same_sym. now apply plus_nil.
  - cbn [effect]. eapply same_trans; [apply IH, range_plus|].
    apply (plus_app eqb E f [(x, 1)] (unitl xs)).
Qed.

Lemma ways_like k n m h h' u v p q g g' xs ys l l' ops ops' f : natural f ->
  In (ops, ops') (ways k n m h h' u v p q g g' xs ys l l') -> like eqb (effects ops f) (effects ops' f).
Proof.
  intros (R & C & Ky) W.
  assert (SL : forall a b c d, same a b -> same c d -> like eqb b d -> like eqb a c).
  { intros a b c d A B X z. rewrite (A z), (B z). apply X. }
  assert (Eq : forall a b, same a b -> like eqb a b).
  { intros a b A z. rewrite (A z). apply (entry_refl L). }
  cbn in W. repeat (destruct W as [W|W]; [injection W as <- <-|]); [..|contradiction].
  - apply (like_refl L).
  - apply (like_refl L).
  - apply Eq. apply same_sym, pushes, R.
  - apply Eq. cbn. unfold unitl. rewrite map_app. apply same_sym. apply plus_app.
  - cbn. eapply SL; [apply plus_app|apply plus_app|apply like_swap].
  - cbn. eapply SL; [apply plus_app|apply plus_app|apply like_swap].
  - cbn. eapply SL; [apply plus_app|apply plus_app|apply like_swap].
  - cbn. apply like_amounts; intros x.
    + symmetry. apply amount_clonel.
    + rewrite entry_clonel. destruct (entry_in eqb l x); cbn; split; congruence.
  - cbn. intros x. unfold minus. rewrite entry_clonel. destruct (f x) as [[y c]|]; [|cbn; destruct (entry_in eqb l x) as [[]|]; cbn; auto].
    destruct (entry_in eqb l x) as [[z d]|]; cbn; [destruct (c <=? d); cbn; auto|]; split; auto; apply (eq_refl' L).
  - apply Eq. intros x. cbn. rewrite (eq_refl' L). destruct (eqb x k); auto. destruct (f k) as [[]|]; auto.
  - apply Eq. intros x. cbn. destruct (eqb x k); auto.
  - apply Eq. intros x. cbn. destruct (eqb x k); auto.
  - apply Eq. intros x. cbn. destruct (f k) as [[y c]|] eqn:F; [|reflexivity]. rewrite (eq_refl' L). destruct (eqb x k); auto.
  - apply Eq. intros x. cbn. rewrite (eq_refl' L). destruct (f k) as [[y c]|]; destruct (eqb x k); auto.
  - apply Eq. intros x. cbn. destruct (f x) as [[y c]|]; auto. destruct (p y c), (q y c); auto.
  - apply Eq. intros x. cbn. destruct (f x) as [[y c]|]; auto. destruct (p y c) eqn:P, (q y c) eqn:Q; rewrite ?P, ?Q; auto.
  - apply Eq. intros x. cbn. destruct (f x) as [[y c]|]; auto.
  - apply Eq. intros x. cbn. destruct (f x) as [[y c]|]; auto.
  - apply (like_refl L).
  - apply (like_refl L).
Qed.

Lemma natural_shown c : ct_valid eqb E c -> natural (shown eqb c).
Proof.
  intros V. split; [apply (valid_range V)|]. split.
  - intros x y. apply (shown_cong L).
  - intros x k n H. apply entry_of_some in H. apply H.
Qed.
End Ways.

Theorem c119_ways_of_doing_the_same : forall K (eqb : K -> K -> bool) cl E c k n m h h' u v p q g g' xs ys l l' ops ops',
  eq_laws eqb -> (forall k, eqb (cl k) k = true) -> 1 <= usize_max E -> ct_valid eqb E c ->
  In (ops, ops') (ways k n m h h' u v p q g g' xs ys l l') ->
  Forall (op_ok eqb E) ops -> Forall (op_ok eqb E) ops' ->
  ~ In Panic (snd (ct_run eqb cl E ops c)) -> ~ In Panic (snd (ct_run eqb cl E ops' c)) ->
  ct_eq eqb (fst (ct_run eqb cl E ops c)) (fst (ct_run eqb cl E ops' c)) = true /\
  forall later, Forall (op_ok eqb E) later -> Forall (blind eqb) later ->
    Forall2 (same_answer eqb) (snd (ct_run eqb cl E later (fst (ct_run eqb cl E ops c))))
                              (snd (ct_run eqb cl E later (fst (ct_run eqb cl E ops' c)))).
Proof.
  intros K eqb cl E c k n m h h' u v p q g g' xs ys l l' ops ops' L CL U V W O O' N N'.
  destruct (ct_run eqb cl E ops c) as [a tr] eqn:R, (ct_run eqb cl E ops' c) as [b tr'] eqn:R'. cbn [fst snd] in *.
  destruct (c51_history_is_finite_map _ _ _ _ _ _ _ _ L CL U V O R) as [Va Ha].
  destruct (c51_history_is_finite_map _ _ _ _ _ _ _ _ L CL U V O' R') as [Vb Hb].
  assert (Q : ct_eq eqb a b = true).
  { apply (c50_equality_is_same_lookups _ _ _ _ _ L Va Vb). apply (get_like _ _ L). intros x.
    rewrite (history_effects Ha N x), (history_effects Hb N' x).
    eapply ways_like; [exact L|exact CL|exact (natural_shown L V)|exact W]. }
  split; auto. intros later Ol Bl. now apply c119_equal_counters_answer_alike.
Qed.
Print Assumptions c119_ways_of_doing_the_same.

(** Another counter with the counts of [ca]: other keys stored, another order. *)
Definition ca' : counter key := Counter [((2, 21), 2); ((1, 12), 3); ((3, 33), 1)].
Definition later_a : list (op key) :=
  [OGetKeyValue (3, 0); OIter (fun l => l); OSub (ct_map cb'); OExtend 15 [(1, 0)]; OAdd [((3, 0), 9); ((2, 0), 254)]; OIndex (1, 0); OLen].
Example c119_example : ca <> ca' /\ ct_valid keq Ec ca' /\ ct_eq keq ca ca' = true /\
  Forall (op_ok keq Ec) later_a /\ Forall (blind keq) later_a.
Proof.
  split; [discriminate|]. split; [split; [split; repeat constructor|]; apply Nat.leb_le; reflexivity|]. split; [reflexivity|].
  split; [|repeat constructor]. unfold later_a.
  repeat (apply Forall_cons; [cbn [op_ok]; try exact Logic.I|]); try apply Forall_nil.
  - intros l. apply Permutation_refl.
  - apply cb_valid.
  - split; repeat constructor; apply Nat.leb_le; reflexivity.
Qed.
(** The later answers, among them a hint for which there is no room and a count that overflows. *)
Example c119_answers :
  snd (ct_run keq kcl Ec later_a ca) =
    [Ret (REntry (Some ((3, 30), 1))); Ret (RList (ct_map ca)); Ret RUnit; Panic; Panic; Panic; Ret (RNat 2)] /\
  snd (ct_run keq kcl Ec later_a ca') =
    [Ret (REntry (Some ((3, 33), 1))); Ret (RList (ct_map ca')); Ret RUnit; Panic; Panic; Panic; Ret (RNat 2)].
Proof. split; reflexivity. Qed.
(** A closure that looks at the stored key tells the two apart. *)
Example c119_limits :
  let o := ORetain (fun k _ => snd k =? 20) in
  ~ blind keq o /\ ct_eq keq (fst (ct_run keq kcl Ec [o] ca)) (fst (ct_run keq kcl Ec [o] ca')) = false.
Proof.
  split; [|reflexivity]. intros B. specialize (B (2, 20) (2, 21) 2 eq_refl). discriminate B.
Qed.
(** Counting at once and one by one; with a hint that does not fit only the first fails. *)
Example c119_ways_example :
  let xs := [(1, 0); (4, 0); (4, 1)] in
  snd (ct_run keq kcl Ec [OExtend 3 xs] ca) = [Ret RUnit] /\
  snd (ct_run keq kcl Ec (map (@OPush key) xs) ca) = [Ret RUnit; Ret RUnit; Ret RUnit] /\
  map (fun o => snd (ct_step keq kcl Ec o (fst (ct_run keq kcl Ec [OExtend 3 xs] ca)))) [OLen; OGet (4, 9); OGet (1, 9)]
    = [Ret (RNat 4); Ret (ROpt (Some 2)); Ret (ROpt (Some 4))] /\
  snd (ct_run keq kcl Ec [OExtend 14 xs] ca) = [Panic].
Proof. repeat split. Qed.
