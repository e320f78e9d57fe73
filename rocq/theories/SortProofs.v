(** Proofs about sorting by comparisons, for C102. *)
From Coq Require Import Permutation Factorial.
From Verif Require Import Base SortSpec.
Set Implicit Arguments.
Local Open Scope list_scope.

(** *** All permutations of [0..k) *)
Fixpoint ins_all (x : nat) (l : list nat) : list (list nat) :=
  match l with
  | [] => [[x]]
  | y :: r => (x :: l) :: map (cons y) (ins_all x r)
  end.
Fixpoint perms (k : nat) : list (list nat) :=
  match k with
  | 0 => [[]]
  | S k' => flat_map (ins_all k') (perms k')
  end.
Lemma ins_all_perm x l q : In q (ins_all x l) -> Permutation (x :: l) q.
Proof.
  revert q. induction l as [|y r IH]; intros q; cbn.
  - intros [<-|[]]. reflexivity.
  - intros [<-|H]; [reflexivity|]. apply in_map_iff in H as (q' & <- & H). rewrite <- (IH _ H). apply perm_swap.
Qed.
Lemma ins_all_length x l : length (ins_all x l) = S (length l).
Proof. induction l; cbn; [reflexivity|]. now rewrite map_length, IHl. Qed.
Lemma ins_all_remove x l q : ~ In x l -> In q (ins_all x l) -> remove Nat.eq_dec x q = l.
Proof.
  revert q. induction l as [|y r IH]; intros q N; cbn.
  - intros [<-|[]]. cbn. now destruct (Nat.eq_dec x x).
  - cbn in N. intros [<-|H].
    + cbn. destruct (Nat.eq_dec x x); [|congruence]. destruct (Nat.eq_dec x y); [intuition congruence|].
      f_equal. apply notin_remove. auto.
    + apply in_map_iff in H as (q' & <- & H). cbn. destruct (Nat.eq_dec x y); [intuition congruence|]. f_equal. apply IH; auto.
Qed.
Lemma ins_all_NoDup x l : ~ In x l -> NoDup (ins_all x l).
Proof.
  induction l as [|y r IH]; intros N; cbn; [repeat constructor; auto|]. cbn in N. constructor.
  - rewrite in_map_iff. intros (q & Q & _). injection Q as -> _. intuition.
  - apply FinFun.Injective_map_NoDup; [|apply IH; auto]. intros a b Q. now injection Q.
Qed.
Lemma perms_perm k p : In p (perms k) -> Permutation (seq 0 k) p.
Proof.
  revert p. induction k as [|k IH]; intros p; cbn [perms]; [intros [<-|[]]; reflexivity|].
  rewrite in_flat_map. intros (q & Hq & Hp). apply ins_all_perm in Hp. rewrite <- Hp, <- (IH _ Hq).
  rewrite seq_S. cbn. symmetry. apply Permutation_cons_append.
Qed.
Lemma perms_notin k p : In p (perms k) -> ~ In k p.
Proof. intros H I. apply perms_perm in H. apply (Permutation_in _ (Permutation_sym H)) in I. apply in_seq in I. lia. Qed.
Lemma perms_NoDup k : NoDup (perms k).
Proof.
  induction k as [|k IH]; cbn [perms]; [repeat constructor; auto|].
  assert (H : forall p, In p (perms k) -> ~ In k p) by (intros; now apply perms_notin).
  revert H IH. generalize (perms k) as ps. induction ps as [|p ps IHp]; intros H ND; cbn; [constructor|].
  inversion ND as [|? ? Np NDp]; subst.
  assert (A : NoDup (ins_all k p)) by (apply ins_all_NoDup, H; left; auto).
  assert (B : NoDup (flat_map (ins_all k) ps)) by (apply IHp; [intros; apply H; right; auto|auto]).
  assert (C : forall q, In q (ins_all k p) -> ~ In q (flat_map (ins_all k) ps)).
  { intros q Hq. rewrite in_flat_map. intros (p' & Hp' & Hq'). apply Np.
    rewrite <- (@ins_all_remove k p q (H p (or_introl eq_refl)) Hq), (@ins_all_remove k p' q (H p' (or_intror Hp')) Hq'). exact Hp'. }
  revert A C. generalize (ins_all k p) as l. induction l as [|x l IHl]; intros A C; cbn; [exact B|].
  inversion A; subst. constructor.
  - rewrite in_app_iff. intros [X|X]; [auto|]. exact (C x (or_introl eq_refl) X).
  - apply IHl; auto. intros q Hq. apply C. right; auto.
Qed.
Lemma perms_length k : length (perms k) = fact k.
Proof.
  induction k as [|k IH]; [reflexivity|]. cbn [perms].
  assert (H : forall p, In p (perms k) -> length p = k).
  { intros p Hp. apply perms_perm in Hp. now rewrite <- (Permutation_length Hp), seq_length. }
  assert (L : forall ps, (forall p, In p ps -> length p = k) -> length (flat_map (ins_all k) ps) = S k * length ps).
  { induction ps as [|p ps IHp]; intros Hp; cbn [flat_map length]; [lia|].
    rewrite app_length, ins_all_length, IHp, (Hp p (or_introl eq_refl)) by (intros; apply Hp; right; auto). lia. }
  rewrite (L _ H), IH. reflexivity.
Qed.

(** *** Few questions, few results *)
Fixpoint results (n : nat) (t : sorting) : list (list nat) :=
  match t with
  | Result r => [r]
  | Compare _ _ a b => match n with 0 => [] | S n' => results n' a ++ results n' b end
  end.
Lemma results_length n : forall t, length (results n t) <= 2 ^ n.
Proof.
  induction n as [|n IH]; intros [r|i j a b]; cbn [results length]; try (cbn; lia).
  - pose proof (Nat.pow_nonzero 2 (S n)). lia.
  - rewrite app_length. pose proof (IH a). pose proof (IH b). cbn [Nat.pow]. lia.
Qed.
Lemma results_in t key : forall n, asked t key <= n -> In (result t key) (results n t).
Proof.
  induction t as [r|i j a IHa b IHb]; intros n H; cbn [asked result] in *.
  - destruct n; left; reflexivity.
  - destruct n as [|n]; [lia|]. cbn [results]. rewrite in_app_iff. destruct (key i <? key j); [left; apply IHa|right; apply IHb]; lia.
Qed.

(** *** Sorted lists *)
Lemma sorted_unique (l l' : list nat) : ForallOrdPairs ge l -> ForallOrdPairs ge l' -> Permutation l l' -> l = l'.
Proof.
  revert l'. induction l as [|x l IH]; intros [|y l'] S S' P; auto.
  - apply Permutation_nil in P. discriminate.
  - symmetry in P. apply Permutation_nil in P. discriminate.
  - inversion S as [|? ? F G]; subst. inversion S' as [|? ? F' G']; subst. rewrite Forall_forall in F, F'.
    assert (x = y).
    { pose proof (Permutation_in x P (or_introl eq_refl)) as I. pose proof (Permutation_in y (Permutation_sym P) (or_introl eq_refl)) as J.
      destruct I as [->|I]; [auto|]. destruct J as [->|J]; [auto|]. specialize (F' _ I). specialize (F _ J). lia. }
    subst y. f_equal. apply IH; auto. eapply Permutation_cons_inv; eauto.
Qed.

(** *** The position of a number *)
Fixpoint pos (x : nat) (p : list nat) : nat :=
  match p with [] => 0 | y :: r => if x =? y then 0 else S (pos x r) end.
Lemma pos_lt x p : In x p -> pos x p < length p.
Proof. induction p as [|y r IH]; cbn; [tauto|]. destruct (Nat.eqb_spec x y); [lia|]. intros [->|H]; [congruence|]. specialize (IH H). lia. Qed.
Lemma pos_inj x y p : In x p -> In y p -> pos x p = pos y p -> x = y.
Proof.
  induction p as [|z r IH]; cbn; [tauto|]. destruct (Nat.eqb_spec x z), (Nat.eqb_spec y z); try congruence; try lia.
  intros [?|A] [?|B] Q; try congruence. apply IH; auto.
Qed.
Lemma pos_map p : NoDup p -> map (fun x => pos x p) p = seq 0 (length p).
Proof.
  induction p as [|y r IH]; intros ND; [reflexivity|]. inversion ND as [|? ? N ND']; subst. cbn [map length seq pos]. rewrite Nat.eqb_refl. f_equal.
  rewrite <- seq_shift, <- (IH ND'), map_map. apply map_ext_in. intros x Hx. destruct (Nat.eqb_spec x y); [congruence|reflexivity].
Qed.

(** the entry at position [i] is the [pos i p]-th largest *)
Definition ranked (k : nat) (p : list nat) (i : nat) : nat := k - pos i p.
Lemma ranked_sorted k p : In p (perms k) -> map (ranked k p) p = rev (seq 1 k).
Proof.
  intros Hp. apply perms_perm in Hp. assert (ND : NoDup p) by (eapply Permutation_NoDup; [exact Hp|apply seq_NoDup]).
  assert (L : length p = k) by (now rewrite <- (Permutation_length Hp), seq_length).
  transitivity (map (fun j => k - j) (map (fun x => pos x p) p)); [rewrite map_map; reflexivity|].
  rewrite (pos_map ND), L. clear. induction k as [|k IH]; [reflexivity|].
  rewrite (seq_S k 1), rev_app_distr. cbn [rev app]. cbn [seq map]. rewrite Nat.sub_0_r. cbn [Nat.add]. f_equal.
  rewrite <- IH, <- seq_shift, map_map. apply map_ext. intros. lia.
Qed.
Lemma ranked_inj k p x y : In p (perms k) -> x < k -> y < k -> ranked k p x = ranked k p y -> x = y.
Proof.
  intros Hp Hx Hy. apply perms_perm in Hp. unfold ranked.
  assert (I : forall z, z < k -> In z p) by (intros z Hz; eapply Permutation_in; [exact Hp|]; apply in_seq; lia).
  assert (L : length p = k) by (now rewrite <- (Permutation_length Hp), seq_length).
  pose proof (pos_lt _ _ (I _ Hx)). pose proof (pos_lt _ _ (I _ Hy)). intros Q. apply (@pos_inj x y p); auto. lia.
Qed.
Lemma map_inj_eq (f : nat -> nat) (P : nat -> Prop) : (forall x y, P x -> P y -> f x = f y -> x = y) ->
  forall l l', Forall P l -> Forall P l' -> map f l = map f l' -> l = l'.
Proof.
  intros I. induction l as [|x l IH]; intros [|y l'] F F' Q; try discriminate; auto.
  inversion F; inversion F'; subst. injection Q as Q1 Q2. f_equal; auto.
Qed.
Lemma rev_seq_ge a k : ForallOrdPairs ge (rev (seq a k)).
Proof.
  induction k as [|k IH]; [constructor|]. rewrite seq_S, rev_app_distr. cbn [rev app]. constructor; [|exact IH].
  apply Forall_forall. intros x Hx. apply in_rev, in_seq in Hx. lia.
Qed.
(** an order that puts these numbers in falling order is [p] *)
Lemma order_found k p r : In p (perms k) ->
  Permutation (map (ranked k p) (seq 0 k)) (map (ranked k p) (filter (fun i => i <? k) r)) ->
  ForallOrdPairs ge (map (ranked k p) (filter (fun i => i <? k) r)) -> filter (fun i => i <? k) r = p.
Proof.
  intros Hp P S. apply (@map_inj_eq (ranked k p) (fun i => i < k)).
  - intros x y Hx Hy. now apply ranked_inj.
  - apply Forall_forall. intros x Hx. apply filter_In in Hx as [_ Hx]. now apply Nat.ltb_lt.
  - apply Forall_forall. intros x Hx. apply perms_perm in Hp. apply (Permutation_in _ (Permutation_sym Hp)) in Hx. apply in_seq in Hx. lia.
  - rewrite (ranked_sorted _ _ Hp). apply sorted_unique; [exact S|apply rev_seq_ge|].
    rewrite <- P, <- (ranked_sorted _ _ Hp). apply Permutation_map. now apply perms_perm.
Qed.

(** *** Factorials are large *)
Lemma fact_ge m n : m ^ n <= fact (m + n).
Proof.
  induction n as [|n IH]; [cbn; pose proof (lt_O_fact (m + 0)); lia|].
  rewrite Nat.add_succ_r. change (fact (S (m + n))) with (S (m + n) * fact (m + n)). cbn [Nat.pow]. apply Nat.mul_le_mono; [lia|exact IH].
Qed.
Lemma fact_beats a b : exists k, 0 < k /\ 2 ^ (a * k + b) < fact k.
Proof.
  set (m := 2 ^ (S a)). set (n := a * m + b + 1). exists (m + n). split; [unfold n; lia|].
  eapply Nat.lt_le_trans; [|apply fact_ge]. unfold m. rewrite <- Nat.pow_mul_r. apply Nat.pow_lt_mono_r; [lia|]. fold m.
  unfold n. nia.
Qed.

(** *** Merge sort as a way to sort *)
Fixpoint tbind (t : sorting) (f : list nat -> sorting) : sorting :=
  match t with
  | Result r => f r
  | Compare i j a b => Compare i j (tbind a f) (tbind b f)
  end.
Lemma tbind_result t f key : result (tbind t f) key = result (f (result t key)) key.
Proof. induction t as [r|i j a IHa b IHb]; cbn [tbind result asked]; [reflexivity|]. destruct (key i <? key j); auto. Qed.
Lemma tbind_asked t f key : asked (tbind t f) key = asked t key + asked (f (result t key)) key.
Proof. induction t as [r|i j a IHa b IHb]; cbn [tbind result asked]; [reflexivity|]. destruct (key i <? key j); lia. Qed.
Fixpoint merge_t (l1 : list nat) : list nat -> sorting :=
  fix inner (l2 : list nat) : sorting :=
    match l1, l2 with
    | [], _ => Result l2
    | _, [] => Result l1
    | x :: r1, y :: r2 =>
        Compare y x (tbind (inner r2) (fun l => Result (y :: l))) (tbind (merge_t r1 l2) (fun l => Result (x :: l)))
    end.
Fixpoint msort_t (n : nat) (l : list nat) : sorting :=
  match n, l with
  | S n', _ :: _ :: _ =>
      tbind (msort_t n' (firstn (Nat.div2 (length l)) l)) (fun l1 =>
      tbind (msort_t n' (skipn (Nat.div2 (length l)) l)) (fun l2 => merge_t l1 l2))
  | _, _ => Result l
  end.
Section Keys.
Variable key : nat -> nat.
Definition rising (l : list nat) : Prop := ForallOrdPairs (fun i j => key i <= key j) l.
Lemma merge_ok l1 : forall l2, rising l1 -> rising l2 ->
  rising (result (merge_t l1 l2) key) /\ Permutation (l1 ++ l2) (result (merge_t l1 l2) key) /\ asked (merge_t l1 l2) key <= length l1 + length l2.
Proof.
  induction l1 as [|x r1 IH1].
  - intros l2 _ S. destruct l2; cbn; auto using Nat.le_0_l.
  - induction l2 as [|y r2 IH2]; intros S1 S2.
    + cbn. rewrite app_nil_r. auto using Nat.le_0_l.
    + inversion S1 as [|? ? F1 G1]; subst. inversion S2 as [|? ? F2 G2]; subst. rewrite Forall_forall in F1, F2.
      change (merge_t (x :: r1) (y :: r2)) with
        (Compare y x (tbind (merge_t (x :: r1) r2) (fun l => Result (y :: l))) (tbind (merge_t r1 (y :: r2)) (fun l => Result (x :: l)))).
      cbn [result asked]. destruct (Nat.ltb_spec (key y) (key x)) as [L|L]; rewrite tbind_result, tbind_asked; cbn [result asked].
      * destruct (IH2 S1 G2) as (A & B & C). split; [|split].
        -- constructor; [|exact A]. apply Forall_forall. intros z Hz. apply (Permutation_in _ (Permutation_sym B)) in Hz.
           cbn in Hz. rewrite in_app_iff in Hz. destruct Hz as [<-|[Hz|Hz]]; [lia| |auto]. specialize (F1 _ Hz). lia.
        -- rewrite <- B. symmetry. apply (Permutation_middle (x :: r1)).
        -- cbn [length] in *. lia.
      * destruct (IH1 (y :: r2) G1 S2) as (A & B & C). split; [|split].
        -- constructor; [|exact A]. apply Forall_forall. intros z Hz. apply (Permutation_in _ (Permutation_sym B)) in Hz.
           rewrite in_app_iff in Hz. cbn in Hz. destruct Hz as [Hz|[<-|Hz]]; [auto|lia|]. specialize (F2 _ Hz). lia.
        -- cbn [app]. now rewrite <- B.
        -- cbn [length] in *. lia.
Qed.
Lemma msort_ok n : forall l, length l <= 2 ^ n ->
  rising (result (msort_t n l) key) /\ Permutation l (result (msort_t n l) key) /\ asked (msort_t n l) key <= length l * n.
Proof.
  induction n as [|n IH]; intros l L.
  - destruct l as [|x [|y l]]; [..|cbn in L; lia]; cbn; repeat split; auto; repeat constructor.
  - destruct l as [|x [|y l]]; [cbn; repeat split; auto; repeat constructor..|]; [lia|].
    set (q := x :: y :: l) in *. change (msort_t (S n) q) with
      (tbind (msort_t n (firstn (Nat.div2 (length q)) q)) (fun l1 => tbind (msort_t n (skipn (Nat.div2 (length q)) q)) (fun l2 => merge_t l1 l2))).
    set (h := Nat.div2 (length q)). assert (Hh : h <= 2 ^ n /\ length q - h <= 2 ^ n).
    { pose proof (Nat.div2_odd (length q)) as D. fold h in D. cbn [Nat.pow] in L. destruct (Nat.odd (length q)); cbn [Nat.b2n] in D; [|lia].
      split; [lia|]. enough (length q <> 2 ^ n + (2 ^ n + 0)) by lia. lia. }
    pose proof (firstn_length h q) as L1. pose proof (skipn_length h q) as L2.
    destruct (IH (firstn h q)) as (A1 & B1 & C1); [lia|]. destruct (IH (skipn h q)) as (A2 & B2 & C2); [lia|].
    rewrite !tbind_result, !tbind_asked. destruct (merge_ok A1 A2) as (A & B & C). split; [exact A|]. split.
    + rewrite <- B, <- B1, <- B2. now rewrite firstn_skipn.
    + rewrite <- (Permutation_length B1), <- (Permutation_length B2) in C.
      assert (H : length (firstn h q) + length (skipn h q) = length q) by (rewrite <- app_length, firstn_skipn; reflexivity).
      rewrite Nat.mul_succ_r, <- H. rewrite H at 2. nia.
Qed.
End Keys.
