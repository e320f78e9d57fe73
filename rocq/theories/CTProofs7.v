(** Proofs about the counter: keys whose [Hash], [Eq] or destructor panics. *)
From Coq Require Import Permutation.
From Verif Require Import Base HMModel HMProofs CTModel CTModel3 UserSpec2 CTSpec CTSpec2 CTRun CTProofs CTProofs2 CTProofs3 CTProofs4 CTProofs5 CTProofs6.
Local Open Scope outcome_scope.
Set Implicit Arguments.

Section Proofs.
Variable K : Type.
Variable eqb : K -> K -> bool.
Hypothesis L : eq_laws eqb.
Variable E : machine.
Variable hp : hmap K nat -> K -> bool.
Variable rp : hmap K nat -> nat -> option (hmap K nat * hmap K nat).
Hypothesis RP : ct_rehashes rp.
Variable dp : K -> bool.
Implicit Types (c a b : counter K) (m : hmap K nat) (x k : K) (l : list (K * nat)).

Notation sh := (shown eqb).
Notation valid := (ct_valid eqb E).
Notation get := (ct_get eqb).
Notation cnt c x := (opt_count (ct_get eqb c x)).
Notation occ := (occ eqb).

(** the keys lost when room for one more entry is made *)
Definition thrown c : option (list K) := option_map (fun p => map fst (snd p)) (rp (ct_map c) 1).

(** the entries left when making room for [k] panics *)
Definition spared c k : option (hmap K nat) :=
  if hp (ct_map c) k || ct_contains_key eqb c k || (ct_len c =? alloc_max E) then None
  else option_map fst (rp (ct_map c) 1).

Definition after c k : counter K :=
  match spared c k with Some m => Counter m | None => c end.

(** how counting [v] times the key [k] on top of [c] ends *)
Definition counts c k v : outcome unit :=
  counting (hp (ct_map c)) dp (ct_contains_key eqb c k) (ct_len c =? alloc_max E) (thrown c)
    (debug_build E && (usize_max E <? cnt c k + v)) k.

(** how taking [v] off the count of [k] ends *)
Definition takes c k v : outcome unit :=
  taking (hp (ct_map c)) dp (ct_get_key_value eqb c k) (ct_len c =? alloc_max E) (thrown c) k v.

Lemma lost_valid c m gone : valid c -> Permutation (gone ++ m) (ct_map c) -> valid (Counter m).
Proof.
  intros V P. pose proof (valid_wf V) as W. destruct V as [[_ F] Ln]. pose proof (Permutation_length P) as Pl. rewrite app_length in Pl.
  pose proof (wf_perm L (Permutation_sym P) W) as W'.
  split; [split|]; cbn [ct_map].
  - apply (wf_keys eqb). clear -W'. unfold hm_wf in *. induction gone as [|e g IH]; auto. inversion W'; subst. auto.
  - rewrite Forall_forall in *. intros e I. apply F. apply (Permutation_in _ P). apply in_or_app; auto.
  - unfold ct_len in *. cbn [ct_map]. lia.
Qed.

Lemma after_valid c k : valid c -> valid (after c k).
Proof.
  intros V. unfold after, spared. destruct (hp (ct_map c) k || ct_contains_key eqb c k || (ct_len c =? alloc_max E)); auto.
  destruct (rp (ct_map c) 1) as [[m gone]|] eqn:Q; cbn; auto. exact (lost_valid _ _ V (RP Q)).
Qed.

Lemma drop_drops ks : ct_drop dp ks = drops dp ks.
Proof.
  unfold drops. induction ks as [|k r IH]; cbn; auto. destruct (dp k) eqn:Q; auto.
  cbn [length]. unfold ct_unwind. clear IH.
  assert (X : existsb dp r = negb (length (filter dp r) =? 0)).
  { induction r as [|y r IH]; cbn; auto. destruct (dp y); cbn; auto. }
  rewrite X. destruct (length (filter dp r)); reflexivity.
Qed.

Lemma bump_u_cases k v c : valid c -> v <= usize_max E ->
  (counts c k v = Ret tt /\ ct_bump_u eqb hp rp dp E k v c = ct_bump eqb E k v c /\
     exists c', ct_bump eqb E k v c = (c', Ret tt)) \/
  (counts c k v <> Ret tt /\ ct_bump_u eqb hp rp dp E k v c = (after c k, counts c k v)).
Proof.
  intros V B. unfold after, spared, counts, counting, adding, ct_bump_u, ct_bump, ct_contains_key, ct_get, hm_contains, thrown.
  unfold ct_unwind, dropping. cbn [existsb]. rewrite orb_false_r.
  destruct (hp (ct_map c) k); cbn [orb]; [right; destruct (dp k); split; auto; discriminate|].
  unfold hm_entry. destruct (hm_get eqb k (ct_map c)) as [n|] eqn:G; cbn [obind opt_count orb].
  - rewrite drop_drops. unfold drops; cbn [filter]. destruct (dp k); cbn [length].
    + right. split; auto. discriminate.
    + unfold uadd. destruct (n + v <=? usize_max E) eqn:Q.
      * apply Nat.leb_le in Q. replace (usize_max E <? n + v) with false by (symmetry; apply Nat.ltb_ge; lia).
        rewrite andb_false_r. left. eauto.
      * apply Nat.leb_gt in Q. replace (usize_max E <? n + v) with true by (symmetry; apply Nat.ltb_lt; lia).
        destruct (debug_build E); cbn.
        -- right. split; auto. discriminate.
        -- left. eauto.
  - unfold hm_reserve. fold (ct_len c). assert (Ln : ct_len c <= alloc_max E) by apply V.
    destruct (ct_len c + 1 <=? alloc_max E) eqn:Q; cbn [obind].
    + apply Nat.leb_le in Q. replace (ct_len c =? alloc_max E) with false by (symmetry; apply Nat.eqb_neq; lia).
      destruct (rp (ct_map c) 1) as [[m gone]|] eqn:X; cbn [option_map fst snd].
      { right. split; auto. destruct (dp k || existsb dp (map fst gone)); discriminate. }
      replace (usize_max E <? 0 + v) with false by (symmetry; apply Nat.ltb_ge; lia). rewrite andb_false_r.
      unfold uadd. replace (0 + v <=? usize_max E) with true by (symmetry; apply Nat.leb_le; lia).
      left. eauto.
    + apply Nat.leb_gt in Q. replace (ct_len c =? alloc_max E) with true by (symmetry; apply Nat.eqb_eq; lia).
      right. destruct (dp k); split; auto; discriminate.
Qed.

Lemma lower_u_cases k v c : valid c ->
  exists c', ct_lower_u eqb hp rp dp E k v c = (c', takes c k v) /\ valid c' /\
    ((hp (ct_map c) k = true /\ c' = c) \/
     (exists m, hp (ct_map c) k = false /\ spared c k = Some m /\ c' = Counter m /\ takes c k v <> Ret tt) \/
     (hp (ct_map c) k = false /\ spared c k = None /\ same (sh c') (minus eqb (sh c) [(k, v)]))).
Proof.
  intros V. unfold takes, taking, ct_lower_u, spared, ct_contains_key, hm_contains. unfold ct_unwind, dropping.
  cbn [existsb]. rewrite orb_false_r.
  destruct (hp (ct_map c) k); cbn [orb]; [exists c; auto|].
  destruct (@lower_cases K eqb L E k v c V) as [(c1 & H & V1 & S1 & _)|(H & O1 & O2)];
    unfold ct_lower, hm_entry, hm_get in *; unfold shown, ct_get_key_value in *.
  - destruct (hm_entry_of eqb k (ct_map c)) as [[k0 n]|] eqn:Q; cbn [option_map snd fst] in *.
    + destruct (n <=? v); [injection H as <-|].
      * eexists. split; [rewrite drop_drops; reflexivity|]. split; [exact V1|]. auto.
      * destruct (usub E n v); try discriminate. injection H as <-. eexists. split; [rewrite drop_drops; reflexivity|].
        split; [exact V1|]. auto.
    + unfold hm_reserve in *. fold (ct_len c) in *. destruct (ct_len c + 1 <=? alloc_max E) eqn:X; cbn [obind] in *; [|discriminate].
      injection H as <-. apply Nat.leb_le in X.
      replace (ct_len c =? alloc_max E) with false by (symmetry; apply Nat.eqb_neq; lia). cbn [orb]. unfold thrown.
      destruct (rp (ct_map c) 1) as [[m gone]|] eqn:Y; cbn [option_map fst snd].
      * eexists. split; [reflexivity|]. split; [exact (lost_valid _ _ V (RP Y))|]. right; left. exists m.
        repeat split. cbn [existsb]. destruct (dp k || existsb dp (map fst gone)); discriminate.
      * exists c. rewrite drop_drops. auto 8.
  - rewrite O1 in *. cbn [option_map] in *. unfold hm_reserve in *. fold (ct_len c) in *. rewrite O2 in *.
    replace (alloc_max E + 1 <=? alloc_max E) with false by (symmetry; apply Nat.leb_gt; lia). cbn [obind] in *.
    rewrite Nat.eqb_refl. cbn [orb]. exists c. split; auto. split; auto. right; right. split; auto. split; auto.
    intros x. unfold minus. destruct (hm_entry_of eqb x (ct_map c)) as [[k1 n1]|] eqn:Y; auto.
    unfold entry_in; cbn [find fst]. destruct (eqb x k) eqn:Z; auto. rewrite (entry_of_cong L _ Z) in Y. congruence.
Qed.

(** ** Loops *)
Fixpoint floop (fin : outcome unit -> list K -> outcome unit)
  (body : K * nat -> counter K -> counter K * outcome unit) l c : counter K * outcome unit :=
  match l with
  | [] => (c, Ret tt)
  | e :: r => match body e c with
              | (c', Ret _) => floop fin body r c'
              | (c', o) => (c', fin o (map fst r))
              end
  end.

Lemma floop_each body l c : for_each body l c = floop (fun o _ => o) body l c.
Proof.
  revert c. induction l as [|e l IH]; intros c; cbn; auto. destruct (body e c) as [c' [[]| | | |]]; auto.
Qed.

Definition ends (o : outcome unit) : Prop := o = Ret tt \/ o = Panic \/ o = Abort.

Lemma floop_owned body l c : (forall e c, valid c -> In e l -> valid (fst (body e c)) /\ ends (snd (body e c))) -> valid c ->
  ct_for_owned dp body l c = floop (stopping dp) body l c.
Proof.
  revert c. induction l as [|e l IH]; intros c H V; cbn; auto.
  destruct (H e c V (or_introl eq_refl)) as [V' N]. destruct (body e c) as [c' o]. cbn in V', N.
  destruct N as [->|[->| ->]]; auto. apply IH; auto. intros e0 c0 V0 I0. apply H; auto. now right.
Qed.

Lemma dropping_ends ks : ends (dropping dp ks).
Proof. unfold ends, dropping. destruct (existsb dp ks); auto. Qed.
Lemma drops_ends ks : ends (drops dp ks).
Proof. unfold ends, drops. destruct (length (filter dp ks)) as [|[|n]]; auto. Qed.
Lemma counts_ends c k v : ends (counts c k v).
Proof.
  unfold counts, counting, adding. pose proof (dropping_ends [k]) as A. pose proof (drops_ends [k]) as B.
  destruct (hp (ct_map c) k); [|destruct (ct_contains_key eqb c k)]; [| |destruct (ct_len c =? alloc_max E)];
    repeat match goal with
    | H : ends ?o |- context [match ?o with _ => _ end] => destruct H as [->|[->| ->]]
    end; unfold ends; auto; try (destruct (debug_build E && _); auto; fail);
    destruct (thrown c), (ct_contains_key eqb c k); try apply dropping_ends; destruct (debug_build E && _); auto.
Qed.
Lemma takes_ends c k v : ends (takes c k v).
Proof.
  unfold takes, taking. destruct (hp (ct_map c) k); [apply dropping_ends|]. destruct (ct_get_key_value eqb c k) as [[k0 n]|].
  - destruct (n <=? v); apply drops_ends.
  - destruct (ct_len c =? alloc_max E); [apply dropping_ends|]. destruct (thrown c); [apply dropping_ends|apply drops_ends].
Qed.

Section Loop.
Variable fin : outcome unit -> list K -> outcome unit.
Variable key : K -> K.
Hypothesis KE : forall k, eqb (key k) k = true.

Lemma add_loop l c : valid c -> Forall (fun e : K * nat => snd e <= usize_max E) l ->
  exists c' r, floop fin (fun e => ct_bump_u eqb hp rp dp E (key (fst e)) (snd e)) l c = (c', r) /\ valid c' /\
  ((forall x, get c' x = added_on eqb E (get c) l x) /\ r = Ret tt \/
   exists l1 e l2 c1, l = l1 ++ e :: l2 /\ valid c1 /\ (forall x, get c1 x = added_on eqb E (get c) l1 x) /\
     c' = after c1 (key (fst e)) /\
     counts c1 (key (fst e)) (snd e) <> Ret tt /\ r = fin (counts c1 (key (fst e)) (snd e)) (map fst l2)).
Proof.
  revert c. induction l as [|e l IH]; intros c V F.
  - exists c, (Ret tt). split; auto.
  - inversion F as [|? ? F1 F2]; subst. cbn [floop].
    destruct (@bump_u_cases (key (fst e)) (snd e) c V F1) as [(Q & H & c1 & H1)|[Q H]].
    + rewrite H, H1. destruct (@bump_cases K eqb L E (key (fst e)) (snd e) c V F1) as [(c2 & H2 & V1 & S1 & _)|[H2 _]];
        rewrite H1 in H2; [injection H2 as <-|discriminate].
      destruct (IH c1 V1 F2) as (c' & r & H' & V' & A). exists c', r. split; auto. split; auto.
      pose proof (get_bumps V S1) as G1.
      assert (Step : forall l0 x, added_on eqb E (get c1) l0 x = added_on eqb E (get c) (e :: l0) x).
      { intros l0 x. apply added_step. intros y. rewrite G1, added_one; cbn [fst snd].
        rewrite (eqb_cong_r L y (KE (fst e))). reflexivity. }
      destruct A as [(G & ->)|(l1 & e1 & l2 & c3 & -> & V3 & G & A & N & ->)].
      * left. split; auto. intros x. rewrite G. apply Step.
      * right. exists (e :: l1), e1, l2, c3. split; auto. split; auto. split; [intros x; rewrite G; apply Step|]. auto.
    + rewrite H. exists (after c (key (fst e))), (fin (counts c (key (fst e)) (snd e)) (map fst l)).
      split; [destruct (counts c (key (fst e)) (snd e)) as [[]| | | |]; congruence|].
      split; [now apply after_valid|]. right. exists [], e, l, c. auto 7.
Qed.

Lemma sub_loop l c : valid c -> distinct eqb (map fst l) ->
  exists c' r, floop fin (fun e => ct_lower_u eqb hp rp dp E (key (fst e)) (snd e)) l c = (c', r) /\ valid c' /\
  ((forall x, get c' x = taken_off eqb (get c) l x) /\ r = Ret tt \/
   exists l1 e l2 c1 o, l = l1 ++ e :: l2 /\
     floop fin (fun e => ct_lower_u eqb hp rp dp E (key (fst e)) (snd e)) l1 c = (c1, Ret tt) /\
     (forall x, get c1 x = taken_off eqb (get c) l1 x) /\
     (if hp (ct_map c1) (key (fst e)) then c' = c1
      else match spared c1 (key (fst e)) with
           | Some m => c' = Counter m
           | None => forall x, get c' x = taken_off eqb (get c) (l1 ++ [e]) x
           end) /\
     o = taking (hp (ct_map c1)) dp (ct_get_key_value eqb c (fst e)) (ct_len c1 =? alloc_max E) (thrown c1) (key (fst e)) (snd e) /\
     o <> Ret tt /\ r = fin o (map fst l2)).
Proof.
  revert c. induction l as [|e l IH]; intros c V D.
  - exists c, (Ret tt). split; auto. split; auto. left. split; auto. intros x. unfold taken_off; cbn. destruct (get c x); auto.
  - pose proof D as D'. inversion D as [|? ? D1 D2]; subst. cbn [floop]. pose proof (KE (fst e)) as Ek.
    assert (Sk : forall c0, ct_get_key_value eqb c0 (key (fst e)) = ct_get_key_value eqb c0 (fst e)).
    { intros c0. unfold ct_get_key_value. apply (entry_of_cong L _ Ek). }
    destruct (@lower_u_cases (key (fst e)) (snd e) c V) as (c1 & H & V1 & A). rewrite H.
    destruct (takes_ends c (key (fst e)) (snd e)) as [T|T].
    + rewrite T. destruct A as [[A _]|[(m & _ & _ & _ & A)|(A & A' & S1)]]; [|congruence|].
      { exfalso. revert T. unfold takes, taking. rewrite A. unfold dropping. destruct (existsb _ _); discriminate. }
      destruct (IH c1 V1 D2) as (c' & r & H' & V' & B). exists c', r. split; auto. split; auto.
      assert (G1 : forall x, get c1 x = if eqb x (fst e) then opt_minus (get c x) (Some (snd e)) else get c x).
      { intros x. rewrite (get_minus x S1). unfold entry_in; cbn. rewrite (eqb_cong_r L x Ek).
        destruct (eqb x (fst e)); cbn; auto. destruct (get c x); auto. }
      assert (Step : forall l0 x, (forall e0, In e0 l0 -> In e0 l) ->
                taken_off eqb (get c1) l0 x = taken_off eqb (get c) (e :: l0) x).
      { intros l0 x Sub. unfold taken_off. rewrite G1. unfold entry_in; cbn [find].
        destruct (eqb x (fst e)) eqn:X; cbn; auto.
        destruct (find (fun e0 => eqb x (fst e0)) l0) as [e0|] eqn:Q'; cbn.
        - exfalso. apply find_some in Q'. destruct Q' as [I0 Q']. apply Sub in I0.
          rewrite Forall_forall in D1. specialize (D1 (fst e0) (in_map fst _ _ I0)).
          rewrite (eqb_cong L _ X) in Q'. congruence.
        - destruct (get c x) as [n|]; cbn; auto. destruct (n <=? snd e); auto. }
      destruct B as [(G & ->)|(l1 & e1 & l2 & c2 & o & -> & R & G0 & G & Ho & N & ->)].
      * left. split; auto. intros x. rewrite G. apply Step; auto.
      * right. exists (e :: l1), e1, l2, c2, o. split; auto. split; [cbn [floop]; rewrite H, T; exact R|].
        split; [intros x; rewrite G0; apply Step; intros; apply in_or_app; auto|].
        split; [|split; [|auto]].
        { destruct (hp (ct_map c2) (key (fst e1))); auto. destruct (spared c2 (key (fst e1))); auto.
          intros x. rewrite G. change ((e :: l1) ++ [e1]) with (e :: (l1 ++ [e1])). apply Step. intros e0 I0.
          apply in_app_or in I0. apply in_or_app. destruct I0 as [I0|[<-|[]]]; auto. right. now left. }
        { rewrite Ho. f_equal. change (sh c1 (fst e1) = sh c (fst e1)). rewrite (S1 (fst e1)). unfold minus.
          destruct (sh c (fst e1)) as [[k1 n1]|]; auto. unfold entry_in; cbn [find fst].
          rewrite (eqb_cong_r L (fst e1) Ek).
          rewrite Forall_forall in D1. specialize (D1 (fst e1)). rewrite (eqb_sym L), D1; auto.
          rewrite map_app. apply in_or_app. right. cbn; auto. }
    + exists c1, (fin (takes c (key (fst e)) (snd e)) (map fst l)).
      split; [destruct T as [->| ->]; reflexivity|]. split; auto. right. exists [], e, l, c, (takes c (key (fst e)) (snd e)).
      split; auto. split; auto. split; [intros x; unfold taken_off; cbn; destruct (get c x); auto|].
      split; [|split; [|split; [|auto]]].
      * destruct A as [[A ->]|[(m & A & A' & -> & _)|(A & A' & S1)]]; rewrite A; auto; rewrite A'; auto. cbn [app].
        intros x. rewrite (get_minus x S1). unfold taken_off, entry_in; cbn. rewrite (eqb_cong_r L x Ek). destruct (eqb x (fst e)); auto.
      * unfold takes, taking. rewrite Sk. reflexivity.
      * destruct T as [->| ->]; discriminate.
Qed.
End Loop.

Lemma bump_u_ends k v c : valid c -> v <= usize_max E ->
  valid (fst (ct_bump_u eqb hp rp dp E k v c)) /\ ends (snd (ct_bump_u eqb hp rp dp E k v c)).
Proof.
  intros V B. destruct (@bump_u_cases k v c V B) as [(Q & H & c1 & H1)|[Q H]]; rewrite H.
  - destruct (@bump_cases K eqb L E k v c V B) as [(c2 & H2 & V1 & _)|[H2 _]]; rewrite H1 in H2; [|discriminate].
    injection H2 as <-. rewrite H1. split; auto. now left.
  - split; [now apply after_valid|apply counts_ends].
Qed.

Lemma lower_u_ends k v c : valid c ->
  valid (fst (ct_lower_u eqb hp rp dp E k v c)) /\ ends (snd (ct_lower_u eqb hp rp dp E k v c)).
Proof.
  intros V. destruct (@lower_u_cases k v c V) as (c1 & H & V1 & _). rewrite H. split; auto. apply takes_ends.
Qed.

Lemma add_u_loop l c : valid c -> Forall (fun e : K * nat => snd e <= usize_max E) l ->
  ct_add_assign_u eqb hp rp dp E l c = floop (stopping dp) (fun e => ct_bump_u eqb hp rp dp E (fst e) (snd e)) l c.
Proof.
  intros V F. apply floop_owned; auto. intros e c0 V0 I. apply bump_u_ends; auto. rewrite Forall_forall in F. auto.
Qed.

Lemma sub_u_loop l c : valid c ->
  ct_sub_assign_u eqb hp rp dp E l c = floop (stopping dp) (fun e => ct_lower_u eqb hp rp dp E (fst e) (snd e)) l c.
Proof. intros V. apply floop_owned; auto. intros e c0 V0 I. now apply lower_u_ends. Qed.

Hypothesis U : 1 <= usize_max E.

Lemma push_u_end k c c' r : valid c -> ct_push_u eqb hp rp dp E k c = (c', r) ->
  valid c' /\ r = counts c k 1 /\
  ((r = Ret tt /\ forall x, get c' x = counted_on eqb E (get c) [k] x) \/ (r <> Ret tt /\ c' = after c k)).
Proof.
  intros V H. unfold ct_push_u in H. destruct (@bump_u_cases k 1 c V U) as [(Q & H0 & c1 & H1)|[Q H0]]; rewrite H0 in H.
  - rewrite H1 in H. injection H as <- <-. destruct (@bump_cases K eqb L E k 1 c V U) as [(c2 & H2 & V1 & S1 & _)|[H2 _]];
      rewrite H1 in H2; [injection H2 as <-|discriminate].
    split; auto. split; auto. left. split; auto. intros x. rewrite (get_bumps V S1).
    change [(k, 1)] with (unitl [k]). apply added_unit.
  - injection H as <- <-. split; [now apply after_valid|]. auto.
Qed.

Lemma extend_u_end hint xs c c' r : valid c -> ct_extend_u eqb hp rp dp E hint xs c = (c', r) ->
  valid c' /\
  ((c' = c /\ r = Panic /\ alloc_max E < ct_len c + hint) \/
   (ct_len c + hint <= alloc_max E /\ exists m gone, rp (ct_map c) hint = Some (m, gone) /\
      c' = Counter m /\ r = dropping dp (map fst gone)) \/
   (ct_len c + hint <= alloc_max E /\ rp (ct_map c) hint = None /\
    (r = Ret tt /\ (forall x, get c' x = counted_on eqb E (get c) xs x) \/
     exists ys z zs c1, xs = ys ++ z :: zs /\ valid c1 /\ (forall x, get c1 x = counted_on eqb E (get c) ys x) /\
       c' = after c1 z /\ r <> Ret tt /\ r = counts c1 z 1))).
Proof.
  intros V H. unfold ct_extend_u, hm_reserve in H. fold (ct_len c) in H.
  destruct (ct_len c + hint <=? alloc_max E) eqn:Q.
  - apply Nat.leb_le in Q. destruct (rp (ct_map c) hint) as [[m gone]|] eqn:Y.
    { injection H as <- <-. split; [exact (lost_valid _ _ V (RP Y))|]. right; left. split; auto. exists m, gone. auto. }
    unfold ct_push_u in H.
    assert (X : for_each (fun val => ct_bump_u eqb hp rp dp E val 1) xs c =
      floop (fun o _ => o) (fun e => ct_bump_u eqb hp rp dp E (fst e) (snd e)) (unitl xs) c).
    { rewrite <- floop_each. unfold unitl. rewrite for_each_map. reflexivity. }
    change (for_each (fun val => ct_bump_u eqb hp rp dp E val 1) xs c = (c', r)) in H. rewrite X in H.
    destruct (@add_loop (fun o _ => o) (fun k => k) (eq_refl' L) (unitl xs) c V (unitl_small E U xs)) as (c1 & r1 & H1 & V1 & A).
    rewrite H1 in H. injection H as <- <-. split; auto. right; right. split; auto. split; auto.
    destruct A as [[G ->]|(l1 & e & l2 & c2 & Hx & V2 & G & A & N & ->)].
    + left. split; auto. intros x. rewrite G. apply added_unit.
    + right. destruct (unitl_app _ _ _ _ Hx) as (ys & z & zs & -> & -> & ->). exists ys, z, zs, c2. split; auto.
      split; auto. split; [intros x; rewrite G; apply added_unit|]. auto.
  - apply Nat.leb_gt in Q. injection H as <- <-. split; auto.
Qed.

(** ** Lost entries *)
Lemma lost_get c m gone x : valid c -> Permutation (gone ++ m) (ct_map c) ->
  get (Counter m) x = if existsb (fun e => eqb x (fst e)) gone then None else get c x.
Proof.
  intros V P. pose proof (valid_wf V) as W. pose proof (wf_perm L (Permutation_sym P) W) as W'.
  unfold ct_get, hm_get. cbn [ct_map]. rewrite (entry_of_perm L x W' P). clear P W V.
  induction gone as [|[k n] g IH]; cbn [app existsb fst hm_entry_of].
  - reflexivity.
  - inversion W' as [|? ? F W2]; subst. destruct (eqb x k) eqn:Q; cbn [orb]; [|auto].
    rewrite (proj2 (entry_of_none eqb x m)); auto. intros e I. rewrite Forall_forall in F.
    specialize (F e (in_or_app _ _ _ (or_intror I))). cbn [fst] in F. now rewrite (eqb_cong L _ Q).
Qed.
End Proofs.
