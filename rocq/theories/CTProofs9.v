(** Proofs for C109: the demands of a counter made with a capacity. *)
From Coq Require Import Permutation.
From Verif Require Import Base HMModel HMProofs CTModel CTSpec CTRun CTModel5 CTSpec5 CTSpec6 CTProofs8.
Local Open Scope outcome_scope.
Set Implicit Arguments.

Section Tight.
Variable K : Type.
Variable eqb : K -> K -> bool.
Variable cl : K -> K.
Variable E : machine.

(** a std that makes room only for absent keys *)
Definition tight (n n' : nat) (t : list (request K)) : Prop :=
  n <= n' /\ forall d, In d (demanded t) -> d <= n' \/ alloc_max E < d.
Lemma tg_bump k v c c' o t : ct_bump_t eqb E false k v c = ((c', o), t) -> tight (ct_len c) (ct_len c') t.
Proof.
  unfold ct_bump_t, hm_entry_t, hm_entry, hm_contains, hm_reserve, tight. destruct (hm_get eqb k (ct_map c)) as [old|]; cbn [orb negb].
  - destruct (uadd E old v); intros X; injection X as <- <- <-; unfold ct_len; cbn [ct_map]; rewrite ?length_set; (split; [lia|]); intros d [].
  - destruct (Nat.leb_spec (length (ct_map c) + 1) (alloc_max E)) as [H|H]; cbn [obind]; [destruct (uadd E 0 v)|];
      intros X; injection X as <- <- <-; unfold ct_len; cbn; split; try lia; intros d [<-|[]]; lia.
Qed.
Lemma tg_for_each S A (len : S -> nat) (ft : A -> S -> (S * outcome unit) * list (request K)) :
  (forall a s s' o t, ft a s = ((s', o), t) -> tight (len s) (len s') t) ->
  forall l s s' o t, for_each_t ft l s = ((s', o), t) -> tight (len s) (len s') t.
Proof.
  intros H. induction l as [|a r IH]; intros s s' o t; cbn.
  - intros X; injection X as <- <- <-. split; [lia|]. intros d [].
  - destruct (ft a s) as [[s1 o1] t1] eqn:Q. destruct (H _ _ _ _ _ Q) as [L1 D1].
    destruct o1 as [[]| | | |]; try (intros X; injection X as <- <- <-; split; [exact L1|exact D1]).
    destruct (for_each_t ft r s1) as [[s2 o2] t2] eqn:Q2. intros X; injection X as <- <- <-.
    destruct (IH _ _ _ _ Q2) as [L2 D2]. split; [lia|]. intros d. rewrite demanded_app, in_app_iff. intros [Hd|Hd]; [|auto].
    apply D1 in Hd. lia.
Qed.
Lemma tg_extend h xs c c' o t : ct_extend_t eqb E false h xs c = ((c', o), t) ->
  forall d, In d (demanded t) -> (d <= ct_len c' \/ alloc_max E < d) \/ d = ct_len c + h.
Proof.
  unfold ct_extend_t, hm_reserve_t. destruct (hm_reserve E h (ct_map c)).
  2-5: intros X; injection X as <- <- <-; cbn; unfold ct_len; intros d [->|[]]; auto.
  match goal with |- context [for_each_t ?f ?l ?s] => destruct (for_each_t f l s) as [[c1 o1] t1] eqn:Q end. intros X; injection X as <- <- <-.
  eapply tg_for_each in Q. 2: { intros z s s' o0 t0. apply tg_bump. } destruct Q as [L D].
  unfold ct_len in *. intros d [->|Hd]; auto.
Qed.
Theorem tg_step o c c' r t d : ct_step_t eqb cl E false false o c = ((c', r), t) -> In d (demanded t) ->
  d <= Nat.max (ct_len c) (ct_len c') \/ alloc_max E < d \/ (exists h, announced o = Some h /\ d = ct_len c + h) \/
  (subtracts o = true /\ d <= S (ct_len c)).
Proof.
  assert (T : forall (c1 : counter K) t1, tight (ct_len c) (ct_len c1) t1 -> In d (demanded t1) -> d <= Nat.max (ct_len c) (ct_len c1) \/ alloc_max E < d \/
     (exists h, announced o = Some h /\ d = ct_len c + h) \/ (subtracts o = true /\ d <= S (ct_len c))).
  { intros c1 t1 [L D] Hd. destruct (D d Hd); [left; lia|auto]. }
  destruct o; cbn [ct_step_t announced subtracts] in *; unfold look1, look0; try (intros X; injection X as <- <- <-; intros []; fail).
  - unfold ct_push_t. destruct (ct_bump_t _ _ _ _ _ _) as [[c1 o1] t1] eqn:Q. intros X; injection X as <- <- <-. apply T. eapply tg_bump; eauto.
  - destruct (ct_extend_t _ _ _ _ _ _) as [[c1 o1] t1] eqn:Q. intros X; injection X as <- <- <-. intros Hd.
    destruct (@tg_extend _ _ _ _ _ _ Q _ Hd) as [[D|D]| ->]; cbn [fst]; [left; lia|auto|right; right; left; eauto].
  - unfold ct_extend_ref_t. rewrite map_id. fold (ct_extend_t eqb E false hint xs c).
    destruct (ct_extend_t _ _ _ _ _ _) as [[c1 o1] t1] eqn:Q. intros X; injection X as <- <- <-. intros Hd.
    destruct (@tg_extend _ _ _ _ _ _ Q _ Hd) as [[D|D]| ->]; cbn [fst]; [left; lia|auto|right; right; left; eauto].
  - unfold ct_add_assign_t. match goal with |- context [for_each_t ?f ?l ?s] => destruct (for_each_t f l s) as [[c1 o1] t1] eqn:Q end. intros X; injection X as <- <- <-.
    apply T. eapply tg_for_each in Q; [exact Q|]. intros z s s' o0 t0. apply tg_bump.
  - unfold ct_add_assign_ref_t. match goal with |- context [for_each_t ?f ?l ?s] => destruct (for_each_t f l s) as [[c1 o1] t1] eqn:Q end. intros X; injection X as <- <- <-.
    apply T. eapply tg_for_each in Q; [exact Q|]. intros z s s' o0 t0. apply tg_bump.
  - unfold ct_sub_assign_t. match goal with |- context [for_each_t ?f ?l ?s] => destruct (for_each_t f l s) as [[c1 o1] t1] eqn:Q end. intros X; injection X as <- <- <-.
    eapply dm_down in Q as [L D]. 2: { intros z s s' o0 t0. apply dm_lower, cl. } intros Hd. apply D in Hd. right; right; right; auto.
  - unfold ct_sub_assign_ref_t. match goal with |- context [for_each_t ?f ?l ?s] => destruct (for_each_t f l s) as [[c1 o1] t1] eqn:Q end. intros X; injection X as <- <- <-.
    eapply dm_down in Q as [L D]. 2: { intros z s s' o0 t0. apply dm_lower, cl. } intros Hd. apply D in Hd. right; right; right; auto.
  - unfold hm_insert_t. destruct (hm_insert eqb E k n (ct_map c)) as [m r0] eqn:Q. intros X; injection X as <- <- <-.
    unfold ct_len. cbn [ct_map]. unfold hm_insert, hm_entry, hm_contains, hm_reserve in *. destruct (hm_get eqb k (ct_map c)) as [old|]; cbn; [intros []|].
    destruct (Nat.leb_spec (length (ct_map c) + 1) (alloc_max E)) as [H|H]; injection Q as <- <-; cbn; intros [<-|[]]; lia.
  - destruct (ct_get_mut eqb k g c). intros X; injection X as <- <- <-. intros [].
  - unfold hm_reserve_t. intros X; injection X as <- <- <-. cbn. intros [<-|[]]. right; right; left. eauto.
Qed.
Lemma enough_app limit n ds ds' : enough limit n (ds ++ ds') <-> enough limit n ds /\ enough limit n ds'.
Proof. apply Forall_app. Qed.
Lemma enough_in limit n ds : (forall d, In d ds -> d <= n \/ limit < d) -> enough limit n ds.
Proof. intros H. apply Forall_forall. exact H. Qed.
Theorem tg_run n ops : forall c c' tr t, ct_run_t eqb cl E false false ops c = ((c', tr), t) ->
  (forall ops1 ops2, ops = ops1 ++ ops2 -> ct_len (fst (ct_run eqb cl E ops1 c)) <= n /\
     forall o ops3, ops2 = o :: ops3 -> (forall h, announced o = Some h -> ct_len (fst (ct_run eqb cl E ops1 c)) + h <= n) /\
       (subtracts o = true -> ct_len (fst (ct_run eqb cl E ops1 c)) < n)) ->
  enough (alloc_max E) n (demanded t).
Proof.
  induction ops as [|o ops IH]; intros c c' tr t X HP; cbn in X.
  - injection X as <- <- <-. constructor.
  - destruct (ct_step_t eqb cl E false false o c) as [[c1 r1] t1] eqn:Q. destruct (ct_run_t eqb cl E false false ops c1) as [[c2 tr2] t2] eqn:Q2.
    injection X as <- <- <-. rewrite demanded_app, enough_app. split.
    + destruct (HP [] (o :: ops) eq_refl) as [P0 PA]. cbn in P0, PA. destruct (PA o ops eq_refl) as [PH PS].
      destruct (HP [o] ops eq_refl) as [P1 _]. cbn in P1. rewrite <- er_ct_step with (ee := false) (ei := false), Q in P1. cbn in P1.
      apply enough_in. intros d Hd. destruct (@tg_step _ _ _ _ _ _ Q Hd) as [D|[D|[(h & An & ->)|[D1 D2]]]]; [lia|auto|left; auto|left; specialize (PS D1); lia].
    + apply (IH c1 c2 tr2 t2 Q2). intros ops1 ops2 ->. destruct (HP (o :: ops1) ops2 eq_refl) as [P1 PA]. cbn in P1, PA.
      rewrite <- er_ct_step with (ee := false) (ei := false), Q in P1, PA. cbn in P1, PA. destruct (ct_run eqb cl E ops1 c1). exact (conj P1 PA).
Qed.
Theorem strict_run ee ei n ops : forall c c' tr t, ct_run_t eqb cl E ee ei ops c = ((c', tr), t) ->
  (forall ops1 ops2, ops = ops1 ++ ops2 -> ct_len (fst (ct_run eqb cl E ops1 c)) < n /\
     forall o ops3 h, ops2 = o :: ops3 -> announced o = Some h -> ct_len (fst (ct_run eqb cl E ops1 c)) + h <= n) ->
  enough (alloc_max E) n (demanded t).
Proof.
  induction ops as [|o ops IH]; intros c c' tr t X HP; cbn in X.
  - injection X as <- <- <-. constructor.
  - destruct (ct_step_t eqb cl E ee ei o c) as [[c1 r1] t1] eqn:Q. destruct (ct_run_t eqb cl E ee ei ops c1) as [[c2 tr2] t2] eqn:Q2.
    injection X as <- <- <-. rewrite demanded_app, enough_app. split.
    + destruct (HP [] (o :: ops) eq_refl) as [P0 PA]. cbn in P0, PA.
      destruct (HP [o] ops eq_refl) as [P1 _]. cbn in P1. rewrite <- er_ct_step with (ee := ee) (ei := ei), Q in P1. cbn in P1.
      apply enough_in. intros d Hd. destruct (@dm_step _ _ _ _ _ _ _ _ _ _ _ _ Q Hd) as [D|(h & An & ->)]; [lia|left; eauto].
    + apply (IH c1 c2 tr2 t2 Q2). intros ops1 ops2 ->. destruct (HP (o :: ops1) ops2 eq_refl) as [P1 PA]. cbn in P1, PA.
      rewrite <- er_ct_step with (ee := ee) (ei := ei), Q in P1, PA. cbn in P1, PA. destruct (ct_run eqb cl E ops1 c1). exact (conj P1 PA).
Qed.
Lemma tg_from_iter h xs c t : ct_from_iter_t eqb E false h xs = (Ret c, t) -> enough (alloc_max E) (Nat.max h (ct_len c)) (demanded t).
Proof.
  unfold ct_from_iter_t, ct_with_capacity_t, hm_reserve_t, hm_reserve. cbn [length Nat.add].
  destruct (h <=? alloc_max E); cbn [obind]; [|discriminate].
  match goal with |- context [for_each_t ?f ?l ?s] => destruct (for_each_t f l s) as [[c1 o1] t1] eqn:Q end. unfold finish_t, finish. cbn [fst snd].
  destruct o1 as [[]| | | |]; try discriminate. cbn [obind]. intros X; injection X as <- <-.
  eapply tg_for_each in Q. 2: { intros z s s' o0 t0. apply tg_bump. } destruct Q as [L D]. apply enough_in. cbn. intros d [->|Hd]; [left; lia|].
  destruct (D d Hd); [left; lia|auto].
Qed.
End Tight.
