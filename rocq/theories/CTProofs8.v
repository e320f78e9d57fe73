(** Proofs for C100 and C101: what the calls of a counter ask of its table. *)
From Coq Require Import Permutation.
From Verif Require Import Base HMModel HMProofs CTModel CTSpec CTRun CTModel5 CTSpec5.
Local Open Scope outcome_scope.
Set Implicit Arguments.

Section Requests.
Variable K : Type.
Variable eqb : K -> K -> bool.
Variable cl : K -> K.
Variable E : machine.
Variables ee ei : bool.

Lemma looked_app (t t' : list (request K)) : looked (t ++ t') = looked t ++ looked t'.
Proof. apply flat_map_app. Qed.
Lemma demanded_app (t t' : list (request K)) : demanded (t ++ t') = demanded t ++ demanded t'.
Proof. apply flat_map_app. Qed.

(** *** Forgetting the requests *)
Lemma er_for_each S A (ft : A -> S -> (S * outcome unit) * list (request K)) f l : (forall a s, fst (ft a s) = f a s) ->
  forall s, fst (for_each_t ft l s) = for_each f l s.
Proof.
  intros H. induction l as [|a r IH]; intros s; [reflexivity|]. cbn. rewrite <- (H a s).
  destruct (ft a s) as [[s' o] t]. cbn [fst]. destruct o as [[]| | | |]; try reflexivity.
  rewrite <- IH. destruct (for_each_t ft r s'). reflexivity.
Qed.
Lemma er_bump k v c : fst (ct_bump_t eqb E ee k v c) = ct_bump eqb E k v c.
Proof.
  unfold ct_bump_t, ct_bump, hm_entry_t. destruct (hm_entry eqb E k (ct_map c)) as [[old|]| | | |]; try reflexivity.
  - destruct (uadd E old v); reflexivity.
  - destruct (uadd E 0 v); reflexivity.
Qed.
Lemma er_lower k v c : fst (ct_lower_t eqb E ee k v c) = ct_lower eqb E k v c.
Proof.
  unfold ct_lower_t, ct_lower, hm_entry_t. destruct (hm_entry eqb E k (ct_map c)) as [[old|]| | | |]; try reflexivity.
  destruct (old <=? v); [reflexivity|]. destruct (usub E old v); reflexivity.
Qed.
Lemma er_pushes xs c : fst (for_each_t (ct_push_t eqb E ee) xs c) = for_each (ct_push eqb E) xs c.
Proof. apply er_for_each. intros. apply er_bump. Qed.
Lemma er_extend h xs c : fst (ct_extend_t eqb E ee h xs c) = ct_extend eqb E h xs c.
Proof.
  unfold ct_extend_t, ct_extend, hm_reserve_t. destruct (hm_reserve E h (ct_map c)); try reflexivity.
  rewrite <- er_pushes. match goal with |- context [for_each_t ?f ?l ?s] => destruct (for_each_t f l s) end. reflexivity.
Qed.
Lemma er_extend_ref h xs c : fst (ct_extend_ref_t eqb E ee h xs c) = ct_extend_ref eqb E h xs c.
Proof.
  unfold ct_extend_ref_t, ct_extend_ref, hm_reserve_t. destruct (hm_reserve E h (ct_map c)); try reflexivity.
  rewrite <- er_pushes. match goal with |- context [for_each_t ?f ?l ?s] => destruct (for_each_t f l s) end. reflexivity.
Qed.
Lemma er_from_iter h xs : fst (ct_from_iter_t eqb E ee h xs) = ct_from_iter eqb E h xs.
Proof.
  unfold ct_from_iter_t, ct_from_iter, ct_with_capacity_t, ct_with_capacity, hm_reserve_t, hm_reserve. cbn [length Nat.add].
  destruct (h <=? alloc_max E); [|reflexivity]. cbn [obind]. rewrite <- er_pushes. reflexivity.
Qed.
Lemma er_from_iter_ref h xs : fst (ct_from_iter_ref_t eqb cl E ee h xs) = ct_from_iter_ref eqb cl E h xs.
Proof.
  unfold ct_from_iter_ref_t, ct_from_iter_ref, ct_with_capacity_t, ct_with_capacity, hm_reserve_t, hm_reserve. cbn [length Nat.add].
  destruct (h <=? alloc_max E); [|reflexivity]. cbn [obind]. rewrite <- er_pushes. reflexivity.
Qed.
Lemma er_collect l : fst (hm_collect_t eqb E ei l) = hm_collect eqb E l.
Proof.
  unfold hm_collect_t, hm_collect, hm_reserve_t. destruct (hm_reserve E (length l) []); try reflexivity.
  rewrite <- (@er_for_each _ _ (fun e m => match hm_insert_t eqb E ei (fst e) (snd e) m with
                                   | ((m', Ret _), t') => ((m', Ret tt), t')
                                   | ((m', _), t') => ((m', Panic), t')
                                   end)).
  - match goal with |- context [for_each_t ?f l []] => destruct (for_each_t f l []) end. reflexivity.
  - intros e m. unfold hm_insert_t. destruct (hm_insert eqb E (fst e) (snd e) m) as [m' [?| | | |]]; reflexivity.
Qed.
Lemma er_from l : fst (ct_from_t eqb E ei l) = ct_from eqb E l.
Proof. unfold ct_from_t, ct_from. rewrite <- er_collect. destruct (hm_collect_t _ _ _ l) as [[m o] t]. reflexivity. Qed.
Lemma er_from_ref l : fst (ct_from_ref_t eqb cl E ei l) = ct_from_ref eqb cl E l.
Proof. unfold ct_from_ref_t, ct_from_ref. rewrite <- er_collect. destruct (hm_collect_t _ _ _ _) as [[m o] t]. reflexivity. Qed.
Lemma er_add c l : fst (ct_add_t eqb E ee c l) = ct_add eqb E c l.
Proof. unfold ct_add_t, ct_add, finish_t. cbn [fst]. f_equal. apply er_for_each. intros. apply er_bump. Qed.
Lemma er_add_ref c l : fst (ct_add_ref_t eqb cl E ee c l) = ct_add_ref eqb cl E c l.
Proof. unfold ct_add_ref_t, ct_add_ref, finish_t. cbn [fst]. f_equal. apply er_for_each. intros. apply er_bump. Qed.
Lemma er_sub c l : fst (ct_sub_t eqb E ee c l) = ct_sub eqb E c l.
Proof. unfold ct_sub_t, ct_sub, finish_t. cbn [fst]. f_equal. apply er_for_each. intros. apply er_lower. Qed.
Lemma er_sub_ref c l : fst (ct_sub_ref_t eqb cl E ee c l) = ct_sub_ref eqb cl E c l.
Proof. unfold ct_sub_ref_t, ct_sub_ref, finish_t. cbn [fst]. f_equal. apply er_for_each. intros. apply er_lower. Qed.
Lemma er_eq la (b : counter K) : fst (ct_eq_t eqb la b) = hm_eq eqb Nat.eqb la (ct_map b).
Proof.
  unfold ct_eq_t, hm_eq. destruct (length la =? length (ct_map b)); [|reflexivity]. cbn [andb].
  induction la as [|[k v] la IH]; [reflexivity|]. cbn [hm_eq_t forallb fst snd].
  destruct (hm_get eqb k (ct_map b)) as [w|]; [|reflexivity]. destruct (v =? w); [|reflexivity]. cbn [andb].
  rewrite <- IH. destruct (hm_eq_t eqb la (ct_map b)). reflexivity.
Qed.
Theorem er_ct_step o c : fst (ct_step_t eqb cl E ee ei o c) = ct_step eqb cl E o c.
Proof.
  destruct o; cbn [ct_step_t ct_step fst]; unfold unit_out; try reflexivity.
  - unfold ct_push_t, ct_push. now rewrite er_bump.
  - now rewrite er_extend.
  - now rewrite er_extend_ref.
  - unfold ct_add_assign_t. now rewrite (@er_for_each _ _ _ (fun e => ct_bump eqb E (fst e) (snd e)) rhs (fun _ _ => er_bump _ _ _)).
  - unfold ct_add_assign_ref_t. now rewrite (@er_for_each _ _ _ (fun e => ct_bump eqb E (cl (fst e)) (snd e)) rhs (fun _ _ => er_bump _ _ _)).
  - unfold ct_sub_assign_t. now rewrite (@er_for_each _ _ _ (fun e => ct_lower eqb E (fst e) (snd e)) rhs (fun _ _ => er_lower _ _ _)).
  - unfold ct_sub_assign_ref_t. now rewrite (@er_for_each _ _ _ (fun e => ct_lower eqb E (cl (fst e)) (snd e)) rhs (fun _ _ => er_lower _ _ _)).
  - unfold hm_insert_t, ct_insert. destruct (hm_insert eqb E k n (ct_map c)). reflexivity.
Qed.
Theorem er_ct_run ops : forall c, fst (ct_run_t eqb cl E ee ei ops c) = ct_run eqb cl E ops c.
Proof.
  induction ops as [|o ops IH]; intros c; [reflexivity|]. cbn [ct_run_t ct_run]. rewrite <- er_ct_step.
  destruct (ct_step_t eqb cl E ee ei o c) as [[c1 r] t]. cbn [fst]. rewrite <- IH.
  destruct (ct_run_t eqb cl E ee ei ops c1) as [[c2 tr] t']. reflexivity.
Qed.

(** *** Lookups *)
(** the items [xs] were handled in order, all of them if the call returned *)
Definition in_order {A B} (xs : list B) (o : outcome A) (ks : list B) : Prop :=
  exists rest, xs = ks ++ rest /\ ((exists a, o = Ret a) -> rest = []).

Lemma lk_for_each S A (key : A -> K) (ft : A -> S -> (S * outcome unit) * list (request K)) :
  (forall a s, looked (snd (ft a s)) = [key a]) -> forall l s,
  in_order (map key l) (snd (fst (for_each_t ft l s))) (looked (snd (for_each_t ft l s))).
Proof.
  intros H. induction l as [|a r IH]; intros s; [exists []; auto|]. cbn [for_each_t map].
  pose proof (H a s) as Ha. destruct (ft a s) as [[s' o] t]. cbn [snd] in Ha.
  destruct o as [[]| | | |]; cbn [fst snd]; try (exists (map key r); rewrite Ha; split; [reflexivity|intros [? Q]; discriminate]).
  destruct (IH s') as (rest & X & Y). destruct (for_each_t ft r s') as [[s2 o2] t2]. cbn [fst snd] in *.
  exists rest. rewrite looked_app, Ha, X. auto.
Qed.
Lemma lk_entry k m : looked (snd (hm_entry_t eqb E ee k m)) = [k].
Proof. unfold hm_entry_t. cbn. destruct (_ || _); reflexivity. Qed.
Lemma lk_bump k v c : looked (snd (ct_bump_t eqb E ee k v c)) = [k].
Proof.
  unfold ct_bump_t. pose proof (lk_entry k (ct_map c)) as H. destruct (hm_entry_t eqb E ee k (ct_map c)) as [[[old|]| | | |] t]; try exact H.
  - destruct (uadd E old v); exact H.
  - destruct (uadd E 0 v); exact H.
Qed.
Lemma lk_lower k v c : looked (snd (ct_lower_t eqb E ee k v c)) = [k].
Proof.
  unfold ct_lower_t. pose proof (lk_entry k (ct_map c)) as H. destruct (hm_entry_t eqb E ee k (ct_map c)) as [[[old|]| | | |] t]; try exact H.
  destruct (old <=? v); [exact H|]. destruct (usub E old v); exact H.
Qed.
Lemma lk_pushes xs c : in_order xs (snd (fst (for_each_t (ct_push_t eqb E ee) xs c))) (looked (snd (for_each_t (ct_push_t eqb E ee) xs c))).
Proof. pose proof (@lk_for_each _ _ (fun x => x) (ct_push_t eqb E ee) (fun a s => lk_bump a 1 s) xs c) as H. now rewrite map_id in H. Qed.
Lemma in_order_all A B (xs : list B) (a : A) : in_order xs (Ret a) xs.
Proof. exists []. rewrite app_nil_r. auto. Qed.
Lemma in_order_none A B (xs : list B) (o : outcome A) : (forall a, o <> Ret a) -> in_order xs o [].
Proof. intros N. exists xs. split; [reflexivity|]. intros [a H]. exfalso. exact (N a H). Qed.
Lemma in_order_out A A' B (xs : list B) (o : outcome A) (o' : outcome A') ks :
  ((exists a, o' = Ret a) -> exists a, o = Ret a) -> in_order xs o ks -> in_order xs o' ks.
Proof. intros H (rest & X & Y). exists rest. auto. Qed.
Lemma in_order_omap A A' B (xs : list B) (o : outcome A) (f : A -> A') ks : in_order xs o ks -> in_order xs (omap f o) ks.
Proof. apply in_order_out. intros [a H]. destruct o; try discriminate. eauto. Qed.
Lemma lk_extend h xs c : in_order xs (snd (fst (ct_extend_t eqb E ee h xs c))) (looked (snd (ct_extend_t eqb E ee h xs c))).
Proof.
  unfold ct_extend_t, hm_reserve_t, hm_reserve. destruct (_ <=? _); [|apply in_order_none; discriminate].
  pose proof (lk_pushes xs c) as H. match goal with |- context [for_each_t ?f ?l ?s] => destruct (for_each_t f l s) as [x t] end. exact H.
Qed.
Lemma lk_from_iter h xs : in_order xs (fst (ct_from_iter_t eqb E ee h xs)) (looked (snd (ct_from_iter_t eqb E ee h xs))).
Proof.
  unfold ct_from_iter_t, ct_with_capacity_t, hm_reserve_t, hm_reserve. cbn [length Nat.add].
  destruct (_ <=? _); cbn [obind]; [|apply in_order_none; discriminate].
  pose proof (lk_pushes xs (Counter [])) as H. match goal with |- context [for_each_t ?f ?l ?s] => destruct (for_each_t f l s) as [[x o] t] end. unfold finish_t, finish. cbn [fst snd] in *.
  revert H. apply in_order_out. intros [a Q]. destruct o; try discriminate. eauto.
Qed.
Lemma from_iter_ref_t_map h xs : ct_from_iter_ref_t eqb cl E ee h xs = ct_from_iter_t eqb E ee h (map cl xs).
Proof. reflexivity. Qed.
Lemma lk_collect l : in_order (map fst l) (snd (fst (hm_collect_t eqb E ei l))) (looked (snd (hm_collect_t eqb E ei l))).
Proof.
  unfold hm_collect_t, hm_reserve_t, hm_reserve. cbn [length Nat.add].
  destruct (_ <=? _); [|apply in_order_none; discriminate].
  match goal with |- context [for_each_t ?f l []] => pose proof (@lk_for_each _ _ fst f) as H end.
  match type of H with ?P -> _ => assert (Q : P) end.
  { intros e m. unfold hm_insert_t. destruct (hm_insert eqb E (fst e) (snd e) m) as [m' [?| | | |]]; cbn; destruct (_ || _); reflexivity. }
  specialize (H Q l []). match goal with |- context [for_each_t ?f l []] => destruct (for_each_t f l []) as [x t] end. exact H.
Qed.
Lemma lk_from l : in_order (map fst l) (fst (ct_from_t eqb E ei l)) (looked (snd (ct_from_t eqb E ei l))).
Proof.
  unfold ct_from_t. pose proof (lk_collect l) as H. destruct (hm_collect_t _ _ _ l) as [[m o] t]. cbn [fst snd] in *.
  revert H. apply in_order_out. intros [a Q]. destruct o; try discriminate. eauto.
Qed.
Lemma from_ref_t_map l : ct_from_ref_t eqb cl E ei l = ct_from_t eqb E ei (map (fun e => (cl (fst e), snd e)) l).
Proof. reflexivity. Qed.

Theorem lk_step o c : in_order (handled cl o) (snd (fst (ct_step_t eqb cl E ee ei o c))) (looked (snd (ct_step_t eqb cl E ee ei o c))).
Proof.
  destruct o; cbn [ct_step_t handled fst snd look1 look0]; try (apply in_order_all).
  - unfold ct_push_t. rewrite lk_bump. exists []. auto.
  - apply in_order_omap, lk_extend.
  - apply in_order_omap. unfold ct_extend_ref_t. pose proof (lk_extend hint xs c) as H. unfold ct_extend_t in H. now rewrite map_id.
  - apply in_order_omap. exact (@lk_for_each _ _ fst (fun e => ct_bump_t eqb E ee (fst e) (snd e)) (fun e s => lk_bump (fst e) (snd e) s) rhs c).
  - apply in_order_omap. exact (@lk_for_each _ _ (fun e => cl (fst e)) (fun e => ct_bump_t eqb E ee (cl (fst e)) (snd e)) (fun e s => lk_bump (cl (fst e)) (snd e) s) rhs c).
  - apply in_order_omap. exact (@lk_for_each _ _ fst (fun e => ct_lower_t eqb E ee (fst e) (snd e)) (fun e s => lk_lower (fst e) (snd e) s) rhs c).
  - apply in_order_omap. exact (@lk_for_each _ _ (fun e => cl (fst e)) (fun e => ct_lower_t eqb E ee (cl (fst e)) (snd e)) (fun e s => lk_lower (cl (fst e)) (snd e) s) rhs c).
  - exists []. auto.
  - unfold hm_insert_t. destruct (hm_insert eqb E k n (ct_map c)) as [m r]. cbn [fst snd looked flat_map app].
    exists []. split; [|auto]. destruct (_ || _); reflexivity.
  - destruct (ct_get_mut eqb k g c). apply in_order_all.
  - unfold hm_reserve_t. cbn. exists []. auto.
Qed.

(** *** Room *)
Lemma granted_le limit g h ds h' : granted limit g h ds h' -> forall B, h <= B -> (forall d, In d ds -> g d <= B) -> h' <= B.
Proof.
  induction 1 as [h|h d r ds h' A1 A2 A3 G IH|h d ds h' L G IH]; intros B Hh Hd; auto.
  - apply IH; [|intros; apply Hd; right; auto]. specialize (Hd d (or_introl eq_refl)). lia.
  - apply IH; [auto|]. intros; apply Hd; right; auto.
Qed.
Lemma granted_grows limit g h ds h' : granted limit g h ds h' -> h <= h' /\ forall d, In d ds -> d <= limit -> d <= h'.
Proof.
  induction 1 as [h|h d r ds h' A1 A2 A3 G [IH1 IH2]|h d ds h' L G [IH1 IH2]]; split; try lia.
  - intros d [].
  - intros d' [<-|Hd] Hl; [lia|auto].
  - intros d' [<-|Hd] Hl; [lia|auto].
Qed.

Lemma dm_entry k m d : In d (demanded (snd (hm_entry_t eqb E ee k m))) -> d = S (length m).
Proof. unfold hm_entry_t. cbn. destruct (_ || _); cbn; [|tauto]. lia. Qed.
Lemma dm_bump k v c c' o t : ct_bump_t eqb E ee k v c = ((c', o), t) ->
  ct_len c <= ct_len c' /\ forall d, In d (demanded t) -> d = S (ct_len c).
Proof.
  unfold ct_bump_t. pose proof (dm_entry k (ct_map c)) as H. destruct (hm_entry_t eqb E ee k (ct_map c)) as [[[old|]| | | |] t0]; cbn [snd] in H.
  2: destruct (uadd E 0 v).
  1: destruct (uadd E old v).
  all: intros X; injection X as <- <- <-; (split; [|exact H]); unfold ct_len; cbn [ct_map]; rewrite ?length_set; cbn; lia.
Qed.
Lemma dm_lower k v c c' o t : ct_lower_t eqb E ee k v c = ((c', o), t) ->
  ct_len c' <= ct_len c /\ forall d, In d (demanded t) -> d = S (ct_len c).
Proof.
  unfold ct_lower_t. pose proof (dm_entry k (ct_map c)) as H. destruct (hm_entry_t eqb E ee k (ct_map c)) as [[[old|]| | | |] t0]; cbn [snd] in H.
  1: destruct (old <=? v); [|destruct (usub E old v)].
  all: intros X; injection X as <- <- <-; (split; [|exact H]); unfold ct_len; cbn [ct_map]; rewrite ?length_set; try lia.
  apply length_remove_le.
Qed.
Lemma dm_up S A (len : S -> nat) (ft : A -> S -> (S * outcome unit) * list (request K)) :
  (forall a s s' o t, ft a s = ((s', o), t) -> len s <= len s' /\ forall d, In d (demanded t) -> d = Datatypes.S (len s)) ->
  forall l s s' o t, for_each_t ft l s = ((s', o), t) -> len s <= len s' /\ forall d, In d (demanded t) -> d <= Datatypes.S (len s').
Proof.
  intros H. induction l as [|a r IH]; intros s s' o t; cbn.
  - intros X; injection X as <- <- <-. split; [lia|]. intros d [].
  - destruct (ft a s) as [[s1 o1] t1] eqn:Q. destruct (H _ _ _ _ _ Q) as [L1 D1].
    destruct o1 as [[]| | | |]; try (intros X; injection X as <- <- <-; split; [exact L1|intros d Hd; apply D1 in Hd; lia]).
    destruct (for_each_t ft r s1) as [[s2 o2] t2] eqn:Q2. intros X; injection X as <- <- <-.
    destruct (IH _ _ _ _ Q2) as [L2 D2]. split; [lia|]. intros d. rewrite demanded_app, in_app_iff. intros [Hd|Hd].
    + apply D1 in Hd. lia.
    + auto.
Qed.
Lemma dm_down S A (len : S -> nat) (ft : A -> S -> (S * outcome unit) * list (request K)) :
  (forall a s s' o t, ft a s = ((s', o), t) -> len s' <= len s /\ forall d, In d (demanded t) -> d = Datatypes.S (len s)) ->
  forall l s s' o t, for_each_t ft l s = ((s', o), t) -> len s' <= len s /\ forall d, In d (demanded t) -> d <= Datatypes.S (len s).
Proof.
  intros H. induction l as [|a r IH]; intros s s' o t; cbn.
  - intros X; injection X as <- <- <-. split; [lia|]. intros d [].
  - destruct (ft a s) as [[s1 o1] t1] eqn:Q. destruct (H _ _ _ _ _ Q) as [L1 D1].
    destruct o1 as [[]| | | |]; try (intros X; injection X as <- <- <-; split; [exact L1|intros d Hd; apply D1 in Hd; lia]).
    destruct (for_each_t ft r s1) as [[s2 o2] t2] eqn:Q2. intros X; injection X as <- <- <-.
    destruct (IH _ _ _ _ Q2) as [L2 D2]. split; [lia|]. intros d. rewrite demanded_app, in_app_iff. intros [Hd|Hd].
    + apply D1 in Hd. lia.
    + apply D2 in Hd. lia.
Qed.
Lemma dm_pushes xs c c' o t : for_each_t (ct_push_t eqb E ee) xs c = ((c', o), t) ->
  ct_len c <= ct_len c' /\ forall d, In d (demanded t) -> d <= S (ct_len c').
Proof. apply dm_up. intros a s s' o0 t0. apply dm_bump. Qed.
Lemma dm_extend h xs c c' o t : ct_extend_t eqb E ee h xs c = ((c', o), t) ->
  In (ct_len c + h) (demanded t) /\ forall d, In d (demanded t) -> d <= S (ct_len c') \/ d = ct_len c + h.
Proof.
  unfold ct_extend_t, hm_reserve_t. destruct (hm_reserve E h (ct_map c)).
  2-5: intros X; injection X as <- <- <-; cbn; unfold ct_len; split; [auto|]; intros d [->|[]]; auto.
  match goal with |- context [for_each_t ?f ?l ?s] => destruct (for_each_t f l s) as [[c1 o1] t1] eqn:Q end. intros X; injection X as <- <- <-.
  apply dm_pushes in Q as [L D]. unfold ct_len in *. split; [left; reflexivity|].
  intros d [->|Hd]; auto.
Qed.
Theorem dm_step o c c' r t d : ct_step_t eqb cl E ee ei o c = ((c', r), t) -> In d (demanded t) ->
  d <= S (Nat.max (ct_len c) (ct_len c')) \/ exists h, announced o = Some h /\ d = ct_len c + h.
Proof.
  destruct o; cbn [ct_step_t announced]; unfold look1, look0; try (intros X; injection X as <- <- <-; intros []; fail).
  - unfold ct_push_t. destruct (ct_bump_t _ _ _ _ _ _) as [[c1 o1] t1] eqn:Q. intros X; injection X as <- <- <-. apply dm_bump in Q as [L D].
    intros Hd. left. apply D in Hd. cbn. lia.
  - destruct (ct_extend_t _ _ _ _ _ _) as [[c1 o1] t1] eqn:Q. intros X; injection X as <- <- <-. apply dm_extend in Q as [_ D].
    intros Hd. apply D in Hd. cbn. destruct Hd as [Hd| ->]; [left; lia|eauto].
  - unfold ct_extend_ref_t. rewrite map_id. fold (ct_extend_t eqb E ee hint xs c).
    destruct (ct_extend_t _ _ _ _ _ _) as [[c1 o1] t1] eqn:Q. intros X; injection X as <- <- <-. apply dm_extend in Q as [_ D].
    intros Hd. apply D in Hd. cbn. destruct Hd as [Hd| ->]; [left; lia|eauto].
  - unfold ct_add_assign_t. match goal with |- context [for_each_t ?f ?l ?s] => destruct (for_each_t f l s) as [[c1 o1] t1] eqn:Q end. intros X; injection X as <- <- <-.
    eapply dm_up in Q as [L D]. 2: { intros a s s' o0 t0. apply dm_bump. } intros Hd. apply D in Hd. cbn. left; lia.
  - unfold ct_add_assign_ref_t. match goal with |- context [for_each_t ?f ?l ?s] => destruct (for_each_t f l s) as [[c1 o1] t1] eqn:Q end. intros X; injection X as <- <- <-.
    eapply dm_up in Q as [L D]. 2: { intros a s s' o0 t0. apply dm_bump. } intros Hd. apply D in Hd. cbn. left; lia.
  - unfold ct_sub_assign_t. match goal with |- context [for_each_t ?f ?l ?s] => destruct (for_each_t f l s) as [[c1 o1] t1] eqn:Q end. intros X; injection X as <- <- <-.
    eapply dm_down in Q as [L D]. 2: { intros a s s' o0 t0. apply dm_lower. } intros Hd. apply D in Hd. cbn. left; lia.
  - unfold ct_sub_assign_ref_t. match goal with |- context [for_each_t ?f ?l ?s] => destruct (for_each_t f l s) as [[c1 o1] t1] eqn:Q end. intros X; injection X as <- <- <-.
    eapply dm_down in Q as [L D]. 2: { intros a s s' o0 t0. apply dm_lower. } intros Hd. apply D in Hd. cbn. left; lia.
  - unfold hm_insert_t. destruct (hm_insert eqb E k n (ct_map c)) as [m r0]. intros X; injection X as <- <- <-.
    cbn. destruct (_ || _); cbn; [|tauto]. intros [<-|[]]. left. unfold ct_len. lia.
  - destruct (ct_get_mut eqb k g c). intros X; injection X as <- <- <-. intros [].
  - unfold hm_reserve_t. intros X; injection X as <- <- <-. cbn. intros [<-|[]]. right. eauto.
Qed.
Lemma dm_from_iter h xs c t : ct_from_iter_t eqb E ee h xs = (Ret c, t) ->
  In h (demanded t) /\ forall d, In d (demanded t) -> d <= S (ct_len c) \/ d = h.
Proof.
  unfold ct_from_iter_t, ct_with_capacity_t, hm_reserve_t, hm_reserve. cbn [length Nat.add].
  destruct (h <=? alloc_max E); cbn [obind]; [|discriminate].
  match goal with |- context [for_each_t ?f ?l ?s] => destruct (for_each_t f l s) as [[c1 o1] t1] eqn:Q end. unfold finish_t, finish. cbn [fst snd].
  destruct o1 as [[]| | | |]; try discriminate. cbn [obind]. intros X; injection X as <- <-.
  apply dm_pushes in Q as [L D]. cbn. split; [auto|]. intros d [->|Hd]; auto.
Qed.

(** *** The entries have room *)
Lemma filter_short A (p : A -> bool) l : length (filter p l) <= length l.
Proof. induction l as [|x l IH]; cbn; [lia|]. destruct (p x); cbn; lia. Qed.
Definition roomy (n n' : nat) (t : list (request K)) : Prop :=
  n' <= n \/ exists d, In d (demanded t) /\ d <= alloc_max E /\ n' <= d.
Lemma rm_entry k m : hm_entry eqb E k m = Ret Vacant -> roomy (length m) (S (length m)) (snd (hm_entry_t eqb E ee k m)).
Proof.
  unfold hm_entry, hm_entry_t, hm_contains, hm_reserve, roomy. cbn [snd]. destruct (hm_get eqb k m); [discriminate|].
  destruct (Nat.leb_spec (length m + 1) (alloc_max E)) as [H|H]; [|discriminate]. intros _. right. exists (length m + 1).
  cbn [negb]. rewrite orb_true_r. cbn. split; [auto|lia].
Qed.
Lemma rm_bump k v c c' o t : ct_bump_t eqb E ee k v c = ((c', o), t) -> roomy (ct_len c) (ct_len c') t.
Proof.
  unfold ct_bump_t. pose proof (rm_entry k (ct_map c)) as H. unfold hm_entry_t in *. cbn [snd] in H.
  destruct (hm_entry eqb E k (ct_map c)) as [[old|]| | | |]; [destruct (uadd E old v)|destruct (uadd E 0 v)|..];
    intros X; injection X as <- <- <-; unfold ct_len; cbn [ct_map hm_insert_vacant length]; try (exact (H eq_refl)).
  all: left; rewrite ?length_set; lia.
Qed.
Lemma rm_app n n1 n2 t1 t2 : roomy n n1 t1 -> roomy n1 n2 t2 -> roomy n n2 (t1 ++ t2).
Proof.
  unfold roomy. rewrite demanded_app. intros [H|(d & I & L & H)] [H'|(d' & I' & L' & H')].
  - left; lia.
  - right. exists d'. rewrite in_app_iff. auto.
  - right. exists d. rewrite in_app_iff. repeat split; auto; lia.
  - right. exists d'. rewrite in_app_iff. auto.
Qed.
Lemma rm_for_each S A (len : S -> nat) (ft : A -> S -> (S * outcome unit) * list (request K)) :
  (forall a s s' o t, ft a s = ((s', o), t) -> roomy (len s) (len s') t) ->
  forall l s s' o t, for_each_t ft l s = ((s', o), t) -> roomy (len s) (len s') t.
Proof.
  intros H. induction l as [|a r IH]; intros s s' o t; cbn.
  - intros X; injection X as <- <- <-. left; lia.
  - destruct (ft a s) as [[s1 o1] t1] eqn:Q. pose proof (H _ _ _ _ _ Q) as R1.
    destruct o1 as [[]| | | |]; try (intros X; injection X as <- <- <-; exact R1).
    destruct (for_each_t ft r s1) as [[s2 o2] t2] eqn:Q2. intros X; injection X as <- <- <-.
    eapply rm_app; eauto.
Qed.
Lemma rm_pre n n' d t : roomy n n' t -> roomy n n' (Room d :: t).
Proof. intros [H|(x & I & L & H)]; [left; auto|]. right. exists x. cbn. auto. Qed.
Theorem rm_step o c c' r t : ct_step_t eqb cl E ee ei o c = ((c', r), t) -> roomy (ct_len c) (ct_len c') t.
Proof.
  assert (RX : forall h xs c1 o1 t1, ct_extend_t eqb E ee h xs c = ((c1, o1), t1) -> roomy (ct_len c) (ct_len c1) t1).
  { intros h xs c1 o1 t1. unfold ct_extend_t, hm_reserve_t. destruct (hm_reserve E h (ct_map c)).
    2-5: intros X; injection X as <- <- <-; left; lia.
    match goal with |- context [for_each_t ?f ?l ?s] => destruct (for_each_t f l s) as [[c2 o2] t2] eqn:Q end.
    intros X; injection X as <- <- <-. apply rm_pre. eapply rm_for_each in Q; [exact Q|]. intros a0 s s0 o0 t0. apply rm_bump. }
  assert (RL : forall k v c0 c1 o1 t1, ct_lower_t eqb E ee k v c0 = ((c1, o1), t1) -> roomy (ct_len c0) (ct_len c1) t1).
  { intros k v c0 c1 o1 t1 Q. apply dm_lower in Q as [L _]. left. exact L. }
  destruct o; cbn [ct_step_t]; unfold look1, look0; try (intros X; injection X as <- <- <-; left; cbn; lia).
  - unfold ct_push_t. destruct (ct_bump_t _ _ _ _ _ _) as [[c1 o1] t1] eqn:Q. intros X; injection X as <- <- <-. eapply rm_bump; eauto.
  - destruct (ct_extend_t _ _ _ _ _ _) as [[c1 o1] t1] eqn:Q. intros X; injection X as <- <- <-. eapply RX; eauto.
  - unfold ct_extend_ref_t. rewrite map_id. fold (ct_extend_t eqb E ee hint xs c).
    destruct (ct_extend_t _ _ _ _ _ _) as [[c1 o1] t1] eqn:Q. intros X; injection X as <- <- <-. eapply RX; eauto.
  - unfold ct_add_assign_t. match goal with |- context [for_each_t ?f ?l ?s] => destruct (for_each_t f l s) as [[c2 o2] t2] eqn:Q end.
    intros X; injection X as <- <- <-. eapply rm_for_each in Q; [exact Q|]. intros a s s' o0 t0. apply rm_bump.
  - unfold ct_add_assign_ref_t. match goal with |- context [for_each_t ?f ?l ?s] => destruct (for_each_t f l s) as [[c2 o2] t2] eqn:Q end.
    intros X; injection X as <- <- <-. eapply rm_for_each in Q; [exact Q|]. intros a s s' o0 t0. apply rm_bump.
  - unfold ct_sub_assign_t. match goal with |- context [for_each_t ?f ?l ?s] => destruct (for_each_t f l s) as [[c2 o2] t2] eqn:Q end.
    intros X; injection X as <- <- <-. eapply rm_for_each in Q; [exact Q|]. intros a s s' o0 t0. apply RL.
  - unfold ct_sub_assign_ref_t. match goal with |- context [for_each_t ?f ?l ?s] => destruct (for_each_t f l s) as [[c2 o2] t2] eqn:Q end.
    intros X; injection X as <- <- <-. eapply rm_for_each in Q; [exact Q|]. intros a s s' o0 t0. apply RL.
  - unfold hm_insert_t. destruct (hm_insert eqb E k n (ct_map c)) as [m r0] eqn:Q. intros X; injection X as <- <- <-.
    unfold ct_len. cbn [ct_map]. unfold hm_insert, hm_entry, hm_contains, hm_reserve, roomy in *. destruct (hm_get eqb k (ct_map c)) as [old|].
    + injection Q as <- <-. left. rewrite length_set. lia.
    + destruct (Nat.leb_spec (length (ct_map c) + 1) (alloc_max E)) as [H|H]; injection Q as <- <-; [|left; lia].
      right. exists (length (ct_map c) + 1). cbn [negb]. rewrite orb_true_r. cbn. split; [auto|]. lia.
  - unfold ct_remove. intros X; injection X as <- <- <-. left. unfold ct_len. cbn. apply length_remove_le.
  - unfold ct_get_mut. destruct (ct_get eqb c k); intros X; injection X as <- <- <-; left; unfold ct_len; cbn; rewrite ?length_set; lia.
  - intros X; injection X as <- <- <-. left. unfold ct_len, ct_retain, hm_retain. cbn. apply filter_short.
  - intros X; injection X as <- <- <-. left. unfold ct_len, ct_iter_mut, hm_map_values. cbn. now rewrite map_length.
Qed.

Lemma granted_split limit g h ds1 ds2 h' : granted limit g h (ds1 ++ ds2) h' -> exists h1, granted limit g h ds1 h1 /\ granted limit g h1 ds2 h'.
Proof.
  revert h. induction ds1 as [|d ds1 IH]; cbn; intros h G; [exists h; split; [constructor|auto]|].
  inversion G as [|? ? r ? ? A1 A2 A3 G'|? ? ? ? L G']; subst; destruct (IH _ G') as (h1 & G1 & G2); exists h1; (split; [|exact G2]).
  - eapply gr_meet; eauto.
  - apply gr_refuse; auto.
Qed.
Theorem run_fits g ops : forall c c' tr t h h', ct_run_t eqb cl E ee ei ops c = ((c', tr), t) -> ct_len c <= h ->
  granted (alloc_max E) g h (demanded t) h' -> ct_len c' <= h'.
Proof.
  induction ops as [|o ops IH]; intros c c' tr t h h'; cbn.
  - intros X; injection X as <- <- <-. intros L G. inversion G; subst. exact L.
  - destruct (ct_step_t eqb cl E ee ei o c) as [[c1 r1] t1] eqn:Q. destruct (ct_run_t eqb cl E ee ei ops c1) as [[c2 tr2] t2] eqn:Q2.
    intros X; injection X as <- <- <-. intros L. rewrite demanded_app. intros G. apply granted_split in G as (h1 & G1 & G2).
    apply (IH _ _ _ _ h1 h' Q2); [|exact G2]. apply rm_step in Q. apply granted_grows in G1 as [Gr Gd].
    destruct Q as [Q|(d & I & Ld & Q)]; [lia|]. specialize (Gd d I Ld). lia.
Qed.
Theorem run_bound g ops : forall c c' tr t h h' P B, ct_run_t eqb cl E ee ei ops c = ((c', tr), t) ->
  (forall ops1 ops2, ops = ops1 ++ ops2 -> ct_len (fst (ct_run eqb cl E ops1 c)) < P /\
     forall o ops3 n, ops2 = o :: ops3 -> announced o = Some n -> ct_len (fst (ct_run eqb cl E ops1 c)) + n <= P) ->
  (forall d, d <= P -> g d <= B) -> h <= B -> granted (alloc_max E) g h (demanded t) h' -> h' <= B.
Proof.
  intros c c' tr t h h' P B X HP Hg Hh G. apply (granted_le G); [exact Hh|]. clear h Hh G. intros d Hd. apply Hg. revert c c' tr t d X HP Hd.
  induction ops as [|o ops IH]; intros c c' tr t d X HP Hd; cbn in X.
  - injection X as <- <- <-. destruct Hd.
  - destruct (ct_step_t eqb cl E ee ei o c) as [[c1 r1] t1] eqn:Q. destruct (ct_run_t eqb cl E ee ei ops c1) as [[c2 tr2] t2] eqn:Q2.
    injection X as <- <- <-. rewrite demanded_app, in_app_iff in Hd. destruct Hd as [Hd|Hd].
    + destruct (HP [] (o :: ops) eq_refl) as [P0 PA]. cbn in P0.
      destruct (HP [o] ops eq_refl) as [P1 _]. cbn in P1. rewrite <- er_ct_step, Q in P1. cbn in P1.
      destruct (dm_step _ _ _ Q Hd) as [D|(n & An & ->)]; [lia|]. exact (PA o ops n eq_refl An).
    + apply (IH c1 c2 tr2 t2 d Q2); [|exact Hd]. intros ops1 ops2 ->. destruct (HP (o :: ops1) ops2 eq_refl) as [P1 PA]. cbn in P1, PA.
      rewrite <- er_ct_step, Q in P1, PA. cbn in P1, PA. destruct (ct_run eqb cl E ops1 c1). exact (conj P1 PA).
Qed.
End Requests.
