(** Blocks of heap memory: the calls of [CBModel7] are those of [CBModel], and what they
    leave in use. *)
From Coq Require Import Permutation.
From Verif Require Import Base CBSpec CBModel CBModel2 CBRun CBSpec6 CBModel7 CBRun4.
Local Open Scope outcome_scope.
Set Implicit Arguments.

(** ** Blocks in use *)

Lemma settle_app es1 : forall l es2, settle l (es1 ++ es2) = match settle l es1 with Some l' => settle l' es2 | None => None end.
Proof.
  induction es1 as [|[b|b] es1 IH]; intros l es2; cbn [settle app]; [reflexivity| |].
  - destruct (existsb _ l); [reflexivity|]. apply IH.
  - destruct (without b l); [apply IH|reflexivity].
Qed.

Lemma same_block_eq b c : same_block b c = true <-> b = c.
Proof.
  unfold same_block. rewrite Bool.andb_true_iff, !Nat.eqb_eq. destruct b, c; cbn. split; [intros [-> ->]; reflexivity|intros X; injection X; auto].
Qed.

Lemma without_in b l : In b l -> exists l', without b l = Some l' /\ Permutation l (b :: l').
Proof.
  induction l as [|c t IH]; [intros []|]. cbn [without]. intros I. destruct (same_block b c) eqn:Q.
  - apply same_block_eq in Q. subst. eauto.
  - destruct I as [X|I]; [symmetry in X; apply same_block_eq in X; congruence|].
    destruct (IH I) as (l' & -> & P). cbn. eexists. split; [reflexivity|]. rewrite P. apply perm_swap.
Qed.

Lemma in_use_perm es l l' : in_use es l -> Permutation l l' -> in_use es l'.
Proof. intros (l0 & S & P) Q. exists l0. split; [exact S|]. now rewrite P. Qed.

Lemma in_use_take place es l n : allocator place -> in_use es l -> in_use (es ++ [Take (place es, n)]) ((place es, n) :: l).
Proof.
  intros A U. pose proof (A _ _ U) as F. destruct U as (l0 & S & P). exists ((place es, n) :: l0). split; [|now rewrite P].
  rewrite settle_app, S. cbn [settle fst]. destruct (existsb _ l0) eqn:Q; [|reflexivity]. exfalso. apply F.
  apply existsb_exists in Q. destruct Q as (c & I & Q). apply Nat.eqb_eq in Q. rewrite <- Q. apply in_map. now rewrite <- P.
Qed.

Lemma in_use_give es b l : in_use es (b :: l) -> in_use (es ++ [Give b]) l.
Proof.
  intros (l0 & S & P). destruct (@without_in b l0) as (l' & W & P'); [rewrite P; now left|].
  exists l'. split; [rewrite settle_app, S; cbn [settle]; now rewrite W|].
  rewrite P' in P. now apply Permutation_cons_inv in P.
Qed.

(** ** Comparing a computation with requests to one without *)

Definition rel {T S S' A B} (V : list event * S -> A -> S' -> B -> Prop) (W : list event * S -> S' -> Prop)
  (r : (list event * S) * list T * outcome A) (r' : S' * list T * outcome B) : Prop :=
  match r, r' with
  | (s, d, o), (s', d', o') => d = d' /\
      match o, o' with
      | Ret a, Ret b => V s a s' b
      | Panic, Panic => W s s'
      | Abort, Abort | UB, UB | NoFuel, NoFuel => True
      | _, _ => False
      end
  end.

Lemma rel_bind {T S S' A B A2 B2} (V : list event * S -> A -> S' -> B -> Prop) (V2 : list event * S -> A2 -> S' -> B2 -> Prop) W
  (m : H T S A) (m' : M T S' B) f f' s s' :
  rel V W (m s) (m' s') ->
  (forall s1 a s1' b, V s1 a s1' b -> rel V2 W (f a s1) (f' b s1')) ->
  rel V2 W (bind m f s) (bind m' f' s').
Proof.
  intros X Y. unfold bind. destruct (m s) as [[s1 d] o]. destruct (m' s') as [[s1' d'] o']. cbn in X. destruct X as [-> X].
  destruct o, o'; try contradiction; cbn; try (split; [reflexivity|assumption]). specialize (Y _ _ _ _ X).
  match goal with |- rel _ _ match ?x with _ => _ end match ?y with _ => _ end => destruct x as [[s2 d2] o2]; destruct y as [[s2' d2'] o2'] end.
  cbn in *. destruct Y as [-> Y]. split; [reflexivity|exact Y].
Qed.

Lemma rel_weaken {T S S' A B} (V V2 : list event * S -> A -> S' -> B -> Prop) (W W2 : list event * S -> S' -> Prop)
  (r : (list event * S) * list T * outcome A) (r' : S' * list T * outcome B) :
  rel V W r r' -> (forall s a s' b, V s a s' b -> V2 s a s' b) -> (forall s s', W s s' -> W2 s s') -> rel V2 W2 r r'.
Proof.
  destruct r as [[s d] o], r' as [[s' d'] o']. cbn. intros [-> X] HV HW. split; [reflexivity|]. destruct o, o'; auto.
Qed.

(** the value of [m'] is not needed *)
Lemma rel_bind_l {T S S' A A2 B2} (V : list event * S -> A -> S' -> A -> Prop) (V2 : list event * S -> A2 -> S' -> B2 -> Prop) W
  (m : H T S A) (o : outcome A) (f : A -> H T S A2) (f' : A -> M T S' B2) s s' :
  rel V W (m s) (s', [], o) ->
  (forall s1 a s1' b, V s1 a s1' b -> rel V2 W (f a s1) (f' b s1')) ->
  rel V2 W (bind m f s) (bind (liftO o) f' s').
Proof. intros X. apply (@rel_bind T S S' A A A2 B2 V V2 W m (liftO o)). exact X. Qed.

Lemma bind_nil {T S A B} (m : M T S A) (f : A -> M T S B) s s1 a : m s = (s1, [], Ret a) -> bind m f s = f a s1.
Proof. intros Q. unfold bind. rewrite Q. destruct (f a s1) as [[? ?] ?]. reflexivity. Qed.

Lemma bind_panic {T S A B} (m : M T S A) (f : A -> M T S B) s s1 d : m s = (s1, d, Panic) -> bind m f s = (s1, d, Panic).
Proof. intros Q. unfold bind. now rewrite Q. Qed.

Arguments bind_nil {T S A B m} f {s s1 a} _.
Arguments bind_panic {T S A B m} f {s s1 d} _.

Section Proofs.
Variable T : Type.
Variable E : machine.
Variable dp : T -> bool.
Variable sized : bool.
Variable grow : nat -> nat.
Variable place : list event -> nat.

Hypothesis HA : allocator place.
Hypothesis HG : growing (alloc_max E) grow.

Notation vb v := (blk (v_at v) (v_cap v)).
Notation vec_ok := (@vec_ok T E sized).
Notation has_block := (@has_block T sized).

Lemma take_eq S n (s : list event * S) (I : Prop) bs : (I -> in_use (fst s) bs) ->
  exists h a, take T sized place n s = ((h, snd s), [], Ret a) /\ (a = None <-> sized && (0 <? n) = false) /\
    (I -> in_use h (blk a n ++ bs)).
Proof.
  intros U. unfold take. destruct (sized && (0 <? n)); [|destruct s as [h s]; eexists; eexists; split; [reflexivity|]; cbn; auto with *].
  do 2 eexists. split; [reflexivity|]. split; [split; discriminate|]. intros i. cbn [blk app]. apply in_use_take; auto.
Qed.

Lemma give_eq S a n (s : list event * S) (I : Prop) bs : (I -> in_use (fst s) (blk a n ++ bs)) ->
  exists h, give T a n s = ((h, snd s), [], Ret tt) /\ (I -> in_use h bs).
Proof.
  intros U. unfold give. destruct a; [|destruct s; eexists; split; [reflexivity|exact U]].
  eexists. split; [reflexivity|]. intros i. apply in_use_give. exact (U i).
Qed.

Lemma push_rel S S' (v : vec T) x (s : list event * S) (s' : S') (I : Prop) bs : vec_ok v -> (I -> in_use (fst s) (vb v ++ bs)) ->
  rel (fun s1 v1 s1' b => snd s1 = snd s /\ s1' = s' /\ vec_ok v1 /\ v_items v1 = b /\ (I -> in_use (fst s1) (vb v1 ++ bs)))
      (fun s1 s1' => snd s1 = snd s /\ s1' = s' /\ (I -> in_use (fst s1) bs))
      (vec_push_h E sized grow place v x s)
      (s', [], if length (v_items v) + 1 <=? alloc_max E then Ret (v_items v ++ [x]) else Panic).
Proof.
  intros (L & C & A) U. unfold vec_push_h. destruct (Nat.ltb_spec (length (v_items v)) (v_cap v)) as [R|R].
  - rewrite (proj2 (Nat.leb_le (length (v_items v) + 1) (alloc_max E))) by lia. cbn. repeat split; auto; cbn [v_items v_cap v_at].
    + rewrite app_length; cbn; lia.
    + exact (proj1 A).
    + exact (proj2 A).
  - destruct (Nat.leb_spec (length (v_items v) + 1) (alloc_max E)) as [F|F].
    + unfold bind. destruct (@give_eq S (v_at v) (v_cap v) s I bs U) as (h & -> & U1).
      destruct (@take_eq S (grow (v_cap v)) (h, snd s) I bs U1) as (h2 & a & -> & A2 & U2). cbn.
      destruct (HG (n:=v_cap v)); [lia|]. repeat split; auto; cbn [v_items v_cap v_at]; [rewrite app_length; cbn; lia|exact (proj1 A2)|exact (proj2 A2)].
    + unfold releasing, liftO. destruct (@give_eq S (v_at v) (v_cap v) s I bs U) as (h & -> & U1). cbn. auto.
Qed.

Lemma fill_rel S S' n : forall (v : vec T) (s : list event * S) (s' : S') (I : Prop) bs, vec_ok v -> (I -> in_use (fst s) (vb v ++ bs)) ->
  rel (fun s1 v1 s1' b => snd s1 = snd s /\ s1' = s' /\ vec_ok v1 /\ v_items v1 = b /\ (I -> in_use (fst s1) (vb v1 ++ bs)))
      (fun s1 s1' => snd s1 = snd s /\ s1' = s' /\ (I -> in_use (fst s1) bs))
      (vec_fill_h E sized grow place n v s)
      (s', [], vec_push_uninit E (v_items v) n).
Proof.
  induction n as [|n IH]; intros v s s' I bs K U; cbn [vec_fill_h].
  - unfold vec_push_uninit. pose proof K as (L & C & _). rewrite (proj2 (Nat.leb_le (length (v_items v) + 0) (alloc_max E))) by lia.
    cbn. rewrite app_nil_r. auto 10.
  - pose proof (@push_rel S S' v Uninit s s' I bs K U) as P.
    unfold bind. destruct (vec_push_h E sized grow place v Uninit s) as [[s1 d1] o1]. cbn in P. destruct P as [-> P].
    unfold vec_push_uninit. destruct (Nat.leb_spec (length (v_items v) + 1) (alloc_max E)) as [F|F].
    + destruct o1 as [v1| | | |]; try contradiction. destruct P as (P1 & _ & K1 & P2 & U1).
      specialize (IH v1 s1 s' I bs K1 U1). unfold vec_push_uninit in IH. rewrite P2, app_length in IH. cbn [length] in IH.
      destruct (vec_fill_h E sized grow place n v1 s1) as [[s2 d2] o2]. cbn in IH. destruct IH as [-> IH].
      replace (length (v_items v) + Datatypes.S n) with (length (v_items v) + 1 + n) by lia.
      cbn. split; [reflexivity|]. rewrite <- P1. destruct (length (v_items v) + 1 + n <=? alloc_max E); destruct o2; try contradiction; auto.
      rewrite <- app_assoc in IH. exact IH.
    + destruct o1; try contradiction. replace (length (v_items v) + Datatypes.S n <=? alloc_max E) with false by (symmetry; apply Nat.leb_gt; lia).
      cbn. split; [reflexivity|exact P].
Qed.

Lemma shrink_eq S (v : vec T) (s : list event * S) (I : Prop) bs : vec_ok v -> (I -> in_use (fst s) (vb v ++ bs)) ->
  exists h v1, vec_shrink_h sized place v s = ((h, snd s), [], Ret v1) /\ vec_ok v1 /\ v_items v1 = v_items v /\
    v_cap v1 = length (v_items v) /\ (I -> in_use h (vb v1 ++ bs)).
Proof.
  intros (L & C & A) U. unfold vec_shrink_h. destruct (Nat.ltb_spec (length (v_items v)) (v_cap v)) as [R|R].
  - unfold bind. destruct (@give_eq S (v_at v) (v_cap v) s I bs U) as (h & -> & U1).
    destruct (@take_eq S (length (v_items v)) (h, snd s) I bs U1) as (h2 & a & -> & A2 & U2). cbn.
    do 2 eexists. split; [reflexivity|]. repeat split; cbn [v_items v_cap v_at]; auto; try lia; [exact (proj1 A2)|exact (proj2 A2)].
  - destruct s as [h s]. exists h, v. split; [reflexivity|]. repeat split; auto; try lia; [exact (proj1 A)|exact (proj2 A)].
Qed.

Lemma room_eq S n (s : list event * S) (I : Prop) bs : (I -> in_use (fst s) bs) ->
  if n <=? alloc_max E then
    exists h a, vec_with_capacity_h T E sized place n s = ((h, snd s), [], Ret (Vec (T:=T) [] a n)) /\ vec_ok (Vec [] a n) /\ (I -> in_use h (blk a n ++ bs))
  else vec_with_capacity_h T E sized place n s = (s, [], Panic).
Proof.
  intros U. unfold vec_with_capacity_h. destruct (Nat.leb_spec n (alloc_max E)) as [R|R]; [|reflexivity].
  unfold bind. destruct (@take_eq S n s I bs U) as (h & a & -> & A & U1). cbn. do 2 eexists. split; [reflexivity|].
  split; [|exact U1]. repeat split; cbn [v_items v_cap v_at length]; try lia; [exact (proj1 A)|exact (proj2 A)].
Qed.

(** ** Construction *)

Definition built (I : Prop) bs (s1 : list event * unit) (p : cb T * option nat) (s1' : unit) (c : cb T) : Prop :=
  fst p = c /\ has_block p /\ length (buffer c) <= alloc_max E /\ (I -> in_use (fst s1) (owns p ++ bs)).

Lemma new_rel k (s : list event * unit) (I : Prop) bs : (I -> in_use (fst s) bs) ->
  rel (built I bs) (fun s1 _ => I -> in_use (fst s1) bs)
      (new_h T E sized grow place k s) (tt, [], new T E k).
Proof.
  intros U. unfold new_h, new, with_capacity_h, with_capacity.
  destruct (uadd E k 1) as [n| | | |] eqn:Q; cbn [obind]; try (destruct s; cbn; auto; fail).
  rewrite (@bind_nil _ _ _ _ _ _ _ _ _ (eq_refl : liftO (Ret n) s = (s, [], Ret n))).
  pose proof (@room_eq unit n s I bs U) as R. unfold vec_with_capacity. destruct (Nat.leb_spec n (alloc_max E)) as [L|L].
  2:{ rewrite (bind_panic _ R). cbn. auto. }
  destruct R as (h & a & Q1 & K & U1). rewrite (bind_nil _ Q1). cbn [obind].
  rewrite (@bind_nil _ _ _ _ (releasing (Vec (T:=T) [] a n) (liftO (Ret n))) _ (h, snd s) (h, snd s) n) by reflexivity.
  pose proof (@fill_rel unit unit n _ (h, snd s) tt I bs K U1) as F. unfold bind.
  destruct (vec_fill_h E sized grow place n (Vec [] a n) (h, snd s)) as [[s1 d1] o1]. cbn [v_items] in F.
  destruct (vec_push_uninit E [] n) as [b| | | |]; destruct F as [-> F]; destruct o1 as [v1| | | |]; try contradiction; cbn [obind].
  - destruct F as (F1 & _ & K1 & <- & U2). destruct (@shrink_eq unit v1 s1 I bs K1 U2) as (h2 & v2 & -> & K2 & I2 & C2 & U3).
    cbn. split; [reflexivity|]. unfold built, owns, has_block. cbn [fst snd buffer]. rewrite I2. destruct K2 as (L2 & M2 & N2).
    split; [reflexivity|]. split; [rewrite <- C2; exact N2|]. split; [lia|]. rewrite <- C2. exact U3.
  - cbn. split; [reflexivity|apply F].
  - cbn; auto.
  - cbn; auto.
  - cbn; auto.
Qed.

Lemma push_uninit_1 (v : list (slot T)) x : vec_push_uninit E v 1 = (if length v + 1 <=? alloc_max E then Ret (v ++ [Uninit]) else Panic) /\
  (x = Uninit -> vec_push_uninit E v 1 = (if length v + 1 <=? alloc_max E then Ret (v ++ [x]) else Panic)).
Proof. split; [reflexivity|intros ->; reflexivity]. Qed.

Lemma collect_rel S evs : forall (v : vec T) xs (s : list event * S) (I : Prop) bs, vec_ok v -> v_items v = map Init xs -> (I -> in_use (fst s) (vb v ++ bs)) ->
  rel (fun s1 v1 _ zs => snd s1 = snd s /\ vec_ok v1 /\ v_items v1 = map Init zs /\ (I -> in_use (fst s1) (vb v1 ++ bs)))
      (fun s1 _ => snd s1 = snd s /\ (I -> in_use (fst s1) bs))
      (collect_h E sized grow place v evs s)
      (tt, [], match collect_from E xs evs with (zs, Ret _) => Ret zs | _ => Panic end).
Proof.
  induction evs as [|[x|] evs IH]; intros v xs s I bs K Q U; cbn [collect_h collect_from].
  - cbn. auto 10.
  - pose proof (@push_rel S unit v (Init x) s tt I bs K U) as P.
    assert (QL : length (v_items v) = length xs) by now rewrite Q, map_length. rewrite QL in P.
    unfold bind. destruct (vec_push_h E sized grow place v (Init x) s) as [[s1 d1] o1]. cbn in P. destruct P as [-> P].
    destruct (length xs + 1 <=? alloc_max E) eqn:F.
    + destruct o1 as [v1| | | |]; try contradiction. destruct P as (P1 & _ & K1 & P2 & U1).
      assert (P3 : v_items v1 = map Init (xs ++ [x])) by (rewrite P2, Q, map_app; reflexivity).
      specialize (IH v1 (xs ++ [x]) s1 I bs K1 P3 U1). rewrite P1 in IH.
      destruct (collect_h E sized grow place v1 evs s1) as [[s2 d2] o2]. destruct IH as [-> IH]. cbn. split; [reflexivity|exact IH].
    + destruct o1; try contradiction. cbn. split; [reflexivity|]. destruct P as (P1 & _ & P2). auto.
  - unfold releasing, liftO. destruct (@give_eq S (v_at v) (v_cap v) s I bs U) as (h & -> & U1). cbn. auto.
Qed.

(** the end of [from_iter] and of [from] a vector *)
Lemma finish_rel (v : vec T) e (s : list event * unit) (I : Prop) bs : vec_ok v -> (I -> in_use (fst s) (vb v ++ bs)) ->
  rel (built I bs) (fun s1 _ => I -> in_use (fst s1) bs)
    (bind (vec_push_h E sized grow place v Uninit) (fun v1 => bind (vec_shrink_h sized place v1) (fun v2 =>
       bind (releasing v2 (liftO (e (length (v_items v2))))) (fun x => bind (vec_shrink_h sized place v2) (fun v3 =>
       ret (CB (v_items v3) 0 x, v_at v3))))) s)
    (tt, [], let* b := vec_push_uninit E (v_items v) 1 in let* x := e (length b) in Ret (CB b 0 x)).
Proof.
  intros K U. pose proof (@push_rel unit unit v Uninit s tt I bs K U) as P. unfold vec_push_uninit. cbn [repeat].
  unfold bind at 1. destruct (vec_push_h E sized grow place v Uninit s) as [[s1 d1] o1]. destruct P as [-> P].
  destruct (length (v_items v) + 1 <=? alloc_max E).
  2:{ destruct o1; try contradiction. cbn. split; [reflexivity|apply P]. }
  destruct o1 as [v1| | | |]; try contradiction. destruct P as (P1 & _ & K1 & <- & U1). cbn [obind].
  destruct (@shrink_eq unit v1 s1 I bs K1 U1) as (h2 & v2 & Q2 & K2 & I2 & C2 & U3). unfold bind at 1. rewrite Q2, I2.
  unfold bind at 1, releasing, liftO. destruct (e (length (v_items v1))) as [x| | | |] eqn:Qe; cbn [obind].
  - unfold bind. destruct (@shrink_eq unit v2 (h2, snd s1) I bs K2 U3) as (h3 & v3 & -> & K3 & I3 & C3 & U4).
    cbn. split; [reflexivity|]. unfold built, owns, has_block. cbn [fst snd buffer]. rewrite I3, I2. rewrite I2 in C3. destruct K3 as (L3 & M3 & N3).
    split; [reflexivity|]. split; [rewrite <- C3; exact N3|]. split; [lia|]. rewrite <- C3. exact U4.
  - destruct (@give_eq unit (v_at v2) (v_cap v2) (h2, snd s1) I bs U3) as (h3 & -> & U4). cbn. auto.
  - cbn; auto.
  - cbn; auto.
  - cbn; auto.
Qed.

Lemma from_iter_rel c0 evs (s : list event * unit) (I : Prop) bs : c0 <= alloc_max E -> (I -> in_use (fst s) bs) ->
  rel (built I bs) (fun s1 _ => I -> in_use (fst s1) bs)
      (from_iter_h E sized grow place c0 evs s) (tt, [], snd (from_iter_from E evs)).
Proof.
  intros HC U. unfold from_iter_h, from_iter_from.
  assert (X : rel (fun s1 v1 _ zs => vec_ok v1 /\ v_items v1 = map Init zs /\ (I -> in_use (fst s1) (vb v1 ++ bs)))
      (fun s1 _ => I -> in_use (fst s1) bs)
      (match evs with
       | [] => ret (Vec [] None 0)
       | None :: _ => liftO Panic
       | Some x :: evs' => bind (vec_with_capacity_h T E sized place (Nat.max 1 c0)) (fun v => bind (vec_push_h E sized grow place v (Init x)) (fun v' => collect_h E sized grow place v' evs'))
       end s)
      (tt, [], match collect_from E [] evs with (zs, Ret _) => Ret zs | _ => Panic end)).
  { destruct evs as [|[x|] evs]; cbn [collect_from length app].
    - cbn. split; [reflexivity|]. repeat split; cbn; auto with *. now rewrite Bool.andb_false_r.
    - pose proof (@room_eq unit (Nat.max 1 c0) s I bs U) as R. cbn [Nat.add] in *. destruct (Nat.leb_spec 1 (alloc_max E)) as [L|L].
      2:{ rewrite (proj2 (Nat.leb_gt (Nat.max 1 c0) (alloc_max E))) in R by lia. unfold bind. rewrite R. cbn. auto. }
      rewrite (proj2 (Nat.leb_le (Nat.max 1 c0) (alloc_max E))) in R by lia. destruct R as (h & a & Q & K & U1).
      unfold bind at 1. rewrite Q.
      pose proof (@push_rel unit unit _ (Init x) (h, snd s) tt I bs K U1) as P. cbn [v_items length app Nat.add] in P.
      rewrite (proj2 (Nat.leb_le 1 (alloc_max E)) L) in P. unfold bind.
      destruct (vec_push_h E sized grow place (Vec [] a (Nat.max 1 c0)) (Init x) (h, snd s)) as [[s1 d1] o1]. cbn in P. destruct P as [-> P].
      destruct o1 as [v1| | | |]; try contradiction. destruct P as (P1 & _ & K1 & P2 & U2).
      pose proof (@collect_rel unit evs v1 [x] s1 I bs K1 P2 U2) as C.
      destruct (collect_h E sized grow place v1 evs s1) as [[s2 d2] o2]. destruct C as [-> C]. cbn [rel]. split; [reflexivity|].
      destruct (collect_from E [x] evs) as [zs [u| | | |]]; destruct o2; try contradiction; try exact (proj2 C); apply C.
    - cbn. auto. }
  unfold bind at 1. revert X. generalize (match evs with
       | [] => ret (Vec [] None 0)
       | None :: _ => liftO Panic
       | Some x :: evs' => bind (vec_with_capacity_h T E sized place (Nat.max 1 c0)) (fun v => bind (vec_push_h E sized grow place v (Init x)) (fun v' => collect_h E sized grow place v' evs'))
       end s). intros [[s1 d1] o1] [-> X].
  destruct (collect_from E [] evs) as [zs [u| | | |]]; destruct o1 as [v1| | | |]; try contradiction; try (cbn; auto; fail).
  destruct X as (K & Q & U1).
  assert (QL : length (v_items v1) = length zs) by now rewrite Q, map_length.
  pose proof (@finish_rel v1 (fun n => usub E n 1) s1 I bs K U1) as F. rewrite Q in F. cbn [app].
  unfold vec_push_uninit in *. destruct (length (map Init zs) + 1 <=? alloc_max E); cbn [obind snd] in *.
  - match goal with F : rel _ _ ?a _ |- rel _ _ match ?b with _ => _ end _ => change b with a; destruct a as [[s2 d2] o2] end. exact F.
  - match goal with F : rel _ _ ?a _ |- rel _ _ match ?b with _ => _ end _ => change b with a; destruct a as [[s2 d2] o2] end. exact F.
Qed.

Lemma from_vec_rel droppable xs a cap (s : list event * unit) (I : Prop) bs :
  vec_ok (Vec (map Init xs) a cap) -> (I -> in_use (fst s) (blk a cap ++ bs)) ->
  rel (built I bs) (fun s1 _ => I -> in_use (fst s1) bs)
      (from_vec_h E sized grow place droppable xs a cap s) (tt, [], from_vec E droppable xs).
Proof.
  intros K U. unfold from_vec_h, from_vec.
  pose proof (@push_rel unit unit _ Uninit s tt I bs K U) as P. unfold vec_push_uninit. cbn [repeat]. cbn [v_items] in P. cbv zeta.
  unfold bind at 1. destruct (vec_push_h E sized grow place _ Uninit s) as [[s1 d1] o1]. destruct P as [-> P].
  destruct (length (map Init xs) + 1 <=? alloc_max E).
  2:{ destruct o1; try contradiction. destruct droppable; cbn; auto. split; [reflexivity|apply P]. }
  destruct o1 as [v1| | | |]; try contradiction. destruct P as (P1 & _ & K1 & P2 & U1). cbn [obind].
  destruct (@shrink_eq unit v1 s1 I bs K1 U1) as (h2 & v2 & Q2 & K2 & I2 & C2 & U3). unfold bind at 1. rewrite Q2.
  destruct (@shrink_eq unit v2 (h2, snd s1) I bs K2 U3) as (h3 & v3 & Q3 & K3 & I3 & C3 & U4). unfold bind at 1. rewrite Q3.
  cbn. split; [reflexivity|]. unfold built, owns, has_block. cbn [fst snd buffer]. rewrite <- P2, I3, I2. rewrite I2 in C3. destruct K3 as (L3 & M3 & N3).
  split; [reflexivity|]. split; [rewrite <- C3; exact N3|]. split; [lia|]. rewrite <- C3. exact U4.
Qed.

End Proofs.
