(** Proofs about iterators in the hands of user code. *)
From Coq Require Import Lia.
From Verif Require Import Base CBSpec CBModel CBRun CBProofs CBProofs2 CBProofs3 CBSpec5 CBModel6.
Set Implicit Arguments.

Section Feed.
Variable T : Type.
Variable dp : T -> bool.

Fixpoint feed {R} (u : use T R) (l : list T) : list T * list (option T) * list T * outcome R :=
  match u with
  | Done o => (l, [], [], o)
  | Discard v k => match feed (k (dp v)) l with (l', a, d, o) => (l', a, v :: d, o) end
  | Next k => match feed (k (hd_error l)) (tl l) with (l', a, d, o) => (l', hd_error l :: a, d, o) end
  end.

Lemma feed_facts R (u : use T R) : forall l l' a d o, feed u l = (l', a, d, o) ->
  replay dp u a = Some (d, o) /\ exists n, delivered l n a /\ l' = skipn n l.
Proof.
  induction u as [o|k IH|v k IH]; intros l l' a d o' H; cbn in H.
  - inversion H; subst. split; [reflexivity|]. exists 0. split; [|reflexivity]. split; [lia|]. exists 0. split; [reflexivity|lia].
  - destruct (feed (k (hd_error l)) (tl l)) as [[[l1 a1] d1] o1] eqn:F. inversion H; subst.
    destruct (IH _ _ _ _ _ _ F) as (Rp & n & (Hn & m & Ha & Hm) & Hl). split; [exact Rp|].
    destruct l as [|x l]; cbn [hd_error tl] in *.
    + exists 0. split.
      * split; [lia|]. exists (S m). cbn in Hn. replace n with 0 in Ha by lia. split; [cbn in *; now rewrite Ha|reflexivity].
      * rewrite Hl. apply skipn_nil.
    + exists (S n). split; [|exact Hl]. split; [cbn; lia|]. exists m. split; [cbn; now rewrite Ha|]. cbn. intros X. now rewrite (Hm X).
  - destruct (feed (k (dp v)) l) as [[[l1 a1] d1] o1] eqn:F. inversion H; subst.
    destruct (IH _ _ _ _ _ _ F) as (Rp & Q). split; [|exact Q]. cbn. now rewrite Rp.
Qed.

Lemma feed_nth n l : exists a, feed (it_nth T n) l =
  match drop_each dp (firstn n l) with
  | (r, dr, Ret _) => (skipn (S n) l, a, dr, Ret (nth_error l n))
  | (r, dr, _) => (r ++ skipn n l, a, dr, Panic)
  end.
Proof.
  revert l. induction n as [|n IH]; intros l; cbn [it_nth feed].
  - destruct l as [|x l]; cbn; eauto.
  - destruct l as [|x l]; [cbn; eauto|]. cbn [hd_error tl firstn drop_each skipn nth_error].
    destruct (dp x) eqn:D.
    + cbn. rewrite D. cbn. eexists. now rewrite firstn_skipn.
    + cbn [feed]. rewrite D. destruct (IH l) as (a & ->). destruct (drop_each dp (firstn n l)) as [[r dr] [| | | |]]; eauto.
Qed.

Lemma feed_count f n l : length l < f -> exists a, feed (it_count T f n) l =
  match drop_each dp l with (r, dr, o) => (r, a, dr, omap (fun _ => n + length l) o) end.
Proof.
  revert n l. induction f as [|f IH]; intros n l L; [lia|]. cbn [it_count feed]. destruct l as [|x l].
  - cbn. rewrite Nat.add_0_r. eauto.
  - cbn [hd_error tl drop_each feed]. destruct (dp x) eqn:D; [cbn; eauto|]. cbn in L. destruct (IH (n + 1) l) as (a & ->); [lia|].
    destruct (drop_each dp l) as [[r dr] o]. eexists. replace (n + 1 + length l) with (n + length (x :: l)) by (cbn; lia). reflexivity.
Qed.

Lemma feed_last f w l : length l < f ->
  (existsb dp (removelast (w :: l)) = false /\ exists a, feed (it_last f (Some w)) l = ([], a, removelast (w :: l), Ret (Some (List.last (w :: l) w)))) \/
  (exists a0 x y b a, w :: l = a0 ++ x :: y :: b /\ existsb dp a0 = false /\ dp x = true /\
    feed (it_last f (Some w)) l = (b, a, a0 ++ [x; y], if dp y then Abort else Panic)).
Proof.
  revert w l. induction f as [|f IH]; intros w l L; [lia|]. destruct l as [|x l].
  - left. split; [reflexivity|]. cbn. eauto.
  - cbn in L. change (removelast (w :: x :: l)) with (w :: removelast (x :: l)).
    change (List.last (w :: x :: l) w) with (List.last (x :: l) w).
    cbn [it_last feed hd_error tl]. destruct (dp w) eqn:D.
    + right. exists [], w, x, l. eexists. repeat split; auto.
    + destruct (IH x l) as [(B & a & H)|(a0 & x0 & y & b & a & Hl & B & Dx & H)]; [lia| |].
      * left. split; [cbn [existsb]; rewrite D; exact B|]. rewrite H. eexists.
        replace (List.last (x :: l) w) with (List.last (x :: l) x); [reflexivity|].
        clear. revert x. induction l as [|z l IH]; intros x; [reflexivity|]. cbn [List.last]. destruct l; [reflexivity|].
        specialize (IH z). cbn [List.last] in *. clear IH. revert z. generalize dependent l. induction l as [|q l IH]; intros; [reflexivity|].
        destruct l; [reflexivity|]. apply IH. exact z.
      * right. exists (w :: a0), x0, y, b. rewrite H. eexists. split; [cbn; now rewrite Hl|].
        split; [cbn; now rewrite D|]. split; [exact Dx|reflexivity].
Qed.

Lemma feed_find p f l : length l < f ->
  (exists pre x post a, l = pre ++ x :: post /\ existsb p pre = false /\ existsb dp pre = false /\ p x = true /\
     feed (it_find p f) l = (post, a, pre, Ret (Some x))) \/
  (existsb p l = false /\ existsb dp l = false /\ exists a, feed (it_find p f) l = ([], a, l, Ret None)) \/
  (exists pre x post a, l = pre ++ x :: post /\ existsb p (pre ++ [x]) = false /\ existsb dp pre = false /\ dp x = true /\
     feed (it_find p f) l = (post, a, pre ++ [x], Panic)).
Proof.
  revert l. induction f as [|f IH]; intros l L; [lia|]. destruct l as [|x l].
  - right; left. cbn. eauto.
  - cbn in L. cbn [it_find feed hd_error tl]. destruct (p x) eqn:P.
    + left. exists [], x, l. eexists. repeat split; auto.
    + cbn [feed]. destruct (dp x) eqn:D.
      * right; right. exists [], x, l. eexists. cbn. rewrite P. repeat split; auto.
      * destruct (IH l) as [(pre & y & post & a & -> & A & B & C & ->)|[(A & B & a & ->)|(pre & y & post & a & -> & A & B & C & ->)]]; [lia| | |].
        -- left. exists (x :: pre), y, post. eexists. cbn. rewrite P, D. repeat split; auto.
        -- right; left. cbn. rewrite P, D. repeat split; auto. eauto.
        -- right; right. exists (x :: pre), y, post. eexists. cbn. rewrite P, D. repeat split; auto.
Qed.

Lemma feed_collect f vs l : length l < f -> exists a, feed (it_collect f vs) l = ([], a, [], Ret (vs ++ l)).
Proof.
  revert vs l. induction f as [|f IH]; intros vs l L; [lia|]. destruct l as [|x l]; cbn [it_collect feed hd_error tl].
  - rewrite app_nil_r. eauto.
  - cbn in L. destruct (IH (vs ++ [x]) l) as (a & ->); [lia|]. rewrite <- app_assoc. cbn. eauto.
Qed.
End Feed.

Section Drive.
Variable T : Type.
Variable E : machine.
Variable HE : indexable T E.
Variable dp : T -> bool.

Lemma drive_feed R (u : use T R) : forall c d, matches E c d ->
  match feed dp u (items d) with
  | (l', a, dr, o) => exists c', drive E dp u c = (c', a, dr, o) /\ matches E c' (Deque (cap d) l')
  end.
Proof.
  induction u as [o|k IH|v k IH]; intros c d M; cbn [feed drive].
  - exists c. split; [reflexivity|]. destruct d; exact M.
  - destruct M as [Rp Hn].
    destruct (pop_front_ok dp HE Rp) as (c1 & H1 & R1 & N1).
    rewrite H1. specialize (IH (hd_error (items d)) c1 (Deque (cap d) (tl (items d)))).
    cbn [items cap] in IH. destruct (feed dp (k (hd_error (items d))) (tl (items d))) as [[[l' a] dr] o].
    destruct IH as (c' & H & M'); [split; [exact R1|cbn; lia]|]. rewrite H. exists c'. split; [reflexivity|exact M'].
  - specialize (IH (dp v) c d M). destruct (feed dp (k (dp v)) (items d)) as [[[l' a] dr] o].
    destruct IH as (c' & H & M'). rewrite H. exists c'. auto.
Qed.
End Drive.

Lemma drive_reachable T E (dp : T -> bool) R (u : use T R) : forall c c' a d o, reachable E c ->
  drive E dp u c = (c', a, d, o) -> reachable E c'.
Proof.
  induction u as [o|k IH|v k IH]; intros c c' a d o' Rc H; cbn [drive] in H.
  - inversion H; subst; exact Rc.
  - destruct (pop_front E dp c) as [[c1 d1] o1] eqn:P.
    assert (R1 : reachable E c1).
    { destruct (cb_step E dp OPopFront c) as [[c1' d1'] o1'] eqn:Q. pose proof Q as Q'.
      cbn [cb_step] in Q'. unfold mmap, bind in Q'. rewrite P in Q'.
      assert (c1' = c1) as <- by (destruct o1; inversion Q'; reflexivity).
      exact (@r_call T E dp OPopFront c c1' d1' o1' Rc I Q). }
    destruct o1 as [x| | | |]; try (inversion H; subst; exact R1).
    destruct (drive E dp (k x) c1) as [[[c2 a2] d2] o2] eqn:D. inversion H; subst. exact (IH _ _ _ _ _ _ R1 D).
  - destruct (drive E dp (k (dp v)) c) as [[[c2 a2] d2] o2] eqn:D. inversion H; subst. exact (IH _ _ _ _ _ _ Rc D).
Qed.
