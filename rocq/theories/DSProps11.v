(** Property theorems C118: of a disjoint set only the elements and their partition
    matter. *)
From Coq Require Import Permutation NArith.
From Verif Require Import Base HMModel HMProofs DSModel DSSpec DSSpec3 DSRun DSProofs DSProofs2 DSProofs3 DSProofs4 DSProps.
Local Open Scope outcome_scope.

Section Det.
Context {K : Type}.
Variable eqb : K -> K -> bool.
Hypothesis L : eq_laws eqb.
Variable E : machine.
Implicit Types (g h : log K) (xs : list K).

Notation mem := (mem eqb).
Notation alike := (alike eqb).
Notation size := (size eqb).

Lemma same_size xs ys : (forall x, mem x xs <-> mem x ys) -> length (firsts eqb xs) = length (firsts eqb ys).
Proof. intros H. apply Nat.le_antisymm; apply (firsts_len_le L Ed Ed_fit); intros x; apply H. Qed.
Lemma mem_more xs ys zs : (forall x, mem x xs <-> mem x ys) -> forall x, mem x (xs ++ zs) <-> mem x (ys ++ zs).
Proof. intros H x. rewrite !(mem_app), H. reflexivity. Qed.
Lemma size_snoc xs x : ~ mem x xs -> length (firsts eqb (xs ++ [x])) = S (length (firsts eqb xs)).
Proof. intros N. rewrite (firsts_snoc L), app_length. apply (memb_false eqb) in N. rewrite N. cbn. lia. Qed.

(** too many elements cannot be added *)
Lemma no_room_beyond xs x ys : no_room eqb E x xs -> alloc_max E < length (firsts eqb (xs ++ x :: ys)).
Proof.
  intros [N Q]. replace (xs ++ x :: ys) with ((xs ++ [x]) ++ ys) by (now rewrite <- app_assoc).
  pose proof (firsts_length_mono L (xs ++ [x]) ys) as M. rewrite size_snoc in M by auto. lia.
Qed.

(** adding the same elements to logs of the same elements ends the same *)
Lemma adds_det xs g h g' h' r r' : (forall x, mem x (added g) <-> mem x (added h)) ->
  adds eqb E xs g g' r -> adds eqb E xs h h' r' ->
  r = r' /\ exists ys, g' = Log (added g ++ ys) (united g) /\ h' = Log (added h ++ ys) (united h) /\
  (r = Ret RUnit -> ys = xs).
Proof.
  intros M. assert (B : forall gg hh l1 x l2, (forall x, mem x (added gg) <-> mem x (added hh)) -> no_room eqb E x (added gg ++ l1) ->
    length (firsts eqb (added hh ++ l1 ++ x :: l2)) <= alloc_max E -> False).
  { intros gg hh l1 x l2 MM N Q. pose proof (@no_room_beyond _ _ l2 N) as X. rewrite <- app_assoc in X.
    rewrite (same_size _ _ (mem_more _ _ (l1 ++ x :: l2) MM)) in X. lia. }
  assert (M' : forall x, mem x (added h) <-> mem x (added g)) by (intros x; now rewrite M).
  intros [(-> & -> & Q)|(-> & l1 & x & l2 & -> & -> & N)] [(-> & -> & Q')|(-> & m1 & y & m2 & X & -> & N')].
  - split; auto. exists xs. auto.
  - subst xs. exfalso. exact (B h g _ _ _ M' N' Q).
  - exfalso. exact (B g h _ _ _ M N Q').
  - split; auto. exists l1. split; auto. split; [|discriminate]. f_equal. f_equal.
    destruct (Nat.lt_trichotomy (length l1) (length m1)) as [Le|[Le|Le]].
    + exfalso. assert (W : exists w, m1 = l1 ++ x :: w).
      { clear - X Le. revert m1 X Le. induction l1 as [|z l1 IH]; intros [|u m1] X Le; cbn in *; try lia.
        - injection X as X1 X2. subst. eauto.
        - injection X as X1 X2. subst u. destruct (IH m1 X2) as (w & ->); [lia|]. eauto. }
      destruct W as (w & ->). apply (B g h l1 x w M N). destruct N' as [_ N']. lia.
    + clear - X Le. revert m1 X Le. induction l1 as [|z l1 IH]; intros [|u m1] X Le; cbn in *; try lia; auto.
      injection X as X1 X2. subst u. f_equal. apply IH; auto.
    + exfalso. assert (W : exists w, l1 = m1 ++ y :: w).
      { clear - X Le. revert m1 X Le. induction l1 as [|z l1 IH]; intros [|u m1] X Le; cbn in *; try lia.
        - injection X as X1 X2. subst. eauto.
        - injection X as X1 X2. subst u. destruct (IH m1 X2) as (w & ->); [lia|]. eauto. }
      destruct W as (w & ->). apply (B h g m1 y w M' N'). destruct N as [_ N]. lia.
Qed.

(** connected to an element, added or not *)
Lemma conn_alike g h x y : log_ok eqb g -> log_ok eqb h -> alike g h -> conn eqb (united g) x y -> conn eqb (united h) x y.
Proof.
  intros G H [M T] C. destruct (conn_members L G C) as [Q|[A B]]; [now apply conn_eq|].
  assert (X : together eqb g x y) by (split; auto). apply T in X. apply X.
Qed.
Lemma alike_sym g h : alike g h -> alike h g.
Proof. intros [M T]. split; intros; [now rewrite M|now rewrite T]. Qed.
Lemma alike_add g h ys : log_ok eqb g -> log_ok eqb h -> alike g h ->
  alike (Log (added g ++ ys) (united g)) (Log (added h ++ ys) (united h)).
Proof.
  intros G H A. pose proof A as [M T]. split; cbn; [apply mem_more; auto|]. intros x y. unfold together. cbn.
  rewrite !(mem_more _ _ ys M). split; intros (X & Y & C); repeat split; auto.
  - exact (conn_alike g h x y G H A C).
  - exact (conn_alike h g x y H G (alike_sym _ _ A) C).
Qed.
Lemma conn_more g h ps x y : log_ok eqb g -> log_ok eqb h -> alike g h -> conn eqb (united g ++ ps) x y -> conn eqb (united h ++ ps) x y.
Proof.
  intros G H A. induction 1 as [x y Q|x y Q|x y Q IH|x y z Q1 IH1 Q2 IH2].
  - now apply conn_eq.
  - apply in_app_or in Q. destruct Q as [Q|Q].
    + apply (conn_incl (ps := united h)); [apply incl_appl, incl_refl|]. apply (conn_alike g h x y G H A). now apply conn_pair.
    + apply conn_pair. apply in_or_app. auto.
  - now apply conn_sym.
  - eapply conn_trans; eauto.
Qed.
Lemma alike_unite g h a b : log_ok eqb g -> log_ok eqb h -> alike g h ->
  alike (Log (added g ++ [a; b]) (united g ++ [(a, b)])) (Log (added h ++ [a; b]) (united h ++ [(a, b)])).
Proof.
  intros G H A. pose proof A as [M T]. split; cbn; [apply mem_more; auto|]. intros x y. unfold together. cbn.
  rewrite !(mem_more _ _ _ M). split; intros (X & Y & C); repeat split; auto.
  - exact (conn_more g h _ x y G H A C).
  - exact (conn_more h g _ x y H G (alike_sym _ _ A) C).
Qed.

(** what the sets handed out say *)
Lemma partition_together g ss x y : partition eqb g ss -> (exists q, In q ss /\ mem x q /\ mem y q) <-> together eqb g x y.
Proof.
  intros (P & _ & C & D). rewrite Forall_forall in C.
  assert (F : forall z, mem z (concat ss) <-> mem z (added g)).
  { intros z. rewrite <- (firsts_mem L z (added g)). split; intros (w & I & Q); exists w; split; auto.
    - eapply Permutation_in; [apply Permutation_sym; exact P|auto].
    - eapply Permutation_in; eauto. }
  split.
  - intros (q & I & (x1 & X & QX) & (y1 & Y & QY)). split; [|split].
    + apply F. exists x1. split; auto. apply in_concat. eauto.
    + apply F. exists y1. split; auto. apply in_concat. eauto.
    + apply conn_trans with x1; [now apply conn_eq|]. apply conn_trans with y1; [exact (C q I _ _ X Y)|].
      apply conn_eq. now apply (eq_sym' L).
  - intros (X & Y & Cn). apply F in X, Y. destruct X as (x1 & X & QX), Y as (y1 & Y & QY).
    apply in_concat in X, Y. destruct X as (q & I & X), Y as (q' & I' & Y).
    assert (C1 : conn eqb (united g) x1 y1).
    { apply conn_trans with x; [apply conn_eq; now apply (eq_sym' L)|]. apply conn_trans with y; auto. now apply conn_eq. }
    destruct (ForallOrdPairs_In D _ _ I I') as [<-|[N|N]].
    + exists q. split; auto. split; [exists x1|exists y1]; auto.
    + exfalso. exact (N _ _ X Y C1).
    + exfalso. apply (N _ _ Y X). now apply conn_sym.
Qed.
Lemma partition_size g ss : partition eqb g ss -> length (concat ss) = size g.
Proof. intros (P & _). unfold DSSpec.size. symmetry. now apply Permutation_length. Qed.

Lemma same_size_alike g h : alike g h -> size g = size h.
Proof. intros [M _]. apply same_size. exact M. Qed.

Lemma allowed_det o g h g' h' r r' : log_ok eqb g -> log_ok eqb h -> alike g h ->
  allowed eqb E o g g' r -> allowed eqb E o h h' r' -> same_answer eqb r r' /\ alike g' h'.
Proof.
  intros G H A. pose proof A as [M T]. pose proof (same_size_alike _ _ A) as Sz.
  assert (EQ : forall q q' : outcome (out K), q = q' -> same_answer eqb q q').
  { intros q q' <-. unfold same_answer. destruct q as [[| | |ss]| | | |]; auto. split; [reflexivity|reflexivity]. }
  assert (AD : forall xs, adds eqb E xs g g' r -> adds eqb E xs h h' r' -> same_answer eqb r r' /\ alike g' h').
  { intros xs X Y. destruct (adds_det _ _ _ _ _ _ _ M X Y) as (Q & ys & -> & -> & _). split; [now apply EQ|now apply alike_add]. }
  assert (BB : forall (P Q : Prop) (b b' : bool), (b = true <-> P) -> (b' = true <-> Q) -> (P <-> Q) -> b = b').
  { intros P Q [] [] B B' PQ; auto; exfalso; intuition congruence. }
  destruct o; cbn.
  - apply AD.
  - intros [(-> & -> & Q)|(-> & X)] [(-> & -> & Q')|(-> & X')].
    + split; [now apply EQ|now apply alike_unite].
    + exfalso. destruct (adds_det [a; b] h g h' (Log (added g ++ [a; b]) (united g)) Panic (Ret RUnit)) as (Z & _); [intros z; now rewrite M|exact X'|left; auto|discriminate].
    + exfalso. destruct (adds_det [a; b] g h g' (Log (added h ++ [a; b]) (united h)) Panic (Ret RUnit)) as (Z & _); [exact M|exact X|left; auto|discriminate].
    + now apply (AD [a; b]).
  - intros [(Q & X)|(Q & -> & ->)] [(Q' & X')|(Q' & -> & ->)]; try lia; [now apply (AD xs)|]. split; [now apply EQ|auto].
  - intros [(Q & X)|(Q & -> & ->)] [(Q' & X')|(Q' & -> & ->)]; try lia; [now apply (AD xs)|]. split; [now apply EQ|auto].
  - intros (-> & ->) (-> & ->). split; [now apply EQ|]. split; reflexivity.
  - intros (-> & ->) (-> & ->). split; auto. apply EQ. now rewrite Sz.
  - intros (-> & u & U & ->) (-> & v & V & ->). split; auto. apply EQ. do 2 f_equal. exact (BB _ _ _ _ U V (M x)).
  - intros (-> & u & U & ->) (-> & v & V & ->). split; auto. apply EQ. do 2 f_equal. exact (BB _ _ _ _ U V (T _ _)).
  - intros (-> & u & U & ->) (-> & v & V & ->). split; auto. apply EQ. do 2 f_equal. apply (BB _ _ _ _ U V).
    rewrite <- (firsts_nil eqb (added g)), <- (firsts_nil eqb (added h)). unfold DSSpec.size in Sz. destruct (firsts eqb (added g)), (firsts eqb (added h)); cbn in Sz; try discriminate; split; congruence.
  - intros (-> & ->) (-> & ->). split; auto. apply EQ. now rewrite Sz.
  - intros (-> & ss & P & ->) (-> & ts & Q & ->). split; auto. cbn. split.
    + intros x y. rewrite (partition_together _ _ _ _ P), (partition_together _ _ _ _ Q). apply T.
    + now rewrite (partition_size _ _ P), (partition_size _ _ Q).
Qed.
End Det.

(** ** C118 *)

Lemma alike_run K (eqb : K -> K -> bool) E ops : eq_laws eqb -> ranks_fit E -> Forall (@op_ok K) ops ->
  forall s t g h, valid eqb E s -> valid eqb E t -> shows eqb s g -> shows eqb t h -> alike eqb g h ->
  Forall2 (same_answer eqb) (snd (ds_run eqb E ops s)) (snd (ds_run eqb E ops t)) /\
  (forall x, ds_contains eqb x (fst (ds_run eqb E ops s)) = ds_contains eqb x (fst (ds_run eqb E ops t))) /\
  (forall x y, joined eqb (fst (ds_run eqb E ops s)) x y <-> joined eqb (fst (ds_run eqb E ops t)) x y).
Proof.
  intros L U Ok. induction ops as [|o ops IH]; intros s t g h V V' Sh Sh' A.
  - cbn. split; [constructor|]. destruct A as [M T]. split.
    + intros x. pose proof (contains_mem L x Sh) as P. pose proof (contains_mem L x Sh') as Q. specialize (M x).
      destruct (ds_contains eqb x s), (ds_contains eqb x t); auto; exfalso; intuition congruence.
    + intros x y. rewrite (joined_together L x y V Sh), (joined_together L x y V' Sh'). apply T.
  - inversion Ok as [|? ? O1 O2]; subst. cbn.
    destruct (ds_step eqb E o s) as [s1 r] eqn:Q. destruct (ds_step eqb E o t) as [t1 r'] eqn:Q'.
    destruct (step_ok L U _ V Sh O1 Q) as (g1 & V1 & S1 & A1). destruct (step_ok L U _ V' Sh' O1 Q') as (h1 & V1' & S1' & A1').
    destruct (allowed_det eqb L E o g h g1 h1 r r' (proj1 (proj2 Sh)) (proj1 (proj2 Sh')) A A1 A1') as [SA AL].
    destruct (IH O2 s1 t1 g1 h1 V1 V1' S1 S1' AL) as (F & X).
    destruct (ds_run eqb E ops s1) as [s2 tr2], (ds_run eqb E ops t1) as [t2 tr2']. cbn in *. split; auto.
Qed.

(** Two disjoint sets with the same elements and the same partition, whatever their
    histories and their forests, give the same answers in every further history, calls
    that panic included, and keep the same elements and partition.  (The orders in which
    the two hash maps are traversed may differ.) *)
Theorem c118_only_the_partition_matters : forall K (eqb : K -> K -> bool) cl E ops s t,
  eq_laws eqb -> ranks_fit E -> (forall k, eqb (cl k) k = true) -> reachable eqb E cl s -> reachable eqb E cl t ->
  (forall x, ds_contains eqb x s = ds_contains eqb x t) -> (forall x y, joined eqb s x y <-> joined eqb t x y) ->
  Forall (@op_ok K) ops ->
  Forall2 (same_answer eqb) (snd (ds_run eqb E ops s)) (snd (ds_run eqb E ops t)) /\
  (forall x, ds_contains eqb x (fst (ds_run eqb E ops s)) = ds_contains eqb x (fst (ds_run eqb E ops t))) /\
  (forall x y, joined eqb (fst (ds_run eqb E ops s)) x y <-> joined eqb (fst (ds_run eqb E ops t)) x y).
Proof.
  intros K eqb cl E ops s t L U CL R R' C J Ok.
  destruct (reachable_valid L U CL R) as [V (g & Sh)]. destruct (reachable_valid L U CL R') as [V' (h & Sh')].
  assert (A : alike eqb g h).
  { split.
    - intros x. rewrite <- (contains_mem L x Sh), <- (contains_mem L x Sh'), C. reflexivity.
    - intros x y. rewrite <- (joined_together L x y V Sh), <- (joined_together L x y V' Sh'). apply J. }
  exact (alike_run _ _ _ _ L U Ok s t g h V V' Sh Sh' A).
Qed.
Print Assumptions c118_only_the_partition_matters.

(** ... so different calls that lead to the same elements and the same partition are
    interchangeable: the order and repetition of unions, uniting with an element or with
    another one of its set, adding before uniting, adding at once or one by one. *)
Lemma alike_by K (eqb : K -> K -> bool) (g h : log K) : (forall x, mem eqb x (added g) <-> mem eqb x (added h)) ->
  (forall a b, In (a, b) (united g) -> conn eqb (united h) a b) -> (forall a b, In (a, b) (united h) -> conn eqb (united g) a b) -> alike eqb g h.
Proof.
  intros M P Q. split; auto. assert (X : forall ps qs : list (K * K), (forall a b, In (a, b) ps -> conn eqb qs a b) -> forall x y, conn eqb ps x y -> conn eqb qs x y).
  { intros ps qs H x y. induction 1; eauto using conn_eq, conn_sym, conn_trans. }
  intros x y. unfold together. rewrite !M. split; intros (A & B & C); repeat split; auto; eapply X; eauto.
Qed.

(** pairs of histories that do the same *)
Definition ways {K} (a b c : K) (n m : nat) (xs ys : list K) : list (list (op K) * list (op K)) :=
  [([OUnion a b], [OUnion b a]);
   ([OUnion a b; OUnion a b], [OUnion a b]);
   ([OUnion a a], [OMake a]);
   ([OUnion a b; OUnion b c], [OUnion a b; OUnion a c]);
   ([OUnion a b; OUnion c b], [OUnion c a; OUnion b a]);
   ([OMake a; OMake b; OUnion a b], [OUnion a b]);
   ([OMake a; OMake b], [OMake b; OMake a]);
   ([OExtend n (xs ++ ys)], [OExtend m xs; OExtend 0 ys]);
   ([OExtend n xs], map (@OMake K) xs);
   ([OExtend n xs; OUnion a b], [OUnion a b; OExtend m xs]);
   ([OClear; OExtend n xs; OClear], [OClear])].

Theorem c118_ways_of_doing_the_same : forall K (eqb : K -> K -> bool) cl E s a b c n m xs ys ops ops',
  eq_laws eqb -> ranks_fit E -> (forall k, eqb (cl k) k = true) -> reachable eqb E cl s -> In (ops, ops') (ways a b c n m xs ys) ->
  ~ In Panic (snd (ds_run eqb E ops s)) -> ~ In Panic (snd (ds_run eqb E ops' s)) ->
  (forall x, ds_contains eqb x (fst (ds_run eqb E ops s)) = ds_contains eqb x (fst (ds_run eqb E ops' s))) /\
  (forall x y, joined eqb (fst (ds_run eqb E ops s)) x y <-> joined eqb (fst (ds_run eqb E ops' s)) x y) /\
  forall later, Forall (@op_ok K) later ->
    Forall2 (same_answer eqb) (snd (ds_run eqb E later (fst (ds_run eqb E ops s)))) (snd (ds_run eqb E later (fst (ds_run eqb E ops' s)))).
Proof.
  intros K eqb cl E s a b c n m xs ys ops ops' L U CL R W N N'.
  assert (OK : Forall (@op_ok K) ops /\ Forall (@op_ok K) ops').
  { clear N N'. cbn in W. repeat (destruct W as [W|W]; [injection W as <- <-; split; repeat constructor|]); [|contradiction].
    clear. induction xs; cbn; repeat constructor; auto. }
  destruct OK as [O O']. destruct (reachable_valid L U CL R) as [V (g & Sh)].
  destruct (ds_run eqb E ops s) as [s1 t1] eqn:Q, (ds_run eqb E ops' s) as [s2 t2] eqn:Q'. cbn in *.
  destruct (run_ok L U V Sh O Q) as (g1 & V1 & S1 & H1). destruct (run_ok L U V Sh O' Q') as (g2 & V2 & S2 & H2).
  rewrite (history_replay H1 N) in *. rewrite (history_replay H2 N') in *.
  assert (A : alike eqb (replay ops g) (replay ops' g)).
  { assert (MM : forall zs, added (replay (map (@OMake K) zs) g) = added g ++ zs /\ united (replay (map (@OMake K) zs) g) = united g).
    { clear. intros zs. revert g. induction zs as [|z zs IH]; intros g; cbn; [now rewrite app_nil_r|]. unfold replay in IH. destruct (IH (Log (added g ++ [z]) (united g))) as [A B].
      rewrite A, B. cbn. now rewrite <- app_assoc. }
    clear - W L MM. cbn in W.
    assert (MC : forall z u l, mem eqb z (u :: l) <-> eqb z u = true \/ mem eqb z l).
    { intros z u l. unfold mem. cbn. firstorder congruence. }
    assert (MN : forall z, mem eqb z [] <-> False) by (intros z; unfold mem; cbn; firstorder).
    assert (CP : forall ps x y, In (x, y) ps -> conn eqb ps x y) by (intros; now apply conn_pair).
    assert (CS : forall ps x y, conn eqb ps x y -> conn eqb ps y x) by (intros; now apply conn_sym).
    assert (CT : forall ps x y z, conn eqb ps x y -> conn eqb ps y z -> conn eqb ps x z) by (intros; eapply conn_trans; eauto).
    assert (CR : forall ps x, conn eqb ps x x) by (intros; now apply conn_refl).
    repeat (destruct W as [W|W]; [injection W as <- <-|]); [..|contradiction];
    try (pose proof (MM xs) as [MX MU]);
    (apply alike_by; cbn; rewrite ?MX, ?MU;
      [intros z; rewrite ?MX, ?mem_app, ?MC, ?MN; tauto
      |intros p q I; rewrite ?in_app_iff in I; cbn in I; rewrite ?MU in *
      |intros p q I; rewrite ?in_app_iff in I; cbn in I; rewrite ?MU in *]);
    repeat match goal with H : _ \/ _ |- _ => destruct H as [H|H] | H : False |- _ => destruct H | H : (_, _) = (_, _) |- _ => injection H as <- <- end;
    try solve [apply CP; rewrite ?in_app_iff; cbn; tauto | apply CS, CP; rewrite ?in_app_iff; cbn; tauto | apply CR].
    all: try (apply CT with a; first [apply CP; rewrite ?in_app_iff; cbn; tauto | apply CS, CP; rewrite ?in_app_iff; cbn; tauto]).
    all: try (apply CT with b; first [apply CP; rewrite ?in_app_iff; cbn; tauto | apply CS, CP; rewrite ?in_app_iff; cbn; tauto]). }
  split; [|split].
  - intros x. pose proof (contains_mem L x S1) as X. pose proof (contains_mem L x S2) as Y. destruct A as [M _]. specialize (M x).
    destruct (ds_contains eqb x s1), (ds_contains eqb x s2); auto; exfalso; intuition congruence.
  - intros x y. rewrite (joined_together L x y V1 S1), (joined_together L x y V2 S2). apply A.
  - intros later Ol. eapply alike_run; eauto.
Qed.
Print Assumptions c118_ways_of_doing_the_same.

(** The calls of [ops_c] in two orders give different forests and the same partition. *)
Definition ds_c' : dset elt := fst (ds_run eeq Ed (rev ops_c) (ds_new elt)).
Definition later_c : list (op elt) := [OInUnion (e 1) (e 4); OUnion (e 1) (e 5); OIter ord1 pk1; OExtend 9 [e 1]; OLen].
Example c118_example : ds_c <> ds_c' /\ reachable eeq Ed ecl ds_c /\ reachable eeq Ed ecl ds_c' /\
  (forall x, ds_contains eeq x ds_c = ds_contains eeq x ds_c') /\ (forall x y, joined eeq ds_c x y <-> joined eeq ds_c' x y) /\
  Forall (@op_ok elt) later_c.
Proof.
  assert (X : forall ops, forallb (fun o => match o with OIter _ _ => false | _ => true end) ops = true -> reachable eeq Ed ecl (fst (ds_run eeq Ed ops (ds_new elt)))).
  { intros ops H. apply run_reach; [constructor|now apply no_iter_ok]. }
  split; [vm_compute; discriminate|]. split; [apply X; reflexivity|]. split; [apply X; reflexivity|].
  destruct (@c58_permuted_calls elt eeq Ed ops_c ds_c (snd (ds_run eeq Ed ops_c (ds_new elt))) (rev ops_c) ds_c' (snd (ds_run eeq Ed (rev ops_c) (ds_new elt))))
    as (A & B & _).
  - exact eeq_laws.
  - exact Ed_fit.
  - now apply no_iter_ok.
  - apply Permutation_rev.
  - vm_compute. intuition discriminate.
  - apply surjective_pairing.
  - vm_compute. intuition discriminate.
  - apply surjective_pairing.
  - vm_compute. intuition discriminate.
  - repeat split; auto; try apply A; repeat constructor; cbn; intros; apply Permutation_refl.
Qed.
(** The later answers, among them a panic for lack of room. *)
Example c118_answers :
  snd (ds_run eeq Ed later_c ds_c) =
    [Ret (RBool true); Ret RUnit; Ret (RSets [[(5, 50); (4, 40); (3, 30); (2, 20); (1, 10)]]); Panic; Ret (RNat 5)] /\
  snd (ds_run eeq Ed later_c ds_c') =
    [Ret (RBool true); Ret RUnit; Ret (RSets [[(5, 50); (2, 20); (4, 40); (3, 30); (1, 10)]]); Panic; Ret (RNat 5)].
Proof. split; vm_compute; reflexivity. Qed.
(** Two ways of uniting three elements with the four there; six elements fill the room. *)
Example c118_ways_example :
  In ([OUnion (e 1) (e 5); OUnion (e 5) (e 6)], [OUnion (e 1) (e 5); OUnion (e 1) (e 6)]) (ways (e 1) (e 5) (e 6) 0 0 [] []) /\
  snd (ds_run eeq Ed [OUnion (e 1) (e 5); OUnion (e 5) (e 6)] ds_c) = [Ret RUnit; Ret RUnit] /\
  snd (ds_run eeq Ed [OUnion (e 1) (e 5); OUnion (e 1) (e 6)] ds_c) = [Ret RUnit; Ret RUnit] /\
  snd (ds_in_union eeq (e 4) (e 6) (fst (ds_run eeq Ed [OUnion (e 1) (e 5); OUnion (e 5) (e 6)] ds_c))) = Ret true.
Proof. split; [cbn; tauto|]. repeat split; vm_compute; reflexivity. Qed.
(** Without room the two ways may differ: the hint of an extend makes it fail as a whole. *)
Example c118_limits :
  snd (ds_run eeq Ed [OExtend 3 [e 5; e 6]] ds_c) = [Panic] /\
  snd (ds_run eeq Ed (map (@OMake elt) [e 5; e 6]) ds_c) = [Ret RUnit; Ret RUnit].
Proof. split; vm_compute; reflexivity. Qed.
