(** Proofs for C105: the questions asked by the comparisons of circular buffers. *)
From Verif Require Import Base CBSpec CBModel CBRun CBModel5 CBSpec4.
Local Open Scope outcome_scope.
Local Open Scope list_scope.
Set Implicit Arguments.

Section Pairs.
Variable T : Type.

Lemma held_map A R S (f : R -> S) elems (d : talk T A R) : forall bf,
  held elems bf (talk_map f d) = (omap f (fst (held elems bf d)), snd (held elems bf d)).
Proof.
  induction d as [r|x y next IH]; intros bf; [reflexivity|]. cbn [talk_map held]. destruct (elems bf x y) as [a|]; [|reflexivity].
  rewrite IH. destruct (held elems (bf ++ [(x, y, Some a)]) (next a)). reflexivity.
Qed.

(** the loop common to all comparisons *)
Fixpoint pw {A R} (stop : A -> option R) (fin : comparison -> R) (a b : list T) : talk T A R :=
  match a, b with
  | x :: a', y :: b' => Query x y (fun r => match stop r with None => pw stop fin a' b' | Some v => Over (Ret v) end)
  | _, _ => Over (Ret (fin (Nat.compare (length a) (length b))))
  end.

Lemma pw_ok A R (stop : A -> option R) fin elems a : forall b bf r tr, held elems bf (pw stop fin a b) = (r, tr) ->
  pairwise (fun x => stop x = None) a b tr /\
  match r with
  | Ret v => (exhausted (fun x => stop x = None) a b tr /\ v = fin (Nat.compare (length a) (length b))) \/
             exists x, ends_with (Some x) tr /\ stop x = Some v
  | Panic => ends_with None tr
  | _ => False
  end.
Proof.
  assert (Z : forall (b : list T), pairwise (fun x => stop x = None) [] b []).
  { intros b. split; [reflexivity|]. intros p e q H. destruct p; discriminate H. }
  assert (Z' : forall (a : list T), pairwise (fun x => stop x = None) a [] []).
  { intros a'. split; [reflexivity|]. intros p e q H. destruct p; discriminate H. }
  induction a as [|x a IH]; intros b bf r tr.
  - cbn. intros X; injection X as <- <-. split; [apply Z|]. left. split; [split; [reflexivity|constructor]|reflexivity].
  - destruct b as [|y b]; cbn [pw held].
    + intros X; injection X as <- <-. split; [apply Z'|]. left. split; [split; [reflexivity|constructor]|reflexivity].
    + destruct (elems bf x y) as [c|].
      * destruct (stop c) as [v|] eqn:Q; cbn [held].
        -- intros X; injection X as <- <-. split.
           ++ split; [reflexivity|]. intros [|e0 p] e q H N; [injection H as _ H; subst; contradiction|]. injection H as _ H. destruct p; discriminate H.
           ++ right. exists c. split; [exists [], x, y; reflexivity|exact Q].
        -- specialize (IH b (bf ++ [(x, y, Some c)])). destruct (held elems (bf ++ [(x, y, Some c)]) (pw stop fin a b)) as [r1 tr1].
           intros X; injection X as <- <-. destruct (IH r1 tr1 eq_refl) as [[I1 I2] I3]. split.
           ++ split; [cbn [map length combine firstn]; now rewrite I1|].
              intros [|e0 p] e q H N; injection H as <- H; [exists c; auto|]. exact (I2 p e q H N).
           ++ destruct r1 as [v| | | |]; try contradiction.
              ** destruct I3 as [[[J1 J2] ->]|(c' & (p & x' & y' & ->) & J)].
                 --- left. split; [|reflexivity]. split; [cbn; now rewrite J1|]. constructor; [exists c; auto|exact J2].
                 --- right. exists c'. split; [|exact J]. exists ((x, y, Some c) :: p), x', y'. reflexivity.
              ** destruct I3 as (p & x' & y' & ->). exists ((x, y, Some c) :: p), x', y'. reflexivity.
      * intros X; injection X as <- <-. split.
        -- split; [reflexivity|]. intros [|e0 p] e q H N; [injection H as _ H; subst; contradiction|]. injection H as _ H. destruct p; discriminate H.
        -- exists [], x, y. reflexivity.
Qed.

Definition eq_stop (r : bool) : option bool := if r then None else Some false.
Definition cmp_stop (r : comparison) : option comparison := match r with Eq => None | r => Some r end.
Definition pc_stop (r : option comparison) : option (option comparison) := match r with Some Eq => None | r => Some r end.
Definition is_eq (c : comparison) : bool := match c with Eq => true | _ => false end.

Lemma eq_pw elems a : forall b bf, held elems bf (iter_eq_from a b) = held elems bf (pw eq_stop is_eq a b).
Proof.
  induction a as [|x a IH]; intros [|y b] bf; try reflexivity. cbn [iter_eq_from pw held]. destruct (elems bf x y) as [[]|]; try reflexivity.
  cbn [eq_stop]. now rewrite IH.
Qed.
Lemma cmp_pw elems a : forall b bf, held elems bf (iter_cmp_d a b) = held elems bf (pw cmp_stop (fun c => c) a b).
Proof.
  induction a as [|x a IH]; intros [|y b] bf; try reflexivity. cbn [iter_cmp_d pw held]. destruct (elems bf x y) as [[]|]; try reflexivity.
  cbn [cmp_stop]. now rewrite IH.
Qed.
Lemma pc_pw elems a : forall b bf, held elems bf (iter_partial_cmp_d a b) = held elems bf (pw pc_stop (@Some comparison) a b).
Proof.
  induction a as [|x a IH]; intros [|y b] bf; try reflexivity. cbn [iter_partial_cmp_d pw held]. destruct (elems bf x y) as [[[]|]|]; try reflexivity.
  cbn [pc_stop]. now rewrite IH.
Qed.

(** steady answers *)
Lemma eq_steady (peq : T -> T -> bool) a : forall b bf, fst (held (fun _ x y => Some (peq x y)) bf (iter_eq_from a b)) = Ret (iter_eq peq a b).
Proof.
  induction a as [|x a IH]; intros [|y b] bf; try reflexivity. cbn [iter_eq_from held iter_eq]. destruct (peq x y) eqn:Q; [|reflexivity].
  specialize (IH b (bf ++ [(x, y, Some true)])). destruct (held _ (bf ++ [(x, y, Some true)]) (iter_eq_from a b)). exact IH.
Qed.
Lemma cmp_steady (cmp : T -> T -> comparison) a : forall b bf, fst (held (fun _ x y => Some (cmp x y)) bf (iter_cmp_d a b)) = Ret (iter_cmp cmp a b).
Proof.
  induction a as [|x a IH]; intros [|y b] bf; try reflexivity. cbn [iter_cmp_d held iter_cmp]. destruct (cmp x y) eqn:Q; try reflexivity.
  specialize (IH b (bf ++ [(x, y, Some Eq)])). destruct (held _ (bf ++ [(x, y, Some Eq)]) (iter_cmp_d a b)). exact IH.
Qed.
Lemma pc_steady (pc : T -> T -> option comparison) a : forall b bf, fst (held (fun _ x y => Some (pc x y)) bf (iter_partial_cmp_d a b)) = Ret (iter_partial_cmp pc a b).
Proof.
  induction a as [|x a IH]; intros [|y b] bf; try reflexivity. cbn [iter_partial_cmp_d held iter_partial_cmp]. destruct (pc x y) as [[]|] eqn:Q; try reflexivity.
  specialize (IH b (bf ++ [(x, y, Some (Some Eq))])). destruct (held _ (bf ++ [(x, y, Some (Some Eq))]) (iter_partial_cmp_d a b)). exact IH.
Qed.
Lemma eq_length peq (a : list T) : forall b, length a <> length b -> iter_eq peq a b = false.
Proof.
  induction a as [|x a IH]; intros [|y b] H; try reflexivity; [contradiction H; reflexivity|]. cbn. destruct (peq x y); [|reflexivity]. apply IH. cbn in H. lia.
Qed.
Lemma both_shows A R (f : list T -> list T -> talk T A R) E1 E2 c d kc lc kd ld : shows E1 c kc lc -> shows E2 d kd ld -> on_both f c d = f lc ld.
Proof. intros [_ H1] [_ H2]. unfold on_both. now rewrite H1, H2. Qed.
Lemma pairwise_short A (go : A -> Prop) (a b : list T) tr : pairwise go a b tr -> length tr <= Nat.min (length a) (length b).
Proof.
  intros [H _]. apply (f_equal (@length _)) in H. rewrite map_length, firstn_length, combine_length in H. lia.
Qed.
End Pairs.
