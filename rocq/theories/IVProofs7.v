(** Lemmas about the ends of intervals as values that are owned. *)
From Coq Require Import Permutation.
From Verif Require Import Base OwnSpec OwnProofs IVModel IVModel5 IVModel6 IVRun5 IVRun6.
Set Implicit Arguments.

Ltac locate pre x r :=
  lazymatch r with
  | x :: ?post => lazymatch goal with |- Permutation (?y :: ?l) _ =>
      change (Permutation (y :: l) (pre ++ x :: post)); apply Permutation_cons_app; cbn [app] end
  | ?y :: ?post => let pre' := eval cbn [app] in (pre ++ [y]) in locate pre' x post
  end.
Ltac perm := cbv beta iota delta [app none nil_of things nonempty_things lower_things upper_things imp lo up lval uval lbound ubound bval bclosed lower_new upper_new];
  repeat match goal with
  | |- Permutation ?l ?l => apply Permutation_refl
  | |- Permutation (?x :: ?l) ?r => let X := type of x in locate (@nil X) x r
  end.

Section Lemmas.
Variables T U : Type.
Notation thing := (thing T U).

Lemma bookings_app (t t' : list (act T U)) : bookings (t ++ t') = bookings t ++ bookings t'.
Proof. unfold bookings. now rewrite flat_map_app. Qed.
Lemma bookings_drops (vs : list thing) : bookings (map Dropped vs) = map Gone vs.
Proof. unfold bookings. induction vs as [|v vs IH]; cbn; [reflexivity|]. now rewrite IH. Qed.

Lemma keeps_over {S A} (s : S) (a : A) (ins : list thing) left res :
  Permutation ins (left s ++ res a) -> keeps ins (over s (Ret a)) left res.
Proof. intros P h. cbn. now constructor. Qed.
Lemma keeps_over_panic {S A} (s : S) (ins : list thing) left (res : A -> list thing) :
  Permutation ins (left s) -> keeps ins (over s Panic) left res.
Proof. intros P h. cbn. now constructor. Qed.
Lemma keeps_give {A} (a : A) (ins : list thing) left res : Permutation ins (left tt ++ res a) -> keeps ins (give a) left res.
Proof. apply keeps_over. Qed.
Lemma keeps_panics {A} (vs ins : list thing) left (res : A -> list thing) : Permutation ins (vs ++ left tt) -> keeps ins (panics vs) left res.
Proof.
  intros P h. cbn. rewrite bookings_drops. eapply bk_perm; [|exact P]. apply bk_gone_all.
Qed.
Lemma keeps_drops (vs : list thing) : keeps vs (drops vs) none nil_of.
Proof. intros h. cbn. rewrite bookings_drops. apply bk_gone_every. Qed.
Lemma keeps_after {S A S' B} (m : call T U S A) keep lost (f : S -> A -> call T U S' B)
  (ins1 rest ins : list thing) left1 res1 left res :
  keeps ins1 m left1 res1 ->
  Permutation ins (ins1 ++ rest) ->
  (forall s, Permutation (left1 s ++ rest) (lost s ++ left (keep s))) ->
  (forall s a, keeps ((left1 s ++ res1 a) ++ rest) (f s a) left res) ->
  keeps ins (after m keep lost f) left res.
Proof.
  intros K P Q F h. unfold after. pose proof (K h) as Kh. destruct (m h) as [[t s] [a| | | |]]; try contradiction.
  - pose proof (F s a (h ++ t)) as Fh. destruct (f s a (h ++ t)) as [[t' s'] [b| | | |]]; try contradiction;
    rewrite bookings_app; (eapply bk_perm; [|exact P]); (eapply bk_app; [apply bk_frame, Kh|exact Fh]).
  - rewrite bookings_app, bookings_drops. eapply bk_perm; [|exact P]. eapply bk_app; [apply bk_frame, Kh|].
    eapply bk_perm; [|apply Q]. apply bk_gone_all.
Qed.
Lemma keeps_seq {S A B} (s : S) (lost : list thing) (m : call T U unit A) (f : A -> call T U S B)
  (ins1 rest ins : list thing) res1 left res :
  keeps ins1 m none res1 ->
  Permutation ins (ins1 ++ rest) ->
  Permutation rest (lost ++ left s) ->
  (forall a, keeps (res1 a ++ rest) (f a) left res) ->
  keeps ins (seq s lost m f) left res.
Proof.
  intros K P Q F. unfold seq. eapply keeps_after; [exact K|exact P| |].
  - intros []. exact Q.
  - intros [] a. exact (F a).
Qed.
Lemma keeps_perm {S A} (m : call T U S A) (ins ins' : list thing) left res : keeps ins m left res -> Permutation ins' ins -> keeps ins' m left res.
Proof. intros K P h. pose proof (K h) as Kh. destruct (m h) as [[t s] [a| | | |]]; auto; eapply bk_perm; eauto. Qed.

(** a dialog that ends normally or panics *)
Fixpoint tame {S A} (d : dialog T S A) : Prop :=
  match d with
  | Done _ (Ret _) => True
  | Done _ Panic => True
  | Done _ _ => False
  | Ask _ _ _ _ next => forall a, tame (next a)
  end.
Lemma tame_then {S A B} (s : S) (d : query T A) (f : A -> dialog T S B) : tame d -> (forall a, tame (f a)) -> tame (then_ s d f).
Proof. intros D F. induction d as [s' [a| | | |]|s' k x y next IH]; cbn in *; auto. Qed.
Variable us : user T U.

Lemma keeps_ask k x y : keeps [] (ask_o us k x y) none nil_of.
Proof. intros h. unfold ask_o, happens. destruct (u_ask us h k x y); cbn; apply bk_nil. Qed.
Lemma keeps_clone_el x : keeps [] (clone_el us x) none (fun y => [El y]).
Proof. intros h. unfold clone_el, happens. destruct (u_clone_el us h x); cbn; [constructor|]; apply bk_nil. Qed.
Lemma keeps_clone_arg k : keeps [] (clone_arg us k) none (fun y => [Arg y]).
Proof. intros h. unfold clone_arg, happens. destruct (u_clone_arg us h k); cbn; [constructor|]; apply bk_nil. Qed.
Lemma keeps_combine x k : keeps [El x; Arg k] (combine us x k) none (fun y => [El y]).
Proof.
  intros h. unfold combine, happens. destruct (u_combine us h x k); cbn; (econstructor; [apply Permutation_refl|]);
  (econstructor; [apply Permutation_refl|]); [constructor|]; apply bk_nil.
Qed.
Lemma keeps_change x k : keeps [El x; Arg k] (change us x k) (fun y => [El y]) nil_of.
Proof.
  intros h. unfold change, happens. destruct (u_change us h x k) as [x' [|]]; cbn; (econstructor; [apply perm_swap|]);
  (econstructor; [apply Permutation_refl|]); constructor; apply bk_nil.
Qed.
Lemma keeps_negate x : keeps [El x] (negate us x) none (fun y => [El y]).
Proof.
  intros h. unfold negate, happens. destruct (u_negate us h x); cbn; (econstructor; [apply Permutation_refl|]);
  [constructor|]; apply bk_nil.
Qed.
Lemma keeps_consult {A} (d : query T A) : tame d -> keeps [] (consult us d) none nil_of.
Proof.
  induction d as [[] [a| | | |]|[] k x y next IH]; cbn; intros D; try contradiction.
  - apply keeps_over. constructor.
  - apply keeps_over_panic. constructor.
  - apply keeps_seq with (ins1 := []) (rest := []) (res1 := nil_of); [apply keeps_ask| | |]; try apply Permutation_refl.
    intros a. apply IH, D.
Qed.
End Lemmas.
