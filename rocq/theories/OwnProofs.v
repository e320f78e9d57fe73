(** Lemmas about books. *)
From Coq Require Import Permutation.
From Verif Require Import Base OwnSpec.
Set Implicit Arguments.

Section Books.
Variable K : Type.
Implicit Types l ks : list K.

Lemma bk_perm l t l' : books l t l' -> forall l0, Permutation l0 l -> books l0 t l'.
Proof.
  induction 1 as [l l' P|l k t l' B IH|l k l1 t l' P B IH]; intros l0 Q.
  - constructor. now rewrite Q.
  - constructor. apply IH. now constructor.
  - econstructor; [|exact B]. now rewrite Q.
Qed.
Lemma bk_perm_r l t l' : books l t l' -> forall l0, Permutation l' l0 -> books l t l0.
Proof.
  induction 1 as [l l' P|l k t l' B IH|l k l1 t l' P B IH]; intros l0 Q.
  - constructor. now rewrite P.
  - constructor. now apply IH.
  - econstructor; [exact P|]. now apply IH.
Qed.
Lemma bk_nil l : books l [] l.
Proof. constructor. apply Permutation_refl. Qed.
Lemma bk_app l t l1 t' l' : books l t l1 -> books l1 t' l' -> books l (t ++ t') l'.
Proof.
  induction 1 as [l l1 P|l k t l1 B IH|l k l2 t l1 P B IH]; intros B'; cbn.
  - eapply bk_perm; eauto.
  - constructor. auto.
  - econstructor; [exact P|auto].
Qed.
Lemma bk_split l t t' l' : books l (t ++ t') l' -> exists l1, books l t l1 /\ books l1 t' l'.
Proof.
  revert l. induction t as [|e t IH]; cbn; intros l B; [exists l; split; [apply bk_nil|exact B]|].
  inversion B as [|? k ? ? B'|? k l1 ? ? P B']; subst; destruct (IH _ B') as (l2 & A1 & A2); exists l2; (split; [|exact A2]).
  - now constructor.
  - econstructor; eauto.
Qed.
Lemma bk_frame x l t l' : books l t l' -> books (l ++ x) t (l' ++ x).
Proof.
  induction 1 as [l l' P|l k t l' B IH|l k l1 t l' P B IH].
  - constructor. now apply Permutation_app_tail.
  - constructor. exact IH.
  - econstructor; [|exact IH]. change (k :: l1 ++ x) with ((k :: l1) ++ x). now apply Permutation_app_tail.
Qed.
Lemma bk_got_all ks l : books l (map Got ks) (ks ++ l).
Proof.
  revert l. induction ks as [|k ks IH]; intros l; cbn; [apply bk_nil|]. constructor.
  eapply bk_perm_r; [apply IH|]. apply Permutation_sym, Permutation_middle.
Qed.
Lemma bk_gone_all ks l : books (ks ++ l) (map Gone ks) l.
Proof. induction ks as [|k ks IH]; cbn; [apply bk_nil|]. econstructor; [apply Permutation_refl|exact IH]. Qed.
Lemma bk_gone_every ks : books ks (map Gone ks) [].
Proof. rewrite <- (app_nil_r ks) at 1. apply bk_gone_all. Qed.
Lemma bk_balance l t l' : books l t l' -> Permutation (l ++ got t) (l' ++ gone t).
Proof.
  induction 1 as [l l' P|l k t l' B IH|l k l1 t l' P B IH]; cbn.
  - now rewrite !app_nil_r.
  - fold (got t) (gone t). rewrite <- IH. cbn. apply Permutation_sym, Permutation_middle.
  - fold (got t) (gone t). rewrite P. cbn. rewrite IH. apply Permutation_middle.
Qed.
Lemma NoDup_app_inv l1 l2 : NoDup (l1 ++ l2) -> NoDup l1 /\ NoDup l2 /\ forall k, In k l1 -> ~ In k l2.
Proof.
  induction l1 as [|a l1 IH]; cbn; intros N; [repeat split; [constructor|auto|tauto]|].
  inversion N as [|? ? N1 N2]; subst. destruct (IH N2) as (A & B & C). rewrite in_app_iff in N1. repeat split; auto.
  - constructor; tauto.
  - intros k [<-|Hk]; [tauto|auto].
Qed.
Lemma bk_once l t l' : books l t l' -> NoDup (l ++ got t) ->
  NoDup (gone t) /\ (forall k, In k (gone t) -> In k (l ++ got t) /\ ~ In k l') /\ (forall k, In k (l ++ got t) -> In k (gone t) \/ In k l').
Proof.
  intros B N. apply bk_balance in B. pose proof (Permutation_NoDup B N) as N'. apply NoDup_app_inv in N' as (N1 & N2 & N3).
  split; [exact N2|]. split; intros k Hk.
  - split; [|intros F; exact (N3 k F Hk)]. eapply Permutation_in; [apply Permutation_sym; exact B|]. apply in_or_app. auto.
  - apply (Permutation_in _ B), in_app_or in Hk. tauto.
Qed.
End Books.
