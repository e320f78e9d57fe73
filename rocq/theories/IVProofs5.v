(** The textual form and the hash of intervals. *)
From Coq Require Import ZArith Lia String Ascii Decimal DecimalString DecimalZ DecimalFacts.
From Verif Require Import Base IVModel IVSpec IVRun IVProofs IVProofs2 IVProofs3 IVProofs4.
Set Implicit Arguments.

(** the character occurs in the string *)
Fixpoint occurs (c : ascii) (s : string) : Prop :=
  match s with EmptyString => False | String d r => c = d \/ occurs c r end.

Lemma app_split c s t s' t' : ~ occurs c s -> ~ occurs c s' ->
  (s ++ String c t)%string = (s' ++ String c t')%string -> s = s' /\ t = t'.
Proof.
  revert s'; induction s as [|d s IH]; intros [|d' s']; cbn; intros H H' E.
  - injection E as ->; auto.
  - injection E as -> ->. exfalso; auto.
  - injection E as -> <-. exfalso; auto.
  - injection E as -> E. destruct (IH s') as [-> ->]; auto.
Qed.
Lemma app_last s s' c c' : (s ++ String c EmptyString)%string = (s' ++ String c' EmptyString)%string -> s = s' /\ c = c'.
Proof.
  revert s'; induction s as [|d s IH]; intros [|d' s']; cbn; intros E.
  - injection E as ->; auto.
  - injection E as -> E. destruct s'; discriminate.
  - injection E as -> E. destruct s; discriminate.
  - injection E as -> E. destruct (IH s') as [-> ->]; auto.
Qed.

Lemma display_faithful T (cmp : T -> T -> comparison) (show : T -> string) a b :
  (forall x y, show x = show y -> eqv cmp x y) -> (forall x, ~ occurs ","%char (show x)) ->
  iv_display show a = iv_display show b -> iv_eq cmp a b = true.
Proof.
  intros Hi Hc E. apply iv_eq_same.
  destruct (ivt_eta a) as [->|(l & lc & u & uc & ->)], (ivt_eta b) as [->|(l' & lc' & u' & uc' & ->)]; cbn in *; auto.
  - destruct lc'; discriminate.
  - destruct lc; discriminate.
  - injection E as E0 E. apply app_split in E; auto. destruct E as [E1 E2]. apply app_last in E2. destruct E2 as [E2 E3].
    repeat split; auto.
    + destruct lc, lc'; auto; discriminate.
    + destruct uc, uc'; auto; discriminate.
Qed.

(** decimal integers, as Rust prints them *)
Definition show_Z (z : Z) : string := NilZero.string_of_int (Z.to_int z).

Lemma uint_no_comma d : ~ occurs ","%char (NilEmpty.string_of_uint d).
Proof. induction d; cbn; auto; intros [H|H]; auto; discriminate. Qed.
Lemma show_Z_no_comma z : ~ occurs ","%char (show_Z z).
Proof.
  assert (U : forall d, ~ occurs ","%char (NilZero.string_of_uint d)).
  { intros d. unfold NilZero.string_of_uint. destruct d; try apply uint_no_comma. cbn. intros [H|[]]; discriminate. }
  unfold show_Z, NilZero.string_of_int. destruct (Z.to_int z) as [d|d]; [apply U|].
  intros [H|H]; [discriminate|exact (U _ H)].
Qed.
Lemma show_Z_inj x y : show_Z x = show_Z y -> x = y.
Proof.
  unfold show_Z. intros H.
  assert (N : forall z, Z.to_int z <> Pos Nil /\ Z.to_int z <> Neg Nil).
  { intros z. pose proof (to_of (Z.to_int z)) as K. rewrite of_to in K.
    split; intros E; rewrite E in K; cbn in K; discriminate. }
  assert (NilZero.int_of_string (NilZero.string_of_int (Z.to_int x)) = NilZero.int_of_string (NilZero.string_of_int (Z.to_int y))) as K by now rewrite H.
  rewrite !NilZero.isi in K by apply N. injection K as K.
  rewrite <- (of_to x), <- (of_to y), K; reflexivity.
Qed.

(** equal intervals feed the same data to a hasher *)
Lemma hash_eq T (cmp : T -> T -> comparison) (hv : T -> list nat) a b :
  (forall x y, eqv cmp x y -> hv x = hv y) -> iv_eq cmp a b = true -> iv_hash hv a = iv_hash hv b.
Proof.
  intros Hh E. apply iv_eq_same in E.
  destruct (ivt_eta a) as [->|(l & lc & u & uc & ->)], (ivt_eta b) as [->|(l' & lc' & u' & uc' & ->)]; cbn in *; auto; try contradiction.
  destruct E as (A & -> & B & ->). unfold iv_hash; cbn. now rewrite (Hh _ _ A), (Hh _ _ B).
Qed.
