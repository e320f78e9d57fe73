(** Proofs about writing to a place that may refuse. *)
From Coq Require Import String Ascii Lia.
From Verif Require Import Base FMSpec FMModel FMRun.
From Verif Require Import PPModel PPProofs.
Set Implicit Arguments.
Local Open Scope string_scope.

Lemma concat_app_s (a b : list string) : String.concat "" (a ++ b)%list = String.concat "" a ++ String.concat "" b.
Proof.
  induction a as [|x a IH]; [reflexivity|]. destruct a as [|y a].
  - destruct b as [|z b]; cbn; [|reflexivity]. induction x; cbn; congruence.
  - change (x ++ "" ++ String.concat "" ((y :: a) ++ b)%list = (x ++ "" ++ String.concat "" (y :: a)) ++ String.concat "" b).
    rewrite IH. cbn [append]. now rewrite app_assoc_s.
Qed.
Lemma concat_cons_s x a : String.concat "" (x :: a) = x ++ String.concat "" a.
Proof. change (x :: a) with ([x] ++ a)%list. rewrite concat_app_s. reflexivity. Qed.
Lemma app_nil_s s : s ++ "" = s.
Proof. induction s; cbn; congruence. Qed.

Lemma text_cons e log : text_of (e :: log) = taken e ++ text_of log.
Proof. unfold text_of. cbn [map]. apply concat_cons_s. Qed.

Lemma complete_cons s t log : complete t log -> complete (s ++ t) ((s, Took) :: log).
Proof. intros [F E]. split; [constructor; [reflexivity|exact F]|]. rewrite text_cons, E. reflexivity. Qed.
Lemma cut_cons a s t log : cut_off a t log -> cut_off a (s ++ t) ((s, Took) :: log).
Proof.
  intros (l1 & x & rest & -> & F & E). exists ((s, Took) :: l1), x, rest.
  split; [reflexivity|]. split; [constructor; [reflexivity|exact F]|]. rewrite text_cons. cbn [taken snd fst].
  rewrite app_assoc_s, E. reflexivity.
Qed.
Lemma begun_cons s t log : begun t log -> begun (s ++ t) ((s, Took) :: log).
Proof.
  intros (l1 & l2 & rest & -> & F & L & E). exists ((s, Took) :: l1), l2, rest.
  split; [reflexivity|]. split; [constructor; [reflexivity|exact F]|]. split; [exact L|].
  cbn [map fst]. rewrite concat_cons_s, app_assoc_s, E. reflexivity.
Qed.

Lemma prints_fate faults p t : prints faults p t -> forall place before, fate faults t (writes place before p).
Proof.
  induction 1 as [|t H|t H|s next t N P IH]; intros place before; cbn.
  - split; [constructor|reflexivity].
  - right. split; [exact H|]. exists [], [], t. repeat split; [constructor|cbn; lia].
  - right. split; [exact H|]. exists [], [], t. repeat split; [constructor|cbn; lia].
  - destruct (place before s) as [|n|n].
    + specialize (IH place (before ++ [(s, Took)])%list). destruct (writes place _ (next true)) as [r log].
      unfold fate in *; cbn [fst snd] in *. destruct r as [[]| | | |]; auto using complete_cons.
      * destruct IH as [(n & C)|(F & B)]; [left; exists n; auto using cut_cons|right; auto using begun_cons].
      * destruct IH as [(n & C)|(F & B)]; [left; exists n; auto using cut_cons|right; auto using begun_cons].
    + rewrite N. cbn. left. exists n, [], s, t. repeat split; constructor.
    + left. exists n, [], s, t. repeat split; constructor.
Qed.

Lemma prints_then f p q s t : prints f p s -> prints f q t -> prints f (p ;? q) (s ++ t).
Proof.
  induction 1 as [|u H|u H|x next u N P IH]; intros Q; cbn.
  - exact Q.
  - now apply pr_error.
  - now apply pr_panic.
  - rewrite app_assoc_s. apply pr_write; [rewrite N; reflexivity|apply IH, Q].
Qed.
Lemma prints_str f s : prints f (write_str s) s.
Proof.
  rewrite <- (app_nil_s s) at 2. apply pr_write; [reflexivity|constructor].
Qed.
Lemma prints_piece f e s : prints f (piece e s) s.
Proof. unfold piece. destruct s; [destruct e; [apply prints_str|constructor]|apply prints_str]. Qed.

(** chunks of a line *)
Fixpoint chunk (s : string) : Prop :=
  match s with
  | EmptyString => False
  | String c EmptyString => True
  | String c r => c <> "010"%char /\ chunk r
  end.
Lemma chunk_pad c : chunk c -> forall on u, pad on (c ++ u) = (if on then "    " else "") ++ c ++ pad (ends_line c) u.
Proof.
  induction c as [|x c IH]; [easy|]. intros C on u. destruct c as [|y c].
  - cbn. destruct on; reflexivity.
  - destruct C as [N C]. specialize (IH C false u).
    change (pad on (String x (String y c) ++ u)) with
      ((if on then "    " else "") ++ String x (pad (Ascii.eqb x "010") (String y c ++ u))).
    apply Ascii.eqb_neq in N. rewrite N, IH. reflexivity.
Qed.
Lemma split_chunks s : Forall chunk (split_lines s) /\ String.concat "" (split_lines s) = s.
Proof.
  induction s as [|c s [F E]]; [split; [constructor|reflexivity]|]. cbn [split_lines].
  destruct (Ascii.eqb c "010") eqn:Q.
  - split; [constructor; [exact I|exact F]|]. rewrite concat_cons_s, E. reflexivity.
  - destruct (split_lines s) as [|x xs].
    + cbn in E. subst s. split; [constructor; [exact I|constructor]|reflexivity].
    + inversion_clear F as [|? ? Fx Fs]. split.
      * constructor; [|exact Fs]. destruct x; [destruct Fx|]. split; [now apply Ascii.eqb_neq|exact Fx].
      * rewrite concat_cons_s in *. cbn. now rewrite E.
Qed.
Lemma prints_chunks f cs : Forall chunk cs -> forall on k t, (forall o, k o false = Fin false) ->
  (forall o, prints f (k o true) (pad o t)) -> prints f (pad_chunks on cs k) (pad on (String.concat "" cs ++ t)).
Proof.
  induction 1 as [|c cs C F IH]; intros on k t K P; [apply P|]. cbn [pad_chunks].
  rewrite concat_cons_s, app_assoc_s, (chunk_pad _ C).
  assert (R : prints f (Write c (fun ok => if ok then pad_chunks (ends_line c) cs k else k (ends_line c) false))
                (c ++ pad (ends_line c) (String.concat "" cs ++ t))).
  { apply pr_write; [apply K|]. apply IH; assumption. }
  destruct on; [|exact R]. apply pr_write; [apply K|exact R].
Qed.
Lemma prints_pad f p t : prints f p t -> forall on, prints f (pad_prog on p) (pad on t).
Proof.
  induction 1 as [|u H|u H|x next u N P IH]; intros on; cbn.
  - constructor.
  - now apply pr_error.
  - now apply pr_panic.
  - destruct (split_chunks x) as [F E]. rewrite <- E at 2. apply prints_chunks; [exact F| |exact IH].
    intros o. rewrite N. reflexivity.
Qed.

Lemma prints_item f p t : prints f p t -> prints f (item_pp p) (pad true (t ++ "," ++ lf)).
Proof. intros P. apply prints_pad, prints_then; [exact P|apply prints_str]. Qed.

(** one line after another *)
Lemma writes_then place before p q : writes place before (p ;? q) =
  match writes place before p with
  | (Ret true, log) => match writes place (before ++ log)%list q with (o, log') => (o, (log ++ log')%list) end
  | x => x
  end.
Proof.
  revert before. induction p as [[]| |s next IH]; intros before; cbn.
  - rewrite app_nil_r. destruct (writes place before q); reflexivity.
  - reflexivity.
  - reflexivity.
  - destruct (place before s) as [|n|n]; [| |reflexivity].
    + rewrite IH. destruct (writes place _ (next true)) as [[[]| | | |] log]; try reflexivity.
      rewrite <- app_assoc. cbn [app]. destruct (writes place _ q); reflexivity.
    + rewrite IH. destruct (writes place _ (next false)) as [[[]| | | |] log]; try reflexivity.
      rewrite <- app_assoc. cbn [app]. destruct (writes place _ q); reflexivity.
Qed.
Lemma in_turn_then place before p ps q : (forall b, writes place b q = in_turn place b ps) ->
  writes place before (p ;? q) = in_turn place before (p :: ps).
Proof.
  intros H. rewrite writes_then. cbn [in_turn]. destruct (writes place before p) as [[[]| | | |] log]; try reflexivity.
  rewrite H. reflexivity.
Qed.
Lemma in_turn_last place before p : writes place before p = in_turn place before [p].
Proof.
  cbn. destruct (writes place before p) as [[[]| | | |] log]; try reflexivity. now rewrite app_nil_r.
Qed.
