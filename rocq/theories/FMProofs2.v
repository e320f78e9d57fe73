(** Proofs: what the builders of std print. *)
From Coq Require Import String Ascii NArith Lia.
From Verif Require Import Base HMModel IVModel CTModel DSModel FMSpec FMModel FMRun FMProofs.
From Verif Require Import PPModel TextSpec PPRun PPProofs PPProps.
Set Implicit Arguments.
Local Open Scope string_scope.

Section Builders.
Variable alt faults : bool.
Notation gives p d := (prints faults p (laid_out alt d) /\ good (lines d)).

Lemma prints_more fs ds : Forall2 (fun f d => fst f = fst d /\ prints faults (snd f) (laid_out alt (snd d))) fs ds ->
  alt = true -> prints faults (fields_p alt false fs) (padded (map (fun d => fst d ++ ": " ++ snd d) (map (fun d => (fst d, page (lines (snd d)))) ds))).
Proof.
  intros H A. induction H as [|[n p] [m d] fs ds [E P] F IH]; [constructor|]. cbn [fst snd] in *. subst m.
  cbn [fields_p map padded fst snd]. apply prints_then; [|exact IH]. unfold field_p. rewrite A in *. cbn [andthen].
  apply prints_item. apply prints_then; [apply prints_str|]. apply prints_then; [apply prints_str|exact P].
Qed.
Lemma prints_more_flat fs ds : Forall2 (fun f d => fst f = fst d /\ prints faults (snd f) (laid_out alt (snd d))) fs ds ->
  alt = false -> forall first, fs <> [] -> prints faults (fields_p alt first fs)
    ((if first then " { " else ", ") ++ String.concat ", " (map (fun f => match f with (x, y) => x ++ ": " ++ flat y end) ds)).
Proof.
  intros H A. induction H as [|[n p] [m d] fs ds [E P] F IH]; intros first Ne; [congruence|]. cbn [fst snd] in *. subst m.
  cbn [fields_p]. unfold field_p. rewrite A in *. cbn [laid_out] in *.
  assert (Q : prints faults (write_str (if first then " { " else ", ") ;? write_str n ;? write_str ": " ;? p)
     ((if first then " { " else ", ") ++ n ++ ": " ++ flat d)).
  { repeat (apply prints_then; [apply prints_str|]). exact P. }
  destruct F as [|f e fs ds FE F].
  - cbn [fields_p map String.concat]. replace ((if first then " { " else ", ") ++ n ++ ": " ++ flat d) with
      (((if first then " { " else ", ") ++ n ++ ": " ++ flat d) ++ "") by apply app_nil_s.
    apply prints_then; [exact Q|constructor].
  - specialize (IH false).
    replace ((if first then " { " else ", ") ++ String.concat ", " (map (fun f0 : string * doc => let (x, y) := f0 in x ++ ": " ++ flat y) ((n, d) :: e :: ds)))
      with (((if first then " { " else ", ") ++ n ++ ": " ++ flat d) ++ (", " ++ String.concat ", " (map (fun f0 : string * doc => let (x, y) := f0 in x ++ ": " ++ flat y) (e :: ds)))).
    + apply prints_then; [exact Q|]. apply IH. discriminate.
    + cbn [map]. rewrite !app_assoc_s. cbn [String.concat]. now rewrite !app_assoc_s.
Qed.

Lemma gives_struct name fs ds : one_line name -> fs <> [] ->
  Forall2 (fun f d => fst f = fst d /\ one_line (fst d) /\ gives (snd f) (snd d)) fs ds ->
  gives (struct_p alt name fs) (Record name ds).
Proof.
  intros N Ne F.
  assert (F' : Forall2 (fun f d => fst f = fst d /\ prints faults (snd f) (laid_out alt (snd d))) fs ds).
  { clear - F. induction F; constructor; tauto. }
  assert (Fd : Forall (fun f => one_line (fst f) /\ good (lines (snd f))) ds).
  { clear - F. induction F; constructor; tauto. }
  assert (Nd : ds <> []) by (destruct F; [congruence|discriminate]).
  destruct (@struct_lines name ds N Nd Fd) as [S G]. split; [|exact G].
  unfold laid_out, struct_p. destruct alt eqn:A.
  - rewrite <- S. unfold struct_pp. apply prints_then; [apply prints_str|].
    destruct F' as [|[n p] [m d] fs' ds' [E P] F']; [congruence|]. cbn [fst snd] in *. subst m.
    cbn [fields_p field_p map padded fst snd andthen].
    replace (" {" ++ lf ++ (pad true ((n ++ ": " ++ page (lines d)) ++ "," ++ lf) ++
       padded (map (fun f => fst f ++ ": " ++ snd f) (map (fun f => (fst f, page (lines (snd f)))) ds'))) ++ "}")
     with ((((" {" ++ lf) ++ pad true ((n ++ ": " ++ page (lines d)) ++ "," ++ lf)) ++
       padded (map (fun f => fst f ++ ": " ++ snd f) (map (fun f => (fst f, page (lines (snd f)))) ds'))) ++ "}")
     by now rewrite !app_assoc_s.
    apply prints_then; [|apply prints_str]. apply prints_then.
    + apply prints_then; [apply prints_str|]. apply prints_item.
      apply prints_then; [apply prints_str|]. apply prints_then; [apply prints_str|exact P].
    + generalize (@prints_more fs' ds'). rewrite A. intros X. exact (X F' eq_refl).
  - cbn [flat]. apply prints_then; [apply prints_str|]. rewrite <- app_assoc_s.
    apply prints_then; [|apply prints_str].
    generalize (@prints_more_flat fs ds). rewrite A. intros X. exact (X F' eq_refl true Ne).
Qed.

Lemma gives_tuple name p d : one_line name -> gives p d -> gives (tuple_p alt name p) (Variant name [d]).
Proof.
  intros N [P G]. destruct (@tuple_lines name d N G) as [S S']. split; [|exact S'].
  unfold laid_out, tuple_p in *. destruct alt.
  - rewrite <- S. unfold tuple_pp. apply prints_then; [apply prints_str|].
    cbn [padded]. rewrite app_nil_s. 
    replace ("(" ++ lf ++ pad true (page (lines d) ++ "," ++ lf) ++ ")") with ((("(" ++ lf) ++ pad true (page (lines d) ++ "," ++ lf)) ++ ")")
      by now rewrite !app_assoc_s.
    apply prints_then; [|apply prints_str]. apply prints_then; [apply prints_str|]. apply prints_item, P.
  - cbn [flat map String.concat]. apply prints_then; [apply prints_str|]. rewrite <- app_assoc_s.
    apply prints_then; [|apply prints_str]. apply prints_then; [apply prints_str|exact P].
Qed.

Lemma prints_entries_pp ps ts : alt = true -> Forall2 (prints faults) ps ts -> prints faults (entries_p alt false ps) (padded ts).
Proof.
  intros A. induction 1 as [|p t ps ts P F IH]; [constructor|]. cbn [entries_p padded].
  rewrite A in *. cbn [andthen]. apply prints_then; [apply prints_item, P|exact IH].
Qed.
Lemma prints_body ps ts : alt = true -> Forall2 (prints faults) ps ts -> prints faults (entries_p alt true ps) (body_pp ts).
Proof.
  intros A. destruct 1 as [|p t ps ts P F]; [constructor|]. cbn [entries_p body_pp padded].
  rewrite <- app_assoc_s. apply prints_then; [|apply prints_entries_pp; assumption].
  rewrite A. apply prints_then; [apply prints_str|apply prints_item, P].
Qed.
Lemma prints_commas ps ts : alt = false -> Forall2 (prints faults) ps ts -> forall first, ps <> [] ->
  prints faults (entries_p alt first ps) ((if first then "" else ", ") ++ String.concat ", " ts).
Proof.
  intros A. induction 1 as [|p t ps ts P F IH]; intros first Ne; [congruence|]. cbn [entries_p]. rewrite A in *.
  assert (Q : prints faults ((if first then Fin true else write_str ", ") ;? p) ((if first then "" else ", ") ++ t)).
  { apply prints_then; [destruct first; [constructor|apply prints_str]|exact P]. }
  destruct F as [|q u ps ts P' F].
  - cbn [entries_p String.concat]. rewrite <- (app_nil_s (_ ++ t)). apply prints_then; [exact Q|constructor].
  - replace ((if first then "" else ", ") ++ String.concat ", " (t :: u :: ts)) with
      (((if first then "" else ", ") ++ t) ++ (", " ++ String.concat ", " (u :: ts))).
    + apply prints_then; [exact Q|]. apply (IH false). discriminate.
    + cbn [String.concat]. now rewrite !app_assoc_s.
Qed.
Lemma prints_all_commas ps ts : alt = false -> Forall2 (prints faults) ps ts -> prints faults (entries_p alt true ps) (String.concat ", " ts).
Proof.
  intros A F. destruct F as [|p t ps ts P F]; [constructor|].
  apply (@prints_commas (p :: ps) (t :: ts) A); [constructor; assumption|discriminate].
Qed.

Lemma Forall2_map_same A B C (R : B -> C -> Prop) (f : A -> B) (g : A -> C) l : (forall x, R (f x) (g x)) -> Forall2 R (map f l) (map g l).
Proof. intros H. induction l; constructor; auto. Qed.

Lemma gives_list A (p : A -> prog) (d : A -> doc) v : (forall x, gives (p x) (d x)) ->
  gives (list_p alt (map p v)) (Array (map d v)).
Proof.
  intros H. destruct (@vec_lines _ d v) as [S G]; [apply H|]. split; [|exact G].
  unfold laid_out, list_p in *. destruct alt eqn:Al.
  - rewrite <- S. unfold vec_pp. apply prints_then; [apply prints_str|]. apply prints_then; [|apply prints_str].
    generalize prints_body. rewrite Al. intros X. apply X; [reflexivity|]. apply Forall2_map_same. apply H.
  - cbn [flat]. apply prints_then; [apply prints_str|]. apply prints_then; [|apply prints_str].
    generalize prints_all_commas. rewrite Al. intros X. apply X; [reflexivity|]. rewrite map_map. apply Forall2_map_same. apply H.
Qed.
Lemma gives_map A (p q : A -> prog) (d e : A -> doc) l : (forall x, gives (p x) (d x)) -> (forall x, gives (q x) (e x)) ->
  gives (map_p alt (map (fun x => (p x, q x)) l)) (Dict (map (fun x => (d x, e x)) l)).
Proof.
  intros H K. destruct (@dict_lines _ d e l) as [S G]; [apply H|apply K|]. split; [|exact G].
  unfold laid_out, map_p in *. rewrite map_map. destruct alt eqn:Al.
  - rewrite <- S. apply prints_then; [apply prints_str|]. apply prints_then; [|apply prints_str].
    generalize prints_body. rewrite Al. intros X. apply X; [reflexivity|]. apply Forall2_map_same. intros x.
    apply prints_then; [apply H|]. apply prints_then; [apply prints_str|apply K].
  - cbn [flat]. apply prints_then; [apply prints_str|]. apply prints_then; [|apply prints_str].
    generalize prints_all_commas. rewrite Al. intros X. apply X; [reflexivity|]. rewrite map_map. apply Forall2_map_same. intros x.
    apply prints_then; [apply H|]. apply prints_then; [apply prints_str|apply K].
Qed.
Lemma gives_atom p t : prints faults p t -> gives p (Atom t).
Proof.
  intros P. split; [|apply rows_good]. unfold laid_out. destruct alt; [rewrite atom_page|]; exact P.
Qed.
End Builders.

Ltac fields := repeat (apply Forall2_cons || apply Forall2_nil); cbn [fst snd]; (split; [reflexivity|split; [single|]]).

Section Values.
Variable alt faults : bool.
Notation gives p d := (prints faults p (laid_out alt d) /\ good (lines d)).
Variable flag : bool -> prog.
Variable num : nat -> prog.
Variable num32 : N -> prog.
Hypothesis flag_ok : forall b : bool, prints faults (flag b) (if b then "true" else "false").
Hypothesis num_ok : forall n, prints faults (num n) (flat (number n)).
Hypothesis num32_ok : forall n, prints faults (num32 n) (flat (number_N n)).
Variable T : Type.
Variable dbg : T -> prog.
Variable el : T -> string.
Hypothesis dbg_ok : forall x, prints faults (dbg x) (el x).

Lemma gives_bound b : gives (bound_p alt flag dbg b) (bound_doc el (bval b) (bclosed b)).
Proof. apply gives_struct; [single|discriminate|]. fields; apply gives_atom; auto. Qed.
Lemma gives_lower l : gives (lower_p alt flag dbg l) (lower_doc el l).
Proof. apply gives_struct; [single|discriminate|]. fields; apply gives_bound. Qed.
Lemma gives_upper u : gives (upper_p alt flag dbg u) (upper_doc el u).
Proof. apply gives_struct; [single|discriminate|]. fields; apply gives_bound. Qed.
Lemma gives_interval i : gives (iv_debug_p alt flag dbg i) (iv_doc el i).
Proof.
  apply gives_struct; [single|discriminate|]. fields. destruct (imp i) as [a|]; [|apply gives_atom, prints_str].
  apply gives_tuple; [single|]. apply gives_struct; [single|discriminate|]. fields; [apply gives_lower|apply gives_upper].
Qed.
Lemma gives_hm l : gives (hm_p alt num dbg l) (map_doc el l).
Proof. apply gives_map; intros x; apply gives_atom; auto. apply num_ok. Qed.
Lemma gives_counter l : gives (ct_debug_p alt num dbg l) (ct_doc el l).
Proof. apply gives_struct; [single|discriminate|]. fields; apply gives_hm. Qed.
Lemma gives_data d : gives (data_p alt num num32 d) (data_doc d).
Proof. apply gives_struct; [single|discriminate|]. fields; apply gives_atom; [apply num_ok|apply num32_ok]. Qed.
Lemma gives_set l v : gives (ds_debug_p alt num num32 dbg l v) (ds_doc el l v).
Proof.
  apply gives_struct; [single|discriminate|]. fields; [apply gives_hm|]. apply gives_list, gives_data.
Qed.
End Values.
