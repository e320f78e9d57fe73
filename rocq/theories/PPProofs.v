(** Proofs about printed values: the builders lay texts out as [TextSpec] says. *)
From Coq Require Import String Ascii Lia.
From Verif Require Import Base HMModel IVModel IVModel2 CTModel DSModel DBModel PPModel TextSpec.
From Verif Require DBProps.
Set Implicit Arguments.
Local Open Scope string_scope.

Lemma app_assoc_s (s t u : string) : (s ++ t) ++ u = s ++ t ++ u.
Proof. induction s as [|c s IH]; cbn; congruence. Qed.
Lemma cancel_l (p s t : string) : p ++ s = p ++ t -> s = t.
Proof. induction p as [|c p IH]; cbn; [auto|]. intros [= H]. auto. Qed.
Lemma length_app_s (s t : string) : String.length (s ++ t) = String.length s + String.length t.
Proof. induction s; cbn; auto. Qed.
Lemma cancel_r (s s' t : string) : s ++ t = s' ++ t -> s = s'.
Proof.
  revert s'. induction s as [|c s IH]; intros [|c' s'] H; cbn in H; auto.
  - apply (f_equal String.length) in H. cbn in H. rewrite length_app_s in H. lia.
  - apply (f_equal String.length) in H. cbn in H. rewrite length_app_s in H. lia.
  - injection H as -> H. f_equal. auto.
Qed.

(** ** Lines *)
Lemma one_line_app s t : one_line s -> one_line t -> one_line (s ++ t).
Proof. induction s; cbn; intuition. Qed.

(** no lines, or lines that are not one *)
Definition good (ls : list string) : Prop := ls <> [] /\ Forall one_line ls.

Lemma rows_good s : good (rows s).
Proof.
  induction s as [|c s [N F]]; cbn.
  - split; [discriminate|repeat constructor].
  - destruct (Ascii.eqb_spec c newline).
    + split; [discriminate|]. constructor; [exact I|exact F].
    + destruct (rows s) as [|l q]; [congruence|]. split; [discriminate|]. inversion F; subst. constructor; cbn; auto.
Qed.
Lemma page_cons l m r : page (l :: m :: r) = l ++ nl ++ page (m :: r).
Proof. reflexivity. Qed.
Lemma page_rows s : page (rows s) = s.
Proof.
  induction s as [|c s IH]; [reflexivity|]. cbn [rows]. pose proof (rows_good s) as [N _].
  destruct (Ascii.eqb_spec c newline) as [->|].
  - destruct (rows s); [congruence|]. rewrite page_cons, IH. reflexivity.
  - destruct (rows s) as [|l [|m r]]; [congruence| |]; rewrite <- IH; reflexivity.
Qed.
Lemma rows_one s : one_line s -> rows s = [s].
Proof.
  induction s as [|c s IH]; cbn; auto. intros [N H]. destruct (Ascii.eqb_spec c newline); [contradiction|].
  now rewrite (IH H).
Qed.
Lemma rows_nl s t : one_line s -> rows (s ++ nl ++ t) = s :: rows t.
Proof.
  induction s as [|c s IH]; cbn [append one_line].
  - intros _. reflexivity.
  - intros [N H]. cbn [rows]. destruct (Ascii.eqb_spec c newline); [contradiction|]. rewrite (IH H). reflexivity.
Qed.
Lemma rows_page ls : good ls -> rows (page ls) = ls.
Proof.
  intros [N F]. induction ls as [|l [|m r] IH]; [congruence| |].
  - inversion F; subst. cbn. now apply rows_one.
  - inversion F; subst. rewrite page_cons, rows_nl by auto. rewrite IH; auto. discriminate.
Qed.
Lemma page_inj ls ms : good ls -> good ms -> page ls = page ms -> ls = ms.
Proof. intros A B H. rewrite <- (rows_page A), <- (rows_page B). congruence. Qed.

(** lines each ended by a line break *)
Fixpoint block (ls : list string) : string := match ls with [] => "" | l :: r => l ++ nl ++ block r end.
Lemma block_app a b : block (a ++ b)%list = block a ++ block b.
Proof. induction a as [|l a IH]; cbn [block app]; auto. now rewrite IH, !app_assoc_s. Qed.
Lemma block_page ls : ls <> [] -> page ls ++ nl = block ls.
Proof.
  induction ls as [|l [|m r] IH]; [congruence| |]; intros _.
  - cbn. reflexivity.
  - rewrite page_cons, !app_assoc_s. rewrite IH by discriminate. reflexivity.
Qed.
Lemma page_block ls t : page (ls ++ [t])%list = block ls ++ t.
Proof.
  induction ls as [|l ls IH]; [reflexivity|]. cbn [app block].
  destruct (ls ++ [t])%list eqn:Q; [now destruct ls|]. rewrite page_cons, IH, !app_assoc_s. reflexivity.
Qed.

Lemma glue_good a b : good a -> good b -> good (glue a b).
Proof.
  intros [N F] [N' F']. induction a as [|l [|m r] IH]; [congruence| |].
  - cbn. destruct b as [|x b]; [congruence|]. inversion F; inversion F'; subst. split; [discriminate|].
    constructor; auto. now apply one_line_app.
  - inversion F; subst. destruct IH as [N2 F2]; auto; [discriminate|]. split; [discriminate|].
    cbn [glue]. constructor; auto.
Qed.
Lemma glue_cons l m r b : glue (l :: m :: r) b = l :: glue (m :: r) b.
Proof. reflexivity. Qed.
Lemma page_glue a b : a <> [] -> b <> [] -> page (glue a b) = page a ++ page b.
Proof.
  intros N N'. induction a as [|l [|m r] IH]; [congruence| |].
  - cbn [glue]. destruct b as [|x [|y b]]; [congruence| |]; [reflexivity|]. rewrite !page_cons. cbn [page String.concat].
    now rewrite app_assoc_s.
  - rewrite glue_cons. destruct (glue (m :: r) b) eqn:Q.
    { destruct r; cbn in Q; [destruct b; congruence|discriminate]. }
    rewrite !page_cons. rewrite IH by discriminate. now rewrite !app_assoc_s.
Qed.

(** ** The adapter *)
Lemma pad_line l s : one_line l -> pad false (l ++ nl ++ s) = l ++ nl ++ pad true s.
Proof.
  induction l as [|c l IH]; cbn [append one_line]; intros H.
  - reflexivity.
  - destruct H as [N H]. cbn [pad append]. destruct (Ascii.eqb_spec c "010"); [contradiction|]. now rewrite IH.
Qed.
Lemma pad_line_start l s : one_line l -> pad true (l ++ nl ++ s) = ("    " ++ l) ++ nl ++ pad true s.
Proof.
  destruct l as [|c l]; cbn [append one_line]; intros H.
  - reflexivity.
  - destruct H as [N H]. cbn [pad append]. destruct (Ascii.eqb_spec c "010"); [contradiction|]. now rewrite (pad_line _ _ H).
Qed.
Lemma pad_block ls : Forall one_line ls -> pad true (block ls) = block (map (append "    ") ls).
Proof. induction 1 as [|l ls H F IH]; [reflexivity|]. cbn [block map]. now rewrite pad_line_start, IH. Qed.

Lemma comma_good : good [","].
Proof. split; [discriminate|]. repeat constructor. discriminate. Qed.
Lemma item_good ls : good ls -> good (item ls).
Proof.
  intros G. destruct (glue_good G comma_good) as [N F]. unfold item. split.
  - destruct (glue ls [","]); [congruence|discriminate].
  - apply Forall_forall. intros x I. apply in_map_iff in I. destruct I as (y & <- & I).
    rewrite Forall_forall in F. apply one_line_app; auto. cbn. repeat split; discriminate.
Qed.
Lemma pad_item ls : good ls -> pad true (page ls ++ "," ++ lf) = block (item ls).
Proof.
  intros G. destruct (glue_good G comma_good) as [N F]. unfold item. rewrite <- (pad_block F), <- (block_page N).
  f_equal. rewrite page_glue by (apply G || discriminate). now rewrite app_assoc_s.
Qed.
Lemma padded_items iss : Forall good iss -> padded (map page iss) = block (concat (map item iss)).
Proof.
  induction 1 as [|ls iss H F IH]; [reflexivity|]. cbn [map padded concat]. now rewrite block_app, pad_item, IH.
Qed.

Lemma enclosed_good a iss b : one_line a -> one_line b -> Forall good iss -> good (enclosed a iss b).
Proof.
  intros A B F. unfold enclosed. destruct iss as [|i iss].
  - split; [discriminate|]. repeat constructor. now apply one_line_app.
  - split; [discriminate|]. constructor; auto. apply Forall_app. split; [|repeat constructor; auto].
    apply Forall_concat. apply Forall_forall. intros ls I. apply in_map_iff in I. destruct I as (x & <- & I).
    rewrite Forall_forall in F. exact (proj2 (item_good (F x I))).
Qed.
Lemma page_enclosed a i iss b : Forall good (i :: iss) ->
  page (enclosed a (i :: iss) b) = a ++ nl ++ padded (map page (i :: iss)) ++ b.
Proof.
  intros F. unfold enclosed. rewrite app_comm_cons, page_block. cbn [block]. rewrite padded_items by auto.
  now rewrite !app_assoc_s.
Qed.
Lemma page_enclosed' a iss b : iss <> [] -> Forall good iss ->
  page (enclosed a iss b) = a ++ nl ++ padded (map page iss) ++ b.
Proof. destruct iss; [congruence|]. intros _. apply page_enclosed. Qed.
Lemma page_body a iss b : Forall good iss ->
  page (enclosed a iss b) = a ++ body_pp (map page iss) ++ b.
Proof.
  intros F. destruct iss as [|i iss]; [reflexivity|]. rewrite page_enclosed by auto. cbn [map body_pp].
  now rewrite !app_assoc_s.
Qed.

(** ** The builders *)
Lemma struct_lines name fields : one_line name -> fields <> [] ->
  Forall (fun f => one_line (fst f) /\ good (lines (snd f))) fields ->
  struct_pp name (map (fun f => (fst f, page (lines (snd f)))) fields) = page (lines (Record name fields)) /\
  good (lines (Record name fields)).
Proof.
  intros N Ne F. cbn [lines].
  assert (C : forall x, one_line x -> good [x ++ ": "]).
  { intros x H. split; [discriminate|]. repeat constructor. apply one_line_app; auto. cbn. repeat split; discriminate. }
  assert (G : Forall good (map (fun f : string * doc => let (x, y) := f in glue [x ++ ": "] (lines y)) fields)).
  { apply Forall_forall. intros ls I. apply in_map_iff in I. destruct I as ([x d] & <- & I).
    rewrite Forall_forall in F. destruct (F _ I) as [A B]. apply glue_good; auto. }
  split.
  - rewrite page_enclosed' by (exact G || (destruct fields; [congruence|discriminate])). unfold struct_pp.
    rewrite !app_assoc_s. do 3 f_equal. f_equal. f_equal.
    rewrite !map_map. apply map_ext_in. intros [x d] I. cbn [fst snd].
    rewrite Forall_forall in F. destruct (F _ I) as [A [B _]]. rewrite page_glue by (discriminate || exact B).
    cbn [page String.concat]. now rewrite app_assoc_s.
  - apply enclosed_good; auto; [apply one_line_app; auto|]; cbn; repeat split; discriminate.
Qed.
Lemma tuple_lines name d : one_line name -> good (lines d) ->
  tuple_pp name (page (lines d)) = page (lines (Variant name [d])) /\ good (lines (Variant name [d])).
Proof.
  intros N G. cbn [lines map]. split.
  - rewrite page_enclosed by auto. unfold tuple_pp. cbn [map]. now rewrite !app_assoc_s.
  - apply enclosed_good; auto; [apply one_line_app; auto|]; cbn; repeat split; discriminate.
Qed.
Lemma vec_lines A (f : A -> doc) v : (forall x, good (lines (f x))) ->
  vec_pp (fun x => page (lines (f x))) v = page (lines (Array (map f v))) /\ good (lines (Array (map f v))).
Proof.
  intros G. cbn [lines].
  assert (F : Forall good (map lines (map f v))).
  { rewrite map_map. apply Forall_forall. intros ls I. apply in_map_iff in I. destruct I as (x & <- & I). auto. }
  split.
  - rewrite page_body by exact F. unfold vec_pp. now rewrite !map_map.
  - apply enclosed_good; auto; cbn; repeat split; discriminate.
Qed.
Lemma dict_lines A (f g : A -> doc) l : (forall x, good (lines (f x))) -> (forall x, good (lines (g x))) ->
  "{" ++ body_pp (map (fun x => page (lines (f x)) ++ ": " ++ page (lines (g x))) l) ++ "}"
    = page (lines (Dict (map (fun x => (f x, g x)) l))) /\ good (lines (Dict (map (fun x => (f x, g x)) l))).
Proof.
  intros G H. cbn [lines]. rewrite map_map.
  assert (C : good [": "]) by (split; [discriminate|]; repeat constructor; discriminate).
  assert (F : Forall good (map (fun x => glue (glue (lines (f x)) [": "]) (lines (g x))) l)).
  { apply Forall_forall. intros ls I. apply in_map_iff in I. destruct I as (x & <- & I). repeat apply glue_good; auto. }
  split.
  - rewrite page_body by exact F. rewrite map_map. do 3 f_equal. apply map_ext. intros x.
    rewrite page_glue; [|apply glue_good; auto|apply H]. rewrite page_glue; [|apply G|discriminate].
    now rewrite app_assoc_s.
  - apply enclosed_good; auto; cbn; repeat split; discriminate.
Qed.

(** digits make one line *)
Lemma digits_line s : DBProps.digits s -> one_line s.
Proof.
  induction s as [|c s IH]; cbn; auto. intros [D H]. split; auto. intros ->.
  repeat (destruct D as [D|D]; [discriminate D|]). exact D.
Qed.
