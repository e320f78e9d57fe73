(** Property theorems C83 and C84: the Debug output of counters and of disjoint
    sets. *)
From Coq Require Import String Ascii Permutation NArith DecimalString DecimalN.
From Verif Require Import Base HMModel HMProofs CTModel CTSpec CTRun CTProofs3 CTProps DSModel DSSpec DSRun DSProofs2 DSProofs3 DSProofs4 DSProps DBModel.
From Verif Require CBModel2 CBProofs6.
Set Implicit Arguments.
Local Open Scope string_scope.

(** ** Reading the texts back *)
(** [c] occurs in [s] *)
Fixpoint occurs (c : ascii) (s : string) : Prop :=
  match s with EmptyString => False | String d r => c = d \/ occurs c r end.

Lemma cut c s t s' t' : ~ occurs c s -> ~ occurs c s' -> s ++ String c t = s' ++ String c t' -> s = s' /\ t = t'.
Proof.
  revert s'; induction s as [|d s IH]; intros [|d' s']; cbn; intros H H' E.
  - injection E as ->; auto.
  - injection E as -> ->. exfalso; auto.
  - injection E as -> <-. exfalso; auto.
  - injection E as -> E. destruct (IH s') as [-> ->]; auto.
Qed.
Lemma cancel (p s t : string) : p ++ s = p ++ t -> s = t.
Proof. induction p as [|c p IH]; cbn; [auto|]. intros [= H]. auto. Qed.
Lemma assoc (s t u : string) : (s ++ t) ++ u = s ++ t ++ u.
Proof. induction s as [|c s IH]; cbn; congruence. Qed.

(** only digits *)
Definition digit (c : ascii) : Prop := In c ["0"; "1"; "2"; "3"; "4"; "5"; "6"; "7"; "8"; "9"]%char.
Fixpoint digits (s : string) : Prop := match s with EmptyString => True | String c r => digit c /\ digits r end.
Lemma digits_empty u : digits (NilEmpty.string_of_uint u).
Proof. induction u; cbn; auto; (split; [unfold digit; cbn; tauto|auto]). Qed.
Lemma digits_zero u : digits (NilZero.string_of_uint u).
Proof. destruct u; try apply digits_empty. cbn. split; [unfold digit; cbn; tauto|auto]. Qed.
(** numbers end where something else than a digit begins *)
Lemma cut_num a b c s d t : digits a -> digits b -> ~ digit c -> ~ digit d ->
  a ++ String c s = b ++ String d t -> a = b /\ c = d /\ s = t.
Proof.
  intros Ha Hb Hc Hd. revert b Hb; induction a as [|x a IH]; intros [|y b] Hb E; cbn in *.
  - injection E as -> ->; auto.
  - injection E as -> ->. tauto.
  - injection E as -> <-. tauto.
  - injection E as -> E. destruct (IH (proj2 Ha) b (proj2 Hb) E) as (-> & -> & ->); auto.
Qed.
Lemma usize_digits n : digits (usize_debug n).
Proof. apply digits_zero. Qed.
Lemma u32_digits n : digits (u32_debug n).
Proof. apply digits_zero. Qed.
Lemma usize_inj n m : usize_debug n = usize_debug m -> n = m.
Proof. apply CBProofs6.show_inj. Qed.
Lemma u32_inj n m : u32_debug n = u32_debug m -> n = m.
Proof.
  unfold u32_debug. intros H. apply (f_equal NilZero.uint_of_string) in H.
  assert (N : forall k, N.to_uint k <> Decimal.Nil).
  { intros k Q. assert (k = 0%N) by (rewrite <- (Unsigned.of_to k), Q; reflexivity). subst; discriminate. }
  rewrite !NilZero.usu in H by apply N. injection H as H. now apply Unsigned.to_uint_inj.
Qed.

Ltac nodigit := let H := fresh in unfold digit; cbn; intros H; repeat (destruct H as [H|H]; [discriminate H|]); exact H.

Section Entries.
Variable K : Type.
Variable dbg : K -> string.
(** the texts of the elements hold no ':' and do not begin with the brace that
    closes the map *)
Hypothesis Hc : forall k, ~ occurs ":"%char (dbg k).
Hypothesis Hb : forall k r, dbg k <> String "}"%char r.

Definition entry_text (e : K * nat) : string := dbg (fst e) ++ ": " ++ usize_debug (snd e).

Lemma entry_head e x z : entry_text e ++ x <> String "}"%char z.
Proof.
  intros H. unfold entry_text in H. destruct (dbg (fst e)) as [|c r] eqn:Q; [discriminate H|].
  cbn in H. injection H as -> _. exact (Hb Q).
Qed.
Lemma entry_app e x : entry_text e ++ x = dbg (fst e) ++ String ":"%char (String " "%char (usize_debug (snd e) ++ x)).
Proof. unfold entry_text. now rewrite !assoc. Qed.
Lemma commas_cons (t : string) ts x :
  commas (t :: ts) ++ x = t ++ (match ts with [] => x | _ => ", " ++ commas ts ++ x end).
Proof. destruct ts; cbn [commas]; [reflexivity|]. now rewrite !assoc. Qed.

Lemma entries_inj l l' r r' : commas (map entry_text l) ++ String "}"%char r = commas (map entry_text l') ++ String "}"%char r' ->
  Forall2 (fun a b => dbg (fst a) = dbg (fst b) /\ snd a = snd b) l l' /\ r = r'.
Proof.
  revert l'. induction l as [|a l IH]; intros [|b l'] H; cbn [map] in H; rewrite ?commas_cons in H.
  - cbn in H. injection H as ->. auto.
  - symmetry in H. exfalso. exact (entry_head _ _ H).
  - exfalso. exact (entry_head _ _ H).
  - rewrite (entry_app a), (entry_app b) in H.
    apply cut in H; auto. destruct H as [H1 H]. injection H as H.
    destruct l as [|a2 l], l' as [|b2 l']; cbn [map] in H; cbn [append] in H;
    (apply cut_num in H; [|apply usize_digits|apply usize_digits|nodigit|nodigit]); destruct H as (H2 & H3 & H4); try discriminate H3.
    + apply usize_inj in H2. subst. auto.
    + injection H4 as H4. destruct (IH (b2 :: l')%list H4) as [F ->]. apply usize_inj in H2. auto.
Qed.

Lemma map_inj l l' x x' : hm_debug dbg l ++ x = hm_debug dbg l' ++ x' ->
  Forall2 (fun a b => dbg (fst a) = dbg (fst b) /\ snd a = snd b) l l' /\ x = x'.
Proof. unfold hm_debug. rewrite !assoc. intros H. apply cancel in H. exact (entries_inj _ _ _ _ H). Qed.
End Entries.

Lemma data_inj d d' x x' : data_debug d ++ x = data_debug d' ++ x' -> d = d' /\ x = x'.
Proof.
  unfold data_debug. rewrite !assoc. intros H. apply cancel in H. cbn [append] in H.
  apply cut_num in H; [|apply usize_digits|apply usize_digits|nodigit|nodigit]. destruct H as (H1 & _ & H).
  apply (cancel " rank: ") in H.
  apply cut_num in H; [|apply u32_digits|apply u32_digits|nodigit|nodigit]. destruct H as (H2 & _ & H).
  injection H as ->. apply usize_inj in H1. apply u32_inj in H2. destruct d, d'; cbn in *. subst; auto.
Qed.
Lemma vec_inj v v' x x' : vec_debug data_debug v ++ x = vec_debug data_debug v' ++ x' -> v = v' /\ x = x'.
Proof.
  unfold vec_debug. rewrite !assoc. intros H. apply cancel in H. revert v' H.
  induction v as [|d v IH]; intros [|d' v'] H; cbn [map] in H; rewrite ?commas_cons in H.
  - cbn in H. injection H as ->; auto.
  - discriminate H.
  - discriminate H.
  - apply data_inj in H. destruct H as [-> H].
    destruct v as [|d2 v], v' as [|d2' v']; cbn [map] in H; try discriminate H.
    + cbn in H. injection H as ->; auto.
    + apply (cancel ", ") in H. destruct (IH (d2' :: v')%list H) as [-> ->]. auto.
Qed.

(** ** C83 *)
Lemma texts_related K (eqb : K -> K -> bool) (dbg : K -> string) (l l' : hmap K nat) :
  (forall k k', dbg k = dbg k' -> eqb k k' = true) ->
  Forall2 (fun a b => dbg (fst a) = dbg (fst b) /\ snd a = snd b) l l' ->
  Forall2 (fun a b => eqb (fst a) (fst b) = true /\ snd a = snd b) l l'.
Proof. intros Hi. induction 1 as [|a b l l' [A B]]; constructor; auto. Qed.
Lemma related_get K (eqb : K -> K -> bool) (L : eq_laws eqb) (l l' : hmap K nat) :
  Forall2 (fun a b => eqb (fst a) (fst b) = true /\ snd a = snd b) l l' ->
  forall x, hm_get eqb x l' = hm_get eqb x l.
Proof.
  intros F x. induction F as [|[k i] [k' i'] l l' [Q1 Q2] F IH]; auto.
  unfold hm_get in *. simpl in *. subst i'. rewrite (eqb_cong_r L x (eq_sym' L _ _ Q1)).
  destruct (eqb x k); auto.
Qed.
Lemma iterates_get K (eqb : K -> K -> bool) (L : eq_laws eqb) (m l : hmap K nat) :
  hm_wf eqb m -> iterates m l -> forall x, hm_get eqb x l = hm_get eqb x m.
Proof. intros W P x. rewrite !get_entry. now rewrite (entry_of_perm L x W P). Qed.

Lemma valid_wf K (eqb : K -> K -> bool) E (c : counter K) : ct_valid eqb E c -> hm_wf eqb (ct_map c).
Proof. intros [[W _] _]. now apply wf_keys. Qed.

(** two counters that print the same are equal, whatever the orders of the two
    hash maps *)
Theorem c83_same_text_same_counter : forall K (eqb : K -> K -> bool) E (dbg : K -> string) a b t,
  eq_laws eqb -> ct_valid eqb E a -> ct_valid eqb E b ->
  (forall k, ~ occurs ":"%char (dbg k)) -> (forall k r, dbg k <> String "}"%char r) ->
  (forall k k', dbg k = dbg k' -> eqb k k' = true) ->
  ct_debug dbg a t -> ct_debug dbg b t -> ct_eq eqb a b = true.
Proof.
  intros K eqb E dbg a b t L Va Vb Hc Hb Hi (l & Pl & ->) (l' & Pl' & H).
  apply cancel in H. destruct (map_inj Hc Hb H) as [F _]. clear H.
  apply (c50_equality_is_same_lookups _ _ E); auto. intros x.
  unfold ct_get. rewrite <- (iterates_get L (valid_wf Va) Pl), <- (iterates_get L (valid_wf Vb) Pl').
  symmetry. apply (related_get L). exact (texts_related _ _ Hi F).
Qed.
Print Assumptions c83_same_text_same_counter.

(** every order of one counter's entries is, up to equal elements, an order of an
    equal counter's *)
Lemma same_orders K (eqb : K -> K -> bool) E (a b : counter K) l : eq_laws eqb -> ct_valid eqb E a -> ct_valid eqb E b ->
  ct_eq eqb a b = true -> iterates (ct_map a) l ->
  exists l', iterates (ct_map b) l' /\ Forall2 (fun x y => eqb (fst x) (fst y) = true /\ snd x = snd y) l l'.
Proof.
  intros L Va Vb Q P.
  pose proof (proj1 (c50_equality_is_same_lookups _ eqb E a b L Va Vb) Q) as G.
  assert (Len : length (ct_map a) = length (ct_map b)).
  { unfold ct_eq, hm_eq in Q. apply andb_prop in Q. now apply Nat.eqb_eq. }
  pose proof (valid_wf Va) as Wa. pose proof (valid_wf Vb) as Wb. set (m := ct_map b) in *.
  pose proof (wf_perm L P Wa) as Wl.
  set (f := fun e : K * nat => match hm_entry_of eqb (fst e) m with Some e' => e' | None => e end).
  assert (Hf : forall e, In e l -> In (f e) m /\ eqb (fst e) (fst (f e)) = true /\ snd (f e) = snd e).
  { intros [k n] I. assert (Ga : ct_get eqb a k = Some n).
    { unfold ct_get. rewrite <- (iterates_get L Wa P), get_entry, (@wf_in _ _ _ L k l k n Wl I (eq_refl' L k)). reflexivity. }
    rewrite G in Ga. unfold ct_get in Ga. fold m in Ga. rewrite get_entry in Ga. unfold f; cbn.
    destruct (hm_entry_of eqb k m) as [[k' n']|] eqn:X; [|discriminate]. cbn in Ga. injection Ga as ->.
    apply entry_of_some in X. destruct X as [X1 X2]. cbn. auto. }
  exists (map f l). split.
  - apply Permutation_sym, NoDup_Permutation_bis.
    + assert (S : forall l', (forall e, In e l' -> In e l) -> hm_wf eqb l' -> NoDup (map f l')).
      { intros l' I W. induction W as [|e l' F W IH]; cbn; constructor.
        - rewrite in_map_iff. intros (e2 & X & I2). rewrite Forall_forall in F. specialize (F e2 I2).
          destruct (Hf e (I e (or_introl eq_refl))) as (_ & A & _). destruct (Hf e2 (I e2 (or_intror I2))) as (_ & B & _).
          rewrite X in B. rewrite (eq_trans' L _ _ _ A (eq_sym' L _ _ B)) in F. discriminate.
        - apply IH. intros e2 I2. apply I; right; auto. }
      apply S; auto.
    + rewrite map_length, <- (Permutation_length P), Len. auto.
    + intros e I. apply in_map_iff in I. destruct I as (e0 & <- & I). now apply Hf.
  - clear -Hf. induction l as [|e l IH]; constructor.
    + destruct (Hf e (or_introl eq_refl)) as (_ & A & B). auto.
    + apply IH. intros x I. apply Hf. right; auto.
Qed.

(** equal counters have the same possible texts, if equal elements print alike *)
Theorem c83_same_counter_same_texts : forall K (eqb : K -> K -> bool) E (dbg : K -> string) a b t,
  eq_laws eqb -> ct_valid eqb E a -> ct_valid eqb E b ->
  (forall k k', eqb k k' = true -> dbg k = dbg k') ->
  ct_eq eqb a b = true -> ct_debug dbg a t -> ct_debug dbg b t.
Proof.
  intros K eqb E dbg a b t L Va Vb Hd Q (l & P & ->).
  destruct (same_orders L Va Vb Q P) as (l' & P' & F). exists l'. split; auto.
  enough (M : map (fun e => dbg (fst e) ++ ": " ++ usize_debug (snd e)) l = map (fun e => dbg (fst e) ++ ": " ++ usize_debug (snd e)) l').
  { unfold hm_debug. now rewrite M. }
  clear -F Hd. induction F as [|x y l l' [A B]]; cbn [map]; auto. now rewrite (Hd _ _ A), B, IHF.
Qed.
Print Assumptions c83_same_counter_same_texts.

(** decimal integers meet the conditions on the elements' texts *)
Lemma usize_no_colon n : ~ occurs ":"%char (usize_debug n).
Proof.
  generalize (usize_digits n). generalize (usize_debug n) as s. induction s as [|c s IH]; cbn; [intros _ []|].
  intros [D1 D2] [<-|O]; [revert D1; nodigit|exact (IH D2 O)].
Qed.
Lemma usize_no_brace n r : usize_debug n <> String "}"%char r.
Proof. intros H. pose proof (usize_digits n) as D. rewrite H in D. destruct D as [D _]. revert D; nodigit. Qed.
Theorem c83_integers : forall E (a b : counter nat) t, ct_valid Nat.eqb E a -> ct_valid Nat.eqb E b ->
  ct_debug usize_debug a t -> (ct_debug usize_debug b t <-> ct_eq Nat.eqb a b = true).
Proof.
  intros E a b t Va Vb H.
  assert (L : eq_laws Nat.eqb) by (constructor; intros; rewrite ?Nat.eqb_eq in *; congruence).
  split.
  - intros H'. apply (c83_same_text_same_counter (dbg := usize_debug) (t := t) L Va Vb); auto.
    + apply usize_no_colon.
    + apply usize_no_brace.
    + intros k k' Q. apply Nat.eqb_eq. now apply usize_inj.
  - intros Q. apply (c83_same_counter_same_texts (a := a) L Va Vb); auto. intros k k' X. apply Nat.eqb_eq in X. now subst.
Qed.
Print Assumptions c83_integers.

Example c83_ex :
  ct_valid Nat.eqb Ec (Counter [(7, 2); (12, 1)]) /\
  ct_debug usize_debug (Counter [(7, 2); (12, 1)]) "Counter { counter: {7: 2, 12: 1} }" /\
  ct_debug usize_debug (Counter [(7, 2); (12, 1)]) "Counter { counter: {12: 1, 7: 2} }" /\
  ct_debug usize_debug (ct_new nat) "Counter { counter: {} }" /\
  ~ ct_debug usize_debug (Counter [(7, 2); (12, 1)]) "Counter { counter: {7: 2, 12: 3} }".
Proof.
  assert (V : ct_valid Nat.eqb Ec (Counter [(7, 2); (12, 1)])).
  { split; [split; repeat constructor|]; apply Nat.leb_le; reflexivity. }
  assert (V' : ct_valid Nat.eqb Ec (Counter [(7, 2); (12, 3)])).
  { split; [split; repeat constructor|]; apply Nat.leb_le; reflexivity. }
  split; [exact V|]. split; [exists [(7, 2); (12, 1)]; split; [apply Permutation_refl|reflexivity]|].
  split; [exists [(12, 1); (7, 2)]; split; [apply perm_swap|reflexivity]|].
  split; [exists []; split; [apply Permutation_refl|reflexivity]|].
  intros H. apply (c83_integers (a := Counter [(7, 2); (12, 3)]) V' V) in H; [discriminate|].
  exists [(7, 2); (12, 3)]; split; [apply Permutation_refl|reflexivity].
Qed.

(** ** C84 *)
Section Alike.
Variable K : Type.
Variable eqb : K -> K -> bool.
Hypothesis L : eq_laws eqb.
Variable E : machine.

(** states with the same lookups and the same forest *)
Definition alike (s t : dset K) : Prop :=
  (forall x, hm_get eqb x (ds_ids t) = hm_get eqb x (ds_ids s)) /\ length (ds_ids t) = length (ds_ids s) /\ ds_data t = ds_data s.

Lemma alike_make x s t : alike s t ->
  snd (ds_make_or_get eqb E x t) = snd (ds_make_or_get eqb E x s) /\
  alike (fst (ds_make_or_get eqb E x s)) (fst (ds_make_or_get eqb E x t)).
Proof.
  intros C. pose proof C as (G & Ln & D).
  unfold ds_make_or_get, hm_entry. rewrite G, Ln, D.
  destruct (hm_get eqb x (ds_ids s)) as [i|]; simpl; auto.
  unfold hm_reserve. rewrite Ln. destruct (length (ds_ids s) + 1 <=? alloc_max E)%nat; simpl; auto.
  assert (X : forall v, alike (DSet (hm_insert_vacant x (length (ds_ids s)) (ds_ids s)) v)
                (DSet (hm_insert_vacant x (length (ds_ids s)) (ds_ids t)) v)).
  { intros v. split; [|simpl; auto]. intros y. cbn [ds_ids]. unfold hm_insert_vacant, hm_get in *. simpl.
    destruct (eqb y x); auto. }
  destruct (vec_push E (ds_data s) (data_new (length (ds_ids s)))); simpl; auto.
Qed.
Lemma alike_find i s t : alike s t ->
  snd (ds_find_in i t) = snd (ds_find_in i s) /\ alike (fst (ds_find_in i s)) (fst (ds_find_in i t)).
Proof.
  intros (G & Ln & D). unfold ds_find_in. rewrite D. destruct (ds_find _ (ds_data s) i); simpl.
  split; auto. split; auto.
Qed.
Lemma alike_union a b s t : alike s t ->
  snd (ds_union eqb E a b t) = snd (ds_union eqb E a b s) /\
  alike (fst (ds_union eqb E a b s)) (fst (ds_union eqb E a b t)).
Proof.
  intros C. unfold ds_union.
  destruct (alike_make a C) as [O1 C1].
  destruct (ds_make_or_get eqb E a s) as [s1 o1]. destruct (ds_make_or_get eqb E a t) as [t1 p1].
  simpl in *. subst p1. destruct o1 as [ia| | | |]; simpl; auto.
  destruct (alike_make b C1) as [O2 C2].
  destruct (ds_make_or_get eqb E b s1) as [s2 o2]. destruct (ds_make_or_get eqb E b t1) as [t2 p2].
  simpl in *. subst p2. destruct o2 as [ib| | | |]; simpl; auto.
  destruct (alike_find ia C2) as [O3 C3].
  destruct (ds_find_in ia s2) as [s3 o3]. destruct (ds_find_in ia t2) as [t3 p3].
  simpl in *. subst p3. destruct o3 as [ra| | | |]; simpl; auto.
  destruct (alike_find ib C3) as [O4 C4].
  destruct (ds_find_in ib s3) as [s4 o4]. destruct (ds_find_in ib t3) as [t4 p4].
  simpl in *. subst p4. destruct o4 as [rb| | | |]; simpl; auto.
  destruct (ra =? rb)%nat; simpl; auto. pose proof C4 as (G4 & L4 & D4). rewrite D4.
  destruct (ds_link E (ds_data s4) ra rb); simpl. split; auto. split; auto.
Qed.
Lemma alike_makes xs s t : alike s t ->
  snd (for_each (ds_make_set eqb E) xs t) = snd (for_each (ds_make_set eqb E) xs s) /\
  alike (fst (for_each (ds_make_set eqb E) xs s)) (fst (for_each (ds_make_set eqb E) xs t)).
Proof.
  revert s t. induction xs as [|x xs IH]; intros s t C; simpl; auto.
  unfold ds_make_set at 1 3 5 7. destruct (alike_make x C) as (O1 & C1).
  destruct (ds_make_or_get eqb E x s) as [s1 o1]. destruct (ds_make_or_get eqb E x t) as [t1 p1].
  simpl in *. subst p1. destruct o1 as [i| | | |]; simpl; auto.
Qed.
Lemma alike_reserve n s t : alike s t -> snd (ds_reserve E n t) = snd (ds_reserve E n s).
Proof. intros (_ & Ln & D). unfold ds_reserve, vec_reserve, hm_reserve; simpl. now rewrite Ln, D. Qed.
Lemma alike_extend h xs s t : alike s t ->
  snd (ds_extend eqb E h xs t) = snd (ds_extend eqb E h xs s) /\
  alike (fst (ds_extend eqb E h xs s)) (fst (ds_extend eqb E h xs t)).
Proof.
  intros C. unfold ds_extend. pose proof (alike_reserve h C) as R.
  assert (X : forall q : dset K, fst (ds_reserve E h q) = q) by reflexivity.
  pose proof (X s) as Xs. pose proof (X t) as Xt. clear X.
  destruct (ds_reserve E h s) as [s1 o]. destruct (ds_reserve E h t) as [t1 o']. simpl in *. subst.
  destruct o as [[]| | | |]; simpl; auto. now apply alike_makes.
Qed.
Lemma alike_step o s t : alike s t -> (forall p q, o <> OIter p q) ->
  snd (ds_step eqb E o t) = snd (ds_step eqb E o s) /\
  alike (fst (ds_step eqb E o s)) (fst (ds_step eqb E o t)).
Proof.
  intros C N. pose proof C as (G & Ln & _).
  destruct o; cbn [ds_step]; unfold unit_out; cbn [fst snd].
  - unfold ds_make_set. destruct (alike_make x C) as (O1 & C1).
    destruct (ds_make_or_get eqb E x s), (ds_make_or_get eqb E x t). simpl in *. subst. auto.
  - destruct (alike_union a b C) as [A B]. rewrite A. auto.
  - destruct (alike_extend hint xs C) as [A B]. rewrite A. auto.
  - unfold ds_extend_ref. rewrite !map_id. destruct (alike_extend hint xs C) as [A B].
    unfold ds_extend in A, B. rewrite A. auto.
  - split; auto. split; auto.
  - rewrite (alike_reserve n C). auto.
  - split; auto. unfold ds_contains, hm_contains. now rewrite G.
  - unfold ds_in_union. rewrite !G.
    destruct (hm_get eqb a (ds_ids s)) as [ia|]; simpl; auto.
    destruct (hm_get eqb b (ds_ids s)) as [ib|]; simpl; auto.
    destruct (alike_find ia C) as [O3 C3].
    destruct (ds_find_in ia s) as [s3 o3]. destruct (ds_find_in ia t) as [t3 p3].
    simpl in *. subst p3. destruct o3 as [ra| | | |]; simpl; auto.
    destruct (alike_find ib C3) as [O4 C4].
    destruct (ds_find_in ib s3) as [s4 o4]. destruct (ds_find_in ib t3) as [t4 p4].
    simpl in *. subst p4. destruct o4 as [rb| | | |]; simpl; auto.
  - unfold ds_is_empty. rewrite Ln. auto.
  - unfold ds_len. rewrite Ln. auto.
  - destruct (N order pick eq_refl).
Qed.
Lemma alike_run (ops : list (op K)) s t : alike s t -> (forall p q, ~ In (OIter p q) ops) ->
  snd (ds_run eqb E ops t) = snd (ds_run eqb E ops s).
Proof.
  revert s t. induction ops as [|o ops IH]; intros s t C N; simpl; auto.
  destruct (@alike_step o s t C) as [A B]; [intros p q ->; apply (N p q); simpl; auto|].
  destruct (ds_step eqb E o s) as [s1 r1], (ds_step eqb E o t) as [t1 r1']. simpl in *. subst r1'.
  specialize (IH s1 t1 B). destruct (ds_run eqb E ops s1), (ds_run eqb E ops t1). simpl in *.
  f_equal. apply IH. intros p q X. apply (N p q). auto.
Qed.

Lemma text_alike (dbg : K -> string) s t x :
  (forall k, ~ occurs ":"%char (dbg k)) -> (forall k r, dbg k <> String "}"%char r) ->
  (forall k k', dbg k = dbg k' -> eqb k k' = true) ->
  hm_wf eqb (ds_ids s) -> hm_wf eqb (ds_ids t) -> ds_debug dbg s x -> ds_debug dbg t x -> alike s t.
Proof.
  intros Hc Hb Hi Ws Wt (l & P & ->) (l' & P' & H). apply cancel in H.
  destruct (map_inj Hc Hb H) as [F H2]. apply (cancel ", data_by_id: ") in H2. apply vec_inj in H2. destruct H2 as [D _].
  split; [|split; auto].
  - intros y. rewrite <- (iterates_get L Ws P), <- (iterates_get L Wt P'). apply (related_get L). exact (texts_related _ _ Hi F).
  - rewrite (Permutation_length P), (Permutation_length P'). symmetry. clear -F. induction F; simpl; auto.
Qed.
End Alike.

(** two disjoint sets that print the same answer every further history of calls
    (iteration aside) in the same way *)
Theorem c84_same_text_same_answers : forall K (eqb : K -> K -> bool) cl E (dbg : K -> string) s t x ops,
  eq_laws eqb -> ranks_fit E -> (forall k, eqb (cl k) k = true) -> reachable eqb E cl s -> reachable eqb E cl t ->
  (forall k, ~ occurs ":"%char (dbg k)) -> (forall k r, dbg k <> String "}"%char r) ->
  (forall k k', dbg k = dbg k' -> eqb k k' = true) ->
  ds_debug dbg s x -> ds_debug dbg t x -> (forall p q, ~ In (OIter p q) ops) ->
  snd (ds_run eqb E ops t) = snd (ds_run eqb E ops s).
Proof.
  intros K eqb cl E dbg s t x ops L U CL Rs Rt Hc Hb Hi Ds Dt N.
  destruct (reachable_valid L U CL Rs) as [(Ws & _) _]. destruct (reachable_valid L U CL Rt) as [(Wt & _) _].
  apply alike_run; auto. exact (text_alike L Hc Hb Hi Ws Wt Ds Dt).
Qed.
Print Assumptions c84_same_text_same_answers.

(** a clone prints as its original, if cloned elements do *)
Theorem c84_clone_prints_alike : forall K (dbg : K -> string) cl s x,
  (forall k, dbg (cl k) = dbg k) -> (ds_debug dbg s x -> ds_debug dbg (ds_clone cl s) x).
Proof.
  intros K dbg cl s x Hd (l & P & ->). exists (map (fun p => (cl (fst p), snd p)) l). split.
  - cbn. apply Permutation_map. exact P.
  - assert (M : hm_debug dbg (map (fun p => (cl (fst p), snd p)) l) = hm_debug dbg l).
    { unfold hm_debug. rewrite map_map. do 2 f_equal. f_equal. apply map_ext. intros p. cbn [fst snd]. now rewrite Hd. }
    now rewrite M.
Qed.
Print Assumptions c84_clone_prints_alike.

(** The converse fails: a query shortens paths, and the text shows the paths.
    After joining 1-2, 3-4 and 1-3, asking for 4 and 2 changes every text, though
    the answers before and after are the same (C54). *)
Theorem c84_query_keeps_text_refuted : exists (s : dset nat) (q : op nat), reachable Nat.eqb Ed (fun k => k) s /\
  is_query q = true /\ snd (ds_step Nat.eqb Ed q s) = Ret (RBool true) /\
  forall x, ds_debug usize_debug s x -> ~ ds_debug usize_debug (fst (ds_step Nat.eqb Ed q s)) x.
Proof.
  assert (L : eq_laws Nat.eqb) by (constructor; intros; rewrite ?Nat.eqb_eq in *; congruence).
  set (s := fst (ds_run Nat.eqb Ed [OUnion 1 2; OUnion 3 4; OUnion 1 3] (ds_new nat))).
  assert (R : reachable Nat.eqb Ed (fun k => k) s).
  { assert (R : forall ops s, reachable Nat.eqb Ed (fun k => k) s -> Forall (@op_ok nat) ops ->
      reachable Nat.eqb Ed (fun k => k) (fst (ds_run Nat.eqb Ed ops s))).
    { induction ops as [|o ops IH]; intros s0 R Ok; simpl; auto.
      inversion Ok as [|? ? O1 O2]; subst. destruct (ds_step Nat.eqb Ed o s0) as [s1 r] eqn:H.
      specialize (IH s1 (r_step _ R O1 H) O2). destruct (ds_run Nat.eqb Ed ops s1). exact IH. }
    apply R; [constructor|repeat constructor]. }
  exists s, (OInUnion 4 2). split; [exact R|]. split; [reflexivity|]. split; [reflexivity|].
  intros x H1 H2.
  destruct (reachable_valid L Ed_fit (fun k => Nat.eqb_refl k) R) as [(W & _) _].
  assert (A : alike Nat.eqb s (fst (ds_step Nat.eqb Ed (OInUnion 4 2) s))).
  { apply (text_alike L (dbg := usize_debug) (x := x)); auto.
    - apply usize_no_colon.
    - apply usize_no_brace.
    - intros k k' Q. apply Nat.eqb_eq. now apply usize_inj. }
  destruct A as (_ & _ & A). vm_compute in A. discriminate A.
Qed.
Print Assumptions c84_query_keeps_text_refuted.

Example c84_ex :
  let s := fst (ds_run Nat.eqb Ed [OUnion 1 2; OUnion 3 4; OUnion 1 3] (ds_new nat)) in
  ds_debug usize_debug s
    "DisjointSet { ids: {4: 3, 3: 2, 2: 1, 1: 0}, data_by_id: [Data { parent: 0, rank: 2 }, Data { parent: 0, rank: 0 }, Data { parent: 0, rank: 1 }, Data { parent: 2, rank: 0 }] }" /\
  ds_debug usize_debug (fst (ds_step Nat.eqb Ed (OInUnion 4 2) s))
    "DisjointSet { ids: {1: 0, 2: 1, 3: 2, 4: 3}, data_by_id: [Data { parent: 0, rank: 2 }, Data { parent: 0, rank: 0 }, Data { parent: 0, rank: 1 }, Data { parent: 0, rank: 0 }] }" /\
  ds_debug usize_debug (ds_new nat) "DisjointSet { ids: {}, data_by_id: [] }".
Proof.
  split; [|split].
  - exists [(4, 3); (3, 2); (2, 1); (1, 0)]. split; [apply Permutation_refl|reflexivity].
  - exists [(1, 0); (2, 1); (3, 2); (4, 3)]. split; [|reflexivity].
    exact (Permutation_rev [(4, 3); (3, 2); (2, 1); (1, 0)]).
  - exists []. split; [apply Permutation_refl|reflexivity].
Qed.
