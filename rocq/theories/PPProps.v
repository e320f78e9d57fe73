(** Property theorem C88: the two forms of the Debug output, exactly. *)
From Coq Require Import String Ascii Permutation NArith ZArith Lia DecimalString.
From Verif Require Import Base HMModel HMProofs IVModel IVModel2 IVSpec IVRun IVProofs CTModel CTSpec CTRun CTProps DSModel DSSpec DSRun DSProofs3 DSProofs4 DSProps DBModel DBProps PPModel TextSpec PPRun PPProofs.
From Verif Require Import IVProofs2 IVProofs3 IVProofs4.
From Verif Require IVProofs5 IVProps1 IVProps2 IVProps4.
Set Implicit Arguments.
Local Open Scope string_scope.

(** ** C88: the form on one line *)
Lemma commas_concat ts : commas ts = String.concat ", " ts.
Proof.
  induction ts as [|t [|u r] IH]; auto. change (commas (t :: u :: r)) with (t ++ ", " ++ commas (u :: r)). now rewrite IH.
Qed.

(** [{:?}] prints exactly the values' trees on one line *)
Theorem c88_intervals_on_one_line : forall T (dbg : T -> string) (i : interval T) l u,
  iv_debug dbg i = flat (iv_doc dbg i) /\ lower_debug dbg l = flat (lower_doc dbg l) /\
  upper_debug dbg u = flat (upper_doc dbg u).
Proof.
  intros T dbg i l u.
  assert (B : forall b, bound_debug dbg b = flat (bound_doc dbg (bval b) (bclosed b))).
  { intros b. unfold bound_debug, bound_doc. cbn. rewrite !app_assoc_s. reflexivity. }
  assert (Lo : forall l, lower_debug dbg l = flat (lower_doc dbg l)).
  { intros x. unfold lower_debug, lower_doc. rewrite B. cbn [flat map String.concat]. rewrite !app_assoc_s. reflexivity. }
  assert (Up : forall l, upper_debug dbg l = flat (upper_doc dbg l)).
  { intros x. unfold upper_debug, upper_doc. rewrite B. cbn [flat map String.concat]. rewrite !app_assoc_s. reflexivity. }
  split; auto. unfold iv_debug, iv_doc. destruct (imp i) as [a|]; [|reflexivity].
  unfold nonempty_debug. rewrite Lo, Up. cbn [flat map String.concat]. rewrite !app_assoc_s. reflexivity.
Qed.
Print Assumptions c88_intervals_on_one_line.

Lemma map_flat T (dbg : T -> string) l : hm_debug dbg l = flat (map_doc dbg l).
Proof.
  unfold hm_debug, map_doc. rewrite commas_concat. cbn [flat]. rewrite map_map. reflexivity.
Qed.

Theorem c88_maps_on_one_line : forall T (dbg : T -> string) (c : counter T) (s : dset T) t,
  (ct_debug dbg c t <-> exists l, Permutation l (ct_map c) /\ t = flat (ct_doc dbg l)) /\
  (ds_debug dbg s t <-> exists l, Permutation l (ds_ids s) /\ t = flat (ds_doc dbg l (ds_data s))).
Proof.
  intros T dbg c s t.
  assert (C : forall l, "Counter { counter: " ++ hm_debug dbg l ++ " }" = flat (ct_doc dbg l)).
  { intros l. rewrite map_flat. unfold ct_doc. cbn [flat map String.concat]. rewrite !app_assoc_s. reflexivity. }
  assert (V : vec_debug data_debug (ds_data s) = flat (Array (map data_doc (ds_data s)))).
  { unfold vec_debug. rewrite commas_concat. cbn [flat]. rewrite map_map. do 3 f_equal. apply map_ext. intros d.
    unfold data_debug. cbn. rewrite !app_assoc_s. reflexivity. }
  assert (D : forall l, "DisjointSet { ids: " ++ hm_debug dbg l ++ ", data_by_id: " ++ vec_debug data_debug (ds_data s) ++ " }"
    = flat (ds_doc dbg l (ds_data s))).
  { intros l. rewrite map_flat, V. unfold ds_doc. cbn [flat map String.concat]. rewrite !app_assoc_s. reflexivity. }
  unfold ct_debug, ds_debug, iterates. split; split; intros (l & P & H); exists l; (split; [now apply Permutation_sym|congruence]).
Qed.
Print Assumptions c88_maps_on_one_line.

(** ** The form on several lines *)
Lemma atom_page t : page (lines (Atom t)) = t.
Proof. apply page_rows. Qed.
Ltac single := cbn; repeat split; discriminate.

Section Pretty.
Variable T : Type.
Variable dbg : T -> string.

Lemma bound_lines b : bound_pp dbg b = page (lines (bound_doc dbg (bval b) (bclosed b))) /\
  good (lines (bound_doc dbg (bval b) (bclosed b))).
Proof.
  unfold bound_doc. match goal with |- _ = page (lines (Record ?n ?f)) /\ _ => destruct (@struct_lines n f) as [<- G] end.
  - single.
  - discriminate.
  - repeat constructor; try single; try apply rows_good; cbn; try (apply rows_good).
  - split; auto. cbn [map fst snd]. rewrite !atom_page. reflexivity.
Qed.
Lemma lower_lines l : lower_pp dbg l = page (lines (lower_doc dbg l)) /\ good (lines (lower_doc dbg l)).
Proof.
  unfold lower_doc. destruct (bound_lines (lbound l)) as [A B].
  match goal with |- _ = page (lines (Record ?n ?f)) /\ _ => destruct (@struct_lines n f) as [<- G] end.
  - single.
  - discriminate.
  - constructor; [split; [single|exact B]|constructor].
  - split; auto. cbn [map fst snd]. unfold lower_pp. rewrite A. reflexivity.
Qed.
Lemma upper_lines u : upper_pp dbg u = page (lines (upper_doc dbg u)) /\ good (lines (upper_doc dbg u)).
Proof.
  unfold upper_doc. destruct (bound_lines (ubound u)) as [A B].
  match goal with |- _ = page (lines (Record ?n ?f)) /\ _ => destruct (@struct_lines n f) as [<- G] end.
  - single.
  - discriminate.
  - constructor; [split; [single|exact B]|constructor].
  - split; auto. cbn [map fst snd]. unfold upper_pp. rewrite A. reflexivity.
Qed.
Lemma iv_lines i : iv_pp dbg i = page (lines (iv_doc dbg i)) /\ good (lines (iv_doc dbg i)).
Proof.
  unfold iv_doc, iv_pp. destruct (imp i) as [a|].
  - destruct (lower_lines (lo a)) as [A1 B1]. destruct (upper_lines (up a)) as [A2 B2].
    set (n := Record "NonEmptyInterval" [("lo", lower_doc dbg (lo a)); ("up", upper_doc dbg (up a))]).
    assert (N : nonempty_pp dbg a = page (lines n) /\ good (lines n)).
    { unfold n. match goal with |- _ = page (lines (Record ?n ?f)) /\ _ => destruct (@struct_lines n f) as [<- G] end.
      - single.
      - discriminate.
      - constructor; [split; [single|exact B1]|constructor; [split; [single|exact B2]|constructor]].
      - split; auto. cbn [map fst snd]. unfold nonempty_pp. rewrite A1, A2. reflexivity. }
    destruct N as [N1 N2]. destruct (@tuple_lines "Some" n) as [S1 S2]; [single|exact N2|].
    match goal with |- _ = page (lines (Record ?n ?f)) /\ _ => destruct (@struct_lines n f) as [<- G] end.
    + single.
    + discriminate.
    + constructor; [split; [single|exact S2]|constructor].
    + split; auto. cbn [map fst snd]. rewrite N1, S1. reflexivity.
  - match goal with |- _ = page (lines (Record ?n ?f)) /\ _ => destruct (@struct_lines n f) as [<- G] end.
    + single.
    + discriminate.
    + constructor; [split; [single|apply rows_good]|constructor].
    + split; auto.
Qed.
Lemma map_lines l : hm_pp dbg l = page (lines (map_doc dbg l)) /\ good (lines (map_doc dbg l)).
Proof.
  unfold map_doc. destruct (@dict_lines _ (fun e : T * nat => Atom (dbg (fst e))) (fun e => number (snd e)) l) as [<- G].
  - intros x. apply rows_good.
  - intros x. apply rows_good.
  - split; auto. unfold hm_pp. do 3 f_equal. apply map_ext. intros e. unfold number. rewrite !atom_page. reflexivity.
Qed.
Lemma data_lines d : data_pp d = page (lines (data_doc d)) /\ good (lines (data_doc d)).
Proof.
  unfold data_doc. match goal with |- _ = page (lines (Record ?n ?f)) /\ _ => destruct (@struct_lines n f) as [<- G] end.
  - single.
  - discriminate.
  - repeat constructor; try single; try apply rows_good; cbn; try (apply rows_good).
  - split; auto. cbn [map fst snd]. unfold number, number_N. rewrite !atom_page. reflexivity.
Qed.
Lemma ct_lines l : struct_pp "Counter" [("counter", hm_pp dbg l)] = page (lines (ct_doc dbg l)) /\ good (lines (ct_doc dbg l)).
Proof.
  unfold ct_doc. destruct (map_lines l) as [A B].
  match goal with |- _ = page (lines (Record ?n ?f)) /\ _ => destruct (@struct_lines n f) as [<- G] end.
  - single.
  - discriminate.
  - constructor; [split; [single|exact B]|constructor].
  - split; auto. cbn [map fst snd]. rewrite A. reflexivity.
Qed.
Lemma ds_lines l v : struct_pp "DisjointSet" [("ids", hm_pp dbg l); ("data_by_id", vec_pp data_pp v)]
    = page (lines (ds_doc dbg l v)) /\ good (lines (ds_doc dbg l v)).
Proof.
  unfold ds_doc. destruct (map_lines l) as [A B].
  destruct (@vec_lines _ data_doc v) as [C D]; [intros d; apply data_lines|].
  match goal with |- _ = page (lines (Record ?n ?f)) /\ _ => destruct (@struct_lines n f) as [<- G] end.
  - single.
  - discriminate.
  - constructor; [split; [single|exact B]|constructor; [split; [single|exact D]|constructor]].
  - split; auto. cbn [map fst snd]. rewrite A, <- C.
    replace (vec_pp data_pp v) with (vec_pp (fun d => page (lines (data_doc d))) v); [reflexivity|].
    unfold vec_pp. do 3 f_equal. apply map_ext. intros d. symmetry. apply data_lines.
Qed.
End Pretty.

(** [{:#?}] prints exactly the values' trees with one item per line, whatever the
    elements print, line breaks included *)
Theorem c88_intervals_on_several_lines : forall T (dbg : T -> string) (i : interval T) l u,
  iv_pp dbg i = page (lines (iv_doc dbg i)) /\ lower_pp dbg l = page (lines (lower_doc dbg l)) /\
  upper_pp dbg u = page (lines (upper_doc dbg u)).
Proof. intros. split; [apply iv_lines|]. split; [apply lower_lines|apply upper_lines]. Qed.
Print Assumptions c88_intervals_on_several_lines.

Theorem c88_maps_on_several_lines : forall T (dbg : T -> string) (c : counter T) (s : dset T) t,
  (ct_pp dbg c t <-> exists l, Permutation l (ct_map c) /\ t = page (lines (ct_doc dbg l))) /\
  (ds_pp dbg s t <-> exists l, Permutation l (ds_ids s) /\ t = page (lines (ds_doc dbg l (ds_data s)))).
Proof.
  intros T dbg c s t. unfold ct_pp, ds_pp, iterates.
  split; split; intros (l & P & H); exists l; (split; [now apply Permutation_sym|]).
  - now rewrite <- (proj1 (ct_lines dbg l)).
  - now rewrite (proj1 (ct_lines dbg l)).
  - now rewrite <- (proj1 (ds_lines dbg l (ds_data s))).
  - now rewrite (proj1 (ds_lines dbg l (ds_data s))).
Qed.
Print Assumptions c88_maps_on_several_lines.

(** ** Reading the texts back *)
Lemma number_line n : one_line (usize_debug n).
Proof. apply digits_line, usize_digits. Qed.
Lemma number_N_line n : one_line (u32_debug n).
Proof. apply digits_line, u32_digits. Qed.

(** the lines of an entry *)
Lemma entry_lines T (dbg : T -> string) (e : T * nat) : one_line (dbg (fst e)) ->
  item (glue (glue (lines (Atom (dbg (fst e)))) [": "]) (lines (number (snd e)))) =
    ["    " ++ dbg (fst e) ++ ": " ++ usize_debug (snd e) ++ ","].
Proof.
  intros H. unfold number. cbn [lines]. rewrite (rows_one _ H). change (NilZero.string_of_uint (Nat.to_uint (snd e))) with (usize_debug (snd e)).
  rewrite (rows_one _ (number_line (snd e))). cbn. rewrite !app_assoc_s. reflexivity.
Qed.

Lemma glue_last a x y : glue (a ++ [x])%list [y] = (a ++ [(x ++ y)%string])%list.
Proof.
  induction a as [|l [|m r] IH]; [reflexivity|reflexivity|].
  change ((l :: m :: r) ++ [x])%list with (l :: m :: (r ++ [x]))%list. rewrite glue_cons.
  change (m :: r ++ [x])%list with ((m :: r) ++ [x])%list. rewrite IH. reflexivity.
Qed.
Lemma item_box p a X b : item (glue [p] (a :: X ++ [b])%list) =
  (("    " ++ p ++ a)%string :: map (append "    ") X ++ [("    " ++ b ++ ",")%string])%list.
Proof.
  unfold item. change (glue [p] (a :: X ++ [b])%list) with (((p ++ a)%string :: X) ++ [b])%list.
  rewrite glue_last, map_app. reflexivity.
Qed.

Section Read.
Variable T : Type.
Variable dbg : T -> string.
Hypothesis Hl : forall x, one_line (dbg x).

Definition entry_line (e : T * nat) : string := "        " ++ dbg (fst e) ++ ": " ++ usize_debug (snd e) ++ ",".

(** a map inside a record *)
Lemma map_item name l : item (glue [name] (lines (map_doc dbg l))) =
  match l with
  | [] => ["    " ++ name ++ "{},"]
  | _ => (("    " ++ name ++ "{")%string :: map entry_line l ++ ["    },"])%list
  end.
Proof.
  unfold map_doc. cbn [lines]. rewrite map_map. destruct l as [|e l].
  { cbn. rewrite !app_assoc_s. reflexivity. }
  cbn [map enclosed]. rewrite item_box. do 2 f_equal.
  change (map (append "    ") (concat (map item (map
     (fun x : T * nat => glue (glue (lines (Atom (dbg (fst x)))) [": "]) (lines (number (snd x)))) (e :: l)))) = map entry_line (e :: l)).
  generalize (e :: l)%list as q. clear e l. induction q as [|e q IH]; [reflexivity|].
  cbn [map concat]. rewrite map_app, IH, entry_lines by auto. reflexivity.
Qed.

Definition data_lines4 (d : data) : list string :=
  ["        Data {"; "            parent: " ++ usize_debug (parent d) ++ ","; "            rank: " ++ u32_debug (rank d) ++ ","; "        },"].
Lemma array_item name v : item (glue [name] (lines (Array (map data_doc v)))) =
  match v with
  | [] => ["    " ++ name ++ "[],"]
  | _ => (("    " ++ name ++ "[")%string :: concat (map data_lines4 v) ++ ["    ],"])%list
  end.
Proof.
  cbn [lines]. rewrite map_map. destruct v as [|d v].
  { cbn. rewrite !app_assoc_s. reflexivity. }
  cbn [map enclosed]. rewrite item_box. do 2 f_equal.
  change (map (append "    ") (concat (map item (map (fun x => lines (data_doc x)) (d :: v)))) = concat (map data_lines4 (d :: v))).
  generalize (d :: v)%list as q. clear d v. induction q as [|d q IH]; [reflexivity|].
  cbn [map concat]. rewrite map_app, IH. f_equal.
  unfold data_doc, number, number_N.
  change (NilZero.string_of_uint (Nat.to_uint (parent d))) with (usize_debug (parent d)).
  change (NilZero.string_of_uint (N.to_uint (rank d))) with (u32_debug (rank d)).
  cbn [lines map]. rewrite (rows_one _ (number_line _)), (rows_one _ (number_N_line _)).
  cbn. rewrite ?app_assoc_s. reflexivity.
Qed.

Lemma ct_doc_lines l : lines (ct_doc dbg l) = ("Counter {" :: item (glue ["counter: "] (lines (map_doc dbg l))) ++ ["}"])%list.
Proof. unfold ct_doc. cbn [lines map enclosed concat]. rewrite app_nil_r. reflexivity. Qed.
Lemma ds_doc_lines l v : lines (ds_doc dbg l v) = ("DisjointSet {" :: item (glue ["ids: "] (lines (map_doc dbg l))) ++
   item (glue ["data_by_id: "] (lines (Array (map data_doc v)))) ++ ["}"])%list.
Proof. unfold ds_doc. cbn [lines map enclosed concat]. rewrite app_nil_r, <- app_assoc. reflexivity. Qed.

(** the last colon is found from the right *)
Lemma cut_right c s t s' t' : ~ occurs c t -> ~ occurs c t' -> s ++ String c t = s' ++ String c t' -> s = s' /\ t = t'.
Proof.
  assert (O : forall s t, occurs c (s ++ String c t)).
  { induction s0; cbn; auto. }
  intros N N'. revert s'. induction s as [|x s IH]; intros [|x' s'] H; cbn in H.
  - injection H as ->. auto.
  - injection H as _ H. subst t. exfalso. apply N, O.
  - injection H as _ H. subst t'. exfalso. apply N', O.
  - injection H as -> H. destruct (IH s' H) as [-> ->]. auto.
Qed.
Lemma entry_line_inj e e' : entry_line e = entry_line e' -> dbg (fst e) = dbg (fst e') /\ snd e = snd e'.
Proof.
  unfold entry_line. intros H. apply cancel_l in H.
  rewrite <- !(app_assoc_s (dbg _)), <- !(app_assoc_s (dbg _ ++ _)) in H. apply cancel_r in H. rewrite !app_assoc_s in H.
  cbn [append] in H. apply cut_right in H.
  - destruct H as [A B]. injection B as B. split; auto. now apply usize_inj.
  - cbn. intros [X|X]; [discriminate|exact (usize_no_colon _ X)].
  - cbn. intros [X|X]; [discriminate|exact (usize_no_colon _ X)].
Qed.
Lemma entries_split l l' z zs zs' : (forall e, entry_line e <> z) ->
  (map entry_line l ++ z :: zs = map entry_line l' ++ z :: zs')%list ->
  Forall2 (fun a b => dbg (fst a) = dbg (fst b) /\ snd a = snd b) l l' /\ zs = zs'.
Proof.
  intros Z. revert l'. induction l as [|e l IH]; intros [|e' l'] H; cbn [map app] in H.
  - injection H as ->. auto.
  - injection H as H _. exfalso. exact (Z e' (eq_sym H)).
  - injection H as H _. exfalso. exact (Z e H).
  - pose proof (f_equal (hd "") H) as H1. pose proof (f_equal (@tl string) H) as H2. cbn [hd tl] in H1, H2.
    destruct (IH _ H2) as [F ->]. apply entry_line_inj in H1. auto.
Qed.
Lemma entry_line_end e : entry_line e <> "    },".
Proof. discriminate. Qed.

Lemma ct_read l l' : page (lines (ct_doc dbg l)) = page (lines (ct_doc dbg l')) ->
  Forall2 (fun a b => dbg (fst a) = dbg (fst b) /\ snd a = snd b) l l'.
Proof.
  intros H. apply page_inj in H; [|apply ct_lines|apply ct_lines]. rewrite !ct_doc_lines, !map_item in H. injection H as H.
  destruct l as [|e l], l' as [|e' l']; auto; try (cbn in H; discriminate H).
  apply (f_equal (@tl string)) in H. cbn [tl] in H.
  change (map entry_line (e :: l)) with (map entry_line (e :: l)) in H.
  cbn [app tl] in H. rewrite <- !app_assoc in H. cbn [app] in H. apply entries_split in H; [tauto|apply entry_line_end].
Qed.
Lemma data_line_inj d d' : data_lines4 d = data_lines4 d' -> d = d'.
Proof.
  intros H. unfold data_lines4 in H.
  assert (A : "            parent: " ++ usize_debug (parent d) ++ "," = "            parent: " ++ usize_debug (parent d') ++ ",") by congruence.
  assert (B : "            rank: " ++ u32_debug (rank d) ++ "," = "            rank: " ++ u32_debug (rank d') ++ ",") by congruence.
  apply cancel_l, cancel_r, usize_inj in A. apply cancel_l, cancel_r, u32_inj in B. destruct d, d'; cbn in *; congruence.
Qed.
Lemma data_split v v' zs zs' :
  (concat (map data_lines4 v) ++ "    ]," :: zs = concat (map data_lines4 v') ++ "    ]," :: zs')%list -> v = v'.
Proof.
  revert v'. induction v as [|d v IH]; intros [|d' v'] H; cbn [map concat] in H; auto; try (cbn in H; discriminate H).
  rewrite <- !app_assoc in H.
  assert (E : data_lines4 d = data_lines4 d' /\ (concat (map data_lines4 v) ++ "    ]," :: zs = concat (map data_lines4 v') ++ "    ]," :: zs')%list).
  { split.
    - apply (f_equal (firstn 4)) in H. exact H.
    - apply (f_equal (skipn 4)) in H. exact H. }
  destruct E as [E1 E2]. apply data_line_inj in E1. apply IH in E2. congruence.
Qed.
Lemma ds_read l l' v v' : page (lines (ds_doc dbg l v)) = page (lines (ds_doc dbg l' v')) ->
  Forall2 (fun a b => dbg (fst a) = dbg (fst b) /\ snd a = snd b) l l' /\ v = v'.
Proof.
  intros H. apply page_inj in H; [|apply ds_lines|apply ds_lines]. rewrite !ds_doc_lines, !map_item in H. injection H as H.
  assert (D : forall X X', (item (glue ["data_by_id: "] (lines (Array (map data_doc v)))) ++ X =
     item (glue ["data_by_id: "] (lines (Array (map data_doc v')))) ++ X')%list -> v = v').
  { clear. intros X X' H. rewrite !array_item in H.
    destruct v as [|d v], v' as [|d' v']; auto; try (cbn in H; discriminate H).
    apply (f_equal (@tl string)) in H. cbn [app tl] in H. rewrite <- !app_assoc in H. exact (data_split _ _ _ _ H). }
  destruct l as [|e l], l' as [|e' l']; try (cbn in H; discriminate H).
  - apply (f_equal (@tl string)) in H. cbn [app tl] in H. split; auto. exact (D _ _ H).
  - apply (f_equal (@tl string)) in H. cbn [app tl] in H. rewrite <- !(app_assoc (map entry_line _)) in H. cbn [app] in H.
    apply entries_split in H; [|apply entry_line_end]. destruct H as [F H]. split; auto. exact (D _ _ H).
Qed.
End Read.

(** intervals that print the same in this form are equal; unlike on one line
    (C81) the elements' texts may hold commas *)
Theorem c88_intervals_faithful : forall T (cmp : T -> T -> comparison) (dbg : T -> string) a b,
  (forall x, one_line (dbg x)) -> (forall x y, dbg x = dbg y -> eqv cmp x y) ->
  iv_pp dbg a = iv_pp dbg b -> iv_eq cmp a b = true.
Proof.
  intros T cmp dbg a b Hl Hi H. rewrite !(proj1 (iv_lines dbg _)) in H.
  apply page_inj in H; [|apply iv_lines|apply iv_lines].
  apply IVProofs2.iv_eq_same.
  assert (R : forall b : bool, rows (if b then "true" else "false") = [if b then "true" else "false"]) by (intros []; reflexivity).
  destruct (ivt_eta a) as [->|(l & lc & u & uc & ->)], (ivt_eta b) as [->|(l' & lc' & u' & uc' & ->)]; [exact Logic.I| | |];
    unfold iv_doc, lower_doc, upper_doc, bound_doc in H; cbn [imp ivt lo up lines map lval uval lclosed uclosed bval bclosed lower_new upper_new lbound ubound iv_empty] in H;
    rewrite ?(rows_one _ (Hl _)), ?R in H; cbn in H; clear R; try discriminate H.
  assert (N : forall n (x y z : list string), x = y -> nth n x "" = nth n y "") by (intros; congruence).
  assert (Lv : dbg l = dbg l' /\ dbg u = dbg u').
  { split.
    - apply (N 5 _ _ []) in H. cbn [nth] in H. repeat (injection H as H). now apply cancel_r in H.
    - apply (N 11 _ _ []) in H. cbn [nth] in H. repeat (injection H as H). now apply cancel_r in H. }
  destruct Lv as [A B].
  assert (Cl : lc = lc' /\ uc = uc').
  { split.
    - apply (N 6 _ _ []) in H. cbn [nth] in H. destruct lc, lc'; auto; discriminate H.
    - apply (N 12 _ _ []) in H. cbn [nth] in H. destruct uc, uc'; auto; discriminate H. }
  destruct Cl as [-> ->]. cbn. auto.
Qed.
Print Assumptions c88_intervals_faithful.

(** counters that print the same are equal, whatever the orders of the two hash
    maps; unlike on one line (C83) the elements' texts may hold any character but
    line breaks *)
Theorem c88_counters_faithful : forall K (eqb : K -> K -> bool) E (dbg : K -> string) a b t,
  eq_laws eqb -> ct_valid eqb E a -> ct_valid eqb E b ->
  (forall k, one_line (dbg k)) -> (forall k k', dbg k = dbg k' -> eqb k k' = true) ->
  ct_pp dbg a t -> ct_pp dbg b t -> ct_eq eqb a b = true.
Proof.
  intros K eqb E dbg a b t L Va Vb Hl Hi (l & Pl & ->) (l' & Pl' & H).
  rewrite !(proj1 (ct_lines dbg _)) in H. apply ct_read in H; auto.
  apply (c50_equality_is_same_lookups _ _ E); auto. intros x.
  unfold ct_get. rewrite <- (iterates_get L (valid_wf Va) Pl), <- (iterates_get L (valid_wf Vb) Pl').
  symmetry. apply (related_get L). exact (texts_related _ _ Hi H).
Qed.
Print Assumptions c88_counters_faithful.

(** the texts of a counter in the two forms come from the same orders of its
    entries, so that equal counters have the same possible texts *)
Theorem c88_equal_counters_print_alike : forall K (eqb : K -> K -> bool) E (dbg : K -> string) a b t,
  eq_laws eqb -> ct_valid eqb E a -> ct_valid eqb E b ->
  (forall k k', eqb k k' = true -> dbg k = dbg k') ->
  ct_eq eqb a b = true -> ct_pp dbg a t -> ct_pp dbg b t.
Proof.
  intros K eqb E dbg a b t L Va Vb Hd Q (l & P & ->).
  destruct (same_orders L Va Vb Q P) as (l' & P' & F).
  exists l'. split; auto.
  enough (M : map (fun e => dbg (fst e) ++ ": " ++ usize_debug (snd e)) l = map (fun e => dbg (fst e) ++ ": " ++ usize_debug (snd e)) l').
  { unfold hm_pp. now rewrite M. }
  clear -F Hd. induction F as [|x y l l' [A B]]; cbn [map]; auto. now rewrite (Hd _ _ A), B, IHF.
Qed.
Print Assumptions c88_equal_counters_print_alike.

(** disjoint sets that print the same answer every further history of calls
    (iteration aside) in the same way *)
Theorem c88_sets_faithful : forall K (eqb : K -> K -> bool) cl E (dbg : K -> string) s t x ops,
  eq_laws eqb -> ranks_fit E -> (forall k, eqb (cl k) k = true) -> reachable eqb E cl s -> reachable eqb E cl t ->
  (forall k, one_line (dbg k)) -> (forall k k', dbg k = dbg k' -> eqb k k' = true) ->
  ds_pp dbg s x -> ds_pp dbg t x -> (forall p q, ~ In (OIter p q) ops) ->
  snd (ds_run eqb E ops t) = snd (ds_run eqb E ops s).
Proof.
  intros K eqb cl E dbg s t x ops L U CL Rs Rt Hl Hi (l & P & ->) (l' & P' & H) N.
  rewrite !(proj1 (ds_lines dbg _ _)) in H. apply ds_read in H; auto. destruct H as [F D].
  destruct (reachable_valid L U CL Rs) as [(Ws & _) _]. destruct (reachable_valid L U CL Rt) as [(Wt & _) _].
  apply alike_run; auto. split; [|split; auto].
  - intros y. rewrite <- (iterates_get L Ws P), <- (iterates_get L Wt P'). apply (related_get L). exact (texts_related _ _ Hi F).
  - rewrite (Permutation_length P), (Permutation_length P'). symmetry. clear -F. induction F; simpl; auto.
Qed.
Print Assumptions c88_sets_faithful.

(** how many lines a counter and a disjoint set take *)
Theorem c88_number_of_lines : forall T (dbg : T -> string) (c : counter T) (s : dset T) t,
  (forall x, one_line (dbg x)) ->
  (ct_pp dbg c t -> length (rows t) = if ct_is_empty c then 3 else 4 + ct_len c) /\
  (ds_pp dbg s t -> length (rows t) =
    2 + (if ds_is_empty s then 1 else 2 + ds_len s) + (if length (ds_data s) =? 0 then 1 else 2 + 4 * length (ds_data s)))%nat.
Proof.
  intros T dbg c s t Hl. split; intros (l & P & ->).
  - rewrite (proj1 (ct_lines dbg l)), rows_page by apply ct_lines. rewrite ct_doc_lines, map_item by auto.
    unfold ct_is_empty, ct_len. rewrite (Permutation_length P). destruct l as [|e l]; [reflexivity|].
    cbn [length Nat.eqb]. rewrite !app_length. cbn [length map app]. rewrite app_length, map_length. cbn. lia.
  - rewrite (proj1 (ds_lines dbg l _)), rows_page by apply ds_lines. rewrite ds_doc_lines, map_item, array_item by auto.
    unfold ds_is_empty, ds_len. rewrite (Permutation_length P).
    assert (C : forall v, length (concat (map data_lines4 v)) = 4 * length v).
    { induction v as [|d v IH]; [reflexivity|]. cbn [map concat]. rewrite app_length, IH. cbn [length data_lines4]. lia. }
    assert (A : length (match l with [] => ["    " ++ "ids: " ++ "{},"] | _ => (("    " ++ "ids: " ++ "{")%string :: map (entry_line dbg) l ++ ["    },"])%list end)
      = if (length l =? 0)%nat then 1 else 2 + length l).
    { destruct l as [|e l]; [reflexivity|]. cbn [length Nat.eqb]. rewrite app_length, map_length. cbn. lia. }
    assert (B : length (match ds_data s with [] => ["    " ++ "data_by_id: " ++ "[],"] | _ => (("    " ++ "data_by_id: " ++ "[")%string :: concat (map data_lines4 (ds_data s)) ++ ["    ],"])%list end)
      = if (length (ds_data s) =? 0)%nat then 1 else 2 + 4 * length (ds_data s)).
    { specialize (C (ds_data s)). destruct (ds_data s) as [|d v]; [reflexivity|]. cbn [length Nat.eqb] in *. rewrite app_length, C. cbn [length]. lia. }
    cbn [length]. rewrite !app_length. rewrite A, B. cbn [length]. lia.
Qed.
Print Assumptions c88_number_of_lines.

Example c88_ex :
  iv_pp IVProofs5.show_Z (IVProps1.zt (-3) true 12 false) = page
    ["Interval {"; "    imp: Some("; "        NonEmptyInterval {"; "            lo: LowerBound {";
     "                bound: Bound {"; "                    val: -3,"; "                    is_closed: true,";
     "                },"; "            },"; "            up: UpperBound {"; "                bound: Bound {";
     "                    val: 12,"; "                    is_closed: false,"; "                },"; "            },";
     "        },"; "    ),"; "}"] /\
  iv_pp IVProofs5.show_Z (iv_empty Z) = page ["Interval {"; "    imp: None,"; "}"] /\
  ct_pp usize_debug (Counter [(7, 2); (12, 1)]) (page ["Counter {"; "    counter: {"; "        12: 1,"; "        7: 2,"; "    },"; "}"]) /\
  ct_pp usize_debug (ct_new nat) (page ["Counter {"; "    counter: {},"; "}"]) /\
  (** an element that prints on two lines *)
  ct_pp (fun _ : nat => "(" ++ nl ++ ")") (Counter [(7, 2)])
    (page ["Counter {"; "    counter: {"; "        ("; "        ): 2,"; "    },"; "}"]) /\
  ds_pp usize_debug (DSet [(5, 0)] [data_new 0]) (page ["DisjointSet {"; "    ids: {"; "        5: 0,"; "    },";
    "    data_by_id: ["; "        Data {"; "            parent: 0,"; "            rank: 0,"; "        },"; "    ],"; "}"]) /\
  ds_pp usize_debug (ds_new nat) (page ["DisjointSet {"; "    ids: {},"; "    data_by_id: [],"; "}"]).
Proof.
  split; [reflexivity|]. split; [reflexivity|].
  split; [exists [(12, 1); (7, 2)]; split; [apply perm_swap|reflexivity]|].
  split; [exists []; split; [apply Permutation_refl|reflexivity]|].
  split; [exists [(7, 2)]; split; [apply Permutation_refl|reflexivity]|].
  split; [exists [(5, 0)]; split; [apply Permutation_refl|reflexivity]|].
  exists []; split; [apply Permutation_refl|reflexivity].
Qed.

(** an element whose text holds a comma and a colon *)
Definition odd_text (n : nat) : string := match n with 0 => "a" | 1 => "b" | 2 => "a: 1, b" | _ => usize_debug n end.

(** the conditions C83 puts on the elements' texts are needed: with other texts
    that tell the elements apart, different counters can print the same on one
    line, though they do not on several *)
Theorem c88_one_line_can_be_ambiguous : exists (dbg : nat -> string) a b t,
  ct_valid Nat.eqb Ec a /\ ct_valid Nat.eqb Ec b /\ ct_eq Nat.eqb a b = false /\
  (forall k, one_line (dbg k)) /\ (forall k k', dbg k = dbg k' -> k = k') /\
  ct_debug dbg a t /\ ct_debug dbg b t /\ (forall u, ct_pp dbg a u -> ~ ct_pp dbg b u).
Proof.
  exists odd_text, (Counter [(0, 1); (1, 1)]), (Counter [(2, 1)]), "Counter { counter: {a: 1, b: 1} }".
  split. { split; [split; repeat constructor|]; apply Nat.leb_le; reflexivity. }
  split. { split; [split; repeat constructor|]; apply Nat.leb_le; reflexivity. }
  split; [reflexivity|].
  assert (Hl : forall k, one_line (odd_text k)) by (intros [|[|[|k]]]; [single|single|single|apply number_line]).
  split; [exact Hl|].
  split.
  { assert (X : forall n c r, usize_debug n = String c r -> digit c).
    { intros n c r H. pose proof (usize_digits n) as D. rewrite H in D. apply D. }
    assert (A : ~ digit "a") by nodigit. assert (B : ~ digit "b") by nodigit.
    intros [|[|[|k]]] [|[|[|k']]] H; cbn [odd_text] in H; try reflexivity; try discriminate H;
      try (exfalso; symmetry in H; apply X in H; tauto); try (exfalso; apply X in H; tauto).
    now apply usize_inj. }
  split; [exists [(0, 1); (1, 1)]; split; [apply Permutation_refl|reflexivity]|].
  split; [exists [(2, 1)]; split; [apply Permutation_refl|reflexivity]|].
  intros u H1 H2. destruct (c88_number_of_lines odd_text (Counter [(0, 1); (1, 1)]) (ds_new nat) u Hl) as [A _].
  destruct (c88_number_of_lines odd_text (Counter [(2, 1)]) (ds_new nat) u Hl) as [B _].
  specialize (A H1). specialize (B H2). rewrite A in B. discriminate B.
Qed.
Print Assumptions c88_one_line_can_be_ambiguous.

Example c88_faithful_ex :
  eq_laws Nat.eqb /\ ct_valid Nat.eqb Ec (Counter [(7, 2); (12, 1)]) /\ ct_valid Nat.eqb Ec (Counter [(12, 1); (7, 2)]) /\
  (forall k, one_line (usize_debug k)) /\ (forall k k', usize_debug k = usize_debug k' -> Nat.eqb k k' = true) /\
  (exists t, ct_pp usize_debug (Counter [(7, 2); (12, 1)]) t /\ ct_pp usize_debug (Counter [(12, 1); (7, 2)]) t) /\
  (forall t, ct_pp usize_debug (Counter [(7, 2); (12, 1)]) t -> ~ ct_pp usize_debug (Counter [(7, 2); (12, 3)]) t).
Proof.
  assert (L : eq_laws Nat.eqb) by (constructor; intros; rewrite ?Nat.eqb_eq in *; congruence).
  assert (V : ct_valid Nat.eqb Ec (Counter [(7, 2); (12, 1)])) by (split; [split; repeat constructor|]; apply Nat.leb_le; reflexivity).
  assert (W : ct_valid Nat.eqb Ec (Counter [(7, 2); (12, 3)])) by (split; [split; repeat constructor|]; apply Nat.leb_le; reflexivity).
  assert (I : forall k k', usize_debug k = usize_debug k' -> Nat.eqb k k' = true) by (intros k k' H; apply Nat.eqb_eq; now apply usize_inj).
  split; auto. split; auto. split; [split; [split; repeat constructor|]; apply Nat.leb_le; reflexivity|].
  split; [exact number_line|]. split; auto. split.
  - eexists. split; exists [(7, 2); (12, 1)]; (split; [|reflexivity]); [apply Permutation_refl|apply perm_swap].
  - intros t A B. pose proof (c88_counters_faithful L V W number_line I A B) as Q. discriminate Q.
Qed.
