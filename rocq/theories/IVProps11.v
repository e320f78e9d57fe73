(** Property theorems C112: the ends of intervals are owned once, whatever the
    user's comparisons, clones and operators do. *)
From Coq Require Import Permutation Lia Arith.
From Verif Require Import Base OwnSpec OwnProofs IVSpec IVModel IVModel5 IVModel6 IVRun5 IVRun6 IVProofs7 IVProofs8.
Set Implicit Arguments.
Notation nt l lc u uc := (Interval (Some (NonEmpty (Lower (Bound l lc)) (Upper (Bound u uc))))).
Notation nil_iv := (Interval None).

(** ** Lemmas *)
Section Lemmas.
Variables T U : Type.
Variable us : user T U.
Notation thing := (thing T U).

Lemma asked_app (t t' : list (act T U)) : asked (t ++ t') = asked t ++ asked t'.
Proof. unfold asked. now rewrite flat_map_app. Qed.
Lemma asked_drops (vs : list thing) : asked (map Dropped vs) = [].
Proof. induction vs as [|v vs IH]; cbn; auto. Qed.
Lemma runs_then {S A B} (s : S) (d : query T A) (f : A -> dialog T S B) es u a : runs d es u (Some (Ret a)) ->
  forall es' s' e, runs (f a) es' s' e -> runs (then_ s d f) (es ++ es') s' e.
Proof.
  remember (Some (Ret a)) as r eqn:E. intros R. revert E. induction R; intros E es'' s'' e'' F; try discriminate E.
  - injection E as ->. exact F.
  - cbn. constructor. now apply IHR.
Qed.
Lemma runs_then_panic {S A B} (s : S) (d : query T A) (f : A -> dialog T S B) es u : runs d es u (Some Panic) ->
  runs (then_ s d f) es s (Some Panic).
Proof.
  remember (Some Panic) as r eqn:E. intros R. revert E. induction R; intros E; try discriminate E.
  - injection E as ->. constructor.
  - cbn. constructor. now apply IHR.
Qed.
Lemma runs_then_none {S A B} (s : S) (d : query T A) (f : A -> dialog T S B) es u : runs d es u None ->
  runs (then_ s d f) es s None.
Proof.
  remember None as r eqn:E. intros R. revert E. induction R; intros E; try discriminate E.
  - cbn. constructor. now apply IHR.
  - cbn. constructor.
Qed.
Lemma runs_then_other {S A B} (s : S) (d : query T A) (f : A -> dialog T S B) es u (o : outcome A) (o' : outcome B) : runs d es u (Some o) ->
  match o, o' with Abort, Abort | UB, UB | NoFuel, NoFuel => True | _, _ => False end ->
  runs (then_ s d f) es s (Some o').
Proof.
  remember (Some o) as r eqn:E. intros R. revert E. induction R; intros E H; try discriminate E.
  - injection E as ->. destruct o, o'; try contradiction; constructor.
  - cbn. constructor. now apply IHR.
Qed.
Lemma follows_seq {S A B} (s : S) (lost : list thing) (d : query T A) (m : call T U unit A) (g : A -> dialog T S B) (f : A -> call T U S B) :
  follows d m -> (forall a, follows (g a) (f a)) -> follows (then_ s d g) (seq s lost m f).
Proof.
  intros M F h. unfold seq, after. pose proof (M h) as Mh. destruct (m h) as [[t u] o]. destruct Mh as (e & R & ->).
  destruct e as [[a| | | |]|].
  - pose proof (F a (h ++ t)) as Fh. destruct (f a (h ++ t)) as [[t' s'] o']. destruct Fh as (e' & R' & ->).
    exists e'. split; [|reflexivity]. rewrite asked_app. eapply runs_then; eauto.
  - exists (Some Panic). split; [|reflexivity]. rewrite asked_app, asked_drops, app_nil_r. eapply runs_then_panic; eauto.
  - exists (Some Abort). split; [|reflexivity]. eapply runs_then_other; eauto; exact I.
  - exists (Some UB). split; [|reflexivity]. eapply runs_then_other; eauto; exact I.
  - exists (Some NoFuel). split; [|reflexivity]. eapply runs_then_other; eauto; exact I.
  - exists None. split; [|reflexivity]. rewrite asked_app, asked_drops, app_nil_r. eapply runs_then_none; eauto.
Qed.
Lemma follows_over {S A} (s : S) (o : outcome A) : follows (Done s o) (@over T U S A s o).
Proof. intros h. exists (Some o). split; [constructor|reflexivity]. Qed.
Lemma follows_ask k x y : follows (ask k x y) (ask_o us k x y).
Proof.
  intros h. unfold ask_o, happens. destruct (u_ask us h k x y) as [a|]; cbn.
  - exists (Some (Ret a)). split; [|reflexivity]. unfold ask. constructor. constructor.
  - exists None. split; [|reflexivity]. constructor.
Qed.
Lemma runs_ask {S A} (s : S) k x y (next : answer k -> dialog T S A) es s' e :
  runs (then_ s (ask k x y) next) es s' e -> runs (Ask s k x y next) es s' e.
Proof. auto. Qed.
Lemma follows_consult {S A} (d : dialog T S A) : follows d (consult us d).
Proof.
  induction d as [s o|s k x y next IH]; [apply follows_over|]. cbn [consult].
  change (follows (then_ s (ask k x y) next) (seq s [] (ask_o us k x y) (fun a => consult us (next a)))).
  apply follows_seq; [apply follows_ask|exact IH].
Qed.
Lemma follows_drops {S A} (s : S) (vs : list thing) (d : dialog T S A) (f : unit -> call T U S A) :
  follows d (f tt) -> follows d (seq s [] (drops vs) f).
Proof.
  intros F h. unfold seq, after, drops. pose proof (F (h ++ map Dropped vs)) as Fh.
  destruct (f tt (h ++ map Dropped vs)) as [[t' s'] o']. destruct Fh as (e & R & E). exists e. split; [|exact E].
  now rewrite asked_app, asked_drops.
Qed.
Lemma follows_panics {A} (vs : list thing) : follows (Done tt Panic : query T A) (panics vs).
Proof. intros h. exists (Some Panic). split; [|reflexivity]. rewrite asked_drops. constructor. Qed.
Lemma follows_local d (m : call T U (interval T) unit) : follows d m ->
  follows (local d) (after m (fun _ => tt) (@things T U) (fun i _ => give i)).
Proof.
  intros M h. unfold after. pose proof (M h) as Mh. destruct (m h) as [[t i] o]. destruct Mh as (e & R & ->).
  assert (L : forall (d : dialog T (interval T) unit) es i e, runs d es i e -> runs (local d) es tt
    (match e with Some (Ret _) => Some (Ret i) | Some Panic => Some Panic | Some Abort => Some Abort | Some UB => Some UB | Some NoFuel => Some NoFuel | None => None end)).
  { clear. intros d es i e R. induction R; cbn; [destruct r; constructor|now constructor|constructor]. }
  apply L in R. destruct e as [[[]| | | |]|]; eexists; (split; [rewrite ?asked_app, ?asked_drops, ?app_nil_r; cbn; rewrite ?app_nil_r; exact R|reflexivity]).
Qed.

(** the calls follow their dialogs *)
Ltac fl := repeat first
  [ apply follows_consult | apply follows_ask | apply follows_panics | apply follows_over
  | apply follows_seq; [|intros] | apply follows_drops ].
Lemma follows_lower_min a b : follows (lower_min_d a b) (lower_min_o us a b).
Proof. apply follows_seq; [fl|]. intros []; apply follows_drops, follows_over. Qed.
Lemma follows_lower_max a b : follows (lower_max_d a b) (lower_max_o us a b).
Proof. apply follows_seq; [fl|]. intros []; apply follows_drops, follows_over. Qed.
Lemma follows_upper_min a b : follows (upper_min_d a b) (upper_min_o us a b).
Proof. apply follows_seq; [fl|]. intros []; apply follows_drops, follows_over. Qed.
Lemma follows_upper_max a b : follows (upper_max_d a b) (upper_max_o us a b).
Proof. apply follows_seq; [fl|]. intros []; apply follows_drops, follows_over. Qed.
Lemma follows_checked l lc u uc : follows (create_checked_d l lc u uc) (create_checked_o us l lc u uc).
Proof. apply follows_seq; [fl|]. intros [|]; [fl|]. apply follows_seq; [fl|]. intros [|]; fl. Qed.
Lemma follows_from_bounds l u : follows (iv_from_bounds_d l u) (iv_from_bounds_o us l u).
Proof. destruct l as [[l lc]], u as [[u uc]]. apply follows_checked. Qed.
Lemma follows_fix i : follows (fix_after_modification_d i) (fix_after_modification_o us i).
Proof.
  destruct i as [[[l u]|]]; [|apply follows_over]. apply follows_seq; [fl|]. intros g. apply follows_seq; [fl|].
  intros [|]; [apply follows_drops|]; apply follows_over.
Qed.
Lemma follows_fixed i : follows (local (fix_after_modification_d i)) (fixed us i).
Proof. apply follows_local, follows_fix. Qed.
Lemma follows_into_merged a b : follows (iv_into_merged_d a b) (iv_into_merged_o us a b).
Proof.
  apply follows_seq; [fl|]. intros [|]; [|apply follows_over]. cbn [negb].
  destruct a as [[[l u]|]], b as [[[l' u']|]]; try apply follows_over.
  apply (@follows_seq _ _ _ tt _ (lower_min_d l l')); [apply follows_lower_min|]. intros l0.
  apply (@follows_seq _ _ _ tt _ (upper_max_d u u')); [apply follows_upper_max|]. intros u0.
  apply follows_seq; [apply follows_from_bounds|]. intros i. apply follows_over.
Qed.
Lemma follows_widen {A} x y (r : A) : follows (iv_widen_d x y r) (iv_widen_o us x y r).
Proof.
  apply follows_seq; [fl|]. intros [|]; (apply follows_seq; [fl|]); intros [|]; apply follows_drops, follows_over.
Qed.
Lemma follows_merge a b : follows (iv_merge_d a b) (iv_merge_o us a b).
Proof.
  apply follows_seq; [fl|]. intros [|]; [|apply follows_over]. cbn [negb].
  destruct a as [[x|]], b as [[y|]]; try apply follows_over. apply follows_widen.
Qed.
Lemma follows_into_intersection a b : follows (iv_into_intersection_d a b) (iv_into_intersection_o us a b).
Proof.
  destruct a as [[[l u]|]], b as [[[l' u']|]]; try apply follows_drops, follows_over.
  apply follows_seq; [fl|]. intros [|]; [|apply follows_drops, follows_over]. cbn [negb].
  apply (@follows_seq _ _ _ tt _ (lower_max_d l l')); [apply follows_lower_max|]. intros l0.
  apply (@follows_seq _ _ _ tt _ (upper_min_d u u')); [apply follows_upper_min|]. intros u0.
  apply follows_from_bounds.
Qed.
Lemma follows_intersection a b : follows (iv_intersection_d a b) (iv_intersection_o us a b).
Proof.
  assert (E : follows (Done (Interval None) (Ret tt)) (after (@emptied T U a) (fun i => i) (fun _ => []) (fun i _ => seq i [] (drops (things U b)) (fun _ => over i (Ret tt))))).
  { intros h. cbn. exists (Some (Ret tt)). split; [|reflexivity]. rewrite !app_nil_r, asked_app, !asked_drops. constructor. }
  unfold iv_intersection_d, iv_intersection_o. destruct (iv_is_empty a || iv_is_empty b) eqn:Z; [exact E|].
  apply follows_seq; [fl|]. intros [|]; [exact E|]. clear E.
  destruct a as [[x|]], b as [[y|]]; try discriminate Z. cbn [imp].
  apply follows_seq; [fl|]. intros [|]; (apply follows_seq; [fl|]); intros [|]; apply follows_drops, follows_over.
Qed.
Lemma follows_into_span a b : follows (iv_into_span_d a b) (iv_into_span_o us a b).
Proof.
  destruct a as [[[l u]|]], b as [[[l' u']|]]; try apply follows_over.
  apply (@follows_seq _ _ _ tt _ (lower_min_d l l')); [apply follows_lower_min|]. intros l0.
  apply (@follows_seq _ _ _ tt _ (upper_max_d u u')); [apply follows_upper_max|]. intros u0.
  apply follows_from_bounds.
Qed.
Lemma follows_span a b : follows (iv_span_d a b) (iv_span_o us a b).
Proof. destruct a as [[x|]], b as [[y|]]; try apply follows_over. apply follows_widen. Qed.

(** nothing but comparisons and destructors *)
Definition looks {S A} (m : call T U S A) : Prop := forall h, Forall only_looks (fst (fst (m h))).
Lemma looks_drops_list (vs : list thing) : Forall only_looks (map (@Dropped T U) vs).
Proof. induction vs; cbn; constructor; auto; exact I. Qed.
Lemma looks_after {S A S' B} (m : call T U S A) keep lost (f : S -> A -> call T U S' B) :
  looks m -> (forall s a, looks (f s a)) -> looks (after m keep lost f).
Proof.
  intros M F h. unfold after. pose proof (M h) as Mh. destruct (m h) as [[t s] [a| | | |]]; cbn in *; auto.
  - pose proof (F s a (h ++ t)) as Fh. destruct (f s a (h ++ t)) as [[t' s'] o']. cbn in *. now apply Forall_app.
  - apply Forall_app. split; [exact Mh|apply looks_drops_list].
Qed.
Lemma looks_seq {S A B} (s : S) (lost : list thing) (m : call T U unit A) (f : A -> call T U S B) :
  looks m -> (forall a, looks (f a)) -> looks (seq s lost m f).
Proof. intros M F. now apply looks_after. Qed.
Lemma looks_over {S A} (s : S) (o : outcome A) : looks (@over T U S A s o).
Proof. intros h. constructor. Qed.
Lemma looks_drops (vs : list thing) : looks (drops vs).
Proof. intros h. apply looks_drops_list. Qed.
Lemma looks_panics {A} (vs : list thing) : looks (@panics T U A vs).
Proof. intros h. apply looks_drops_list. Qed.
Lemma looks_ask k x y : looks (ask_o us k x y).
Proof. intros h. cbn. constructor; [exact I|constructor]. Qed.
Lemma looks_consult {S A} (d : dialog T S A) : looks (consult us d).
Proof. induction d as [s o|s k x y next IH]; [apply looks_over|]. apply looks_seq; [apply looks_ask|exact IH]. Qed.
Ltac look := repeat first
  [ apply looks_consult | apply looks_ask | apply looks_panics | apply looks_drops | apply looks_over
  | match goal with |- looks (match ?x with _ => _ end) => destruct x end
  | apply looks_seq; [|intros] | apply looks_after; [|intros] ].
Lemma looks_from_bounds l u : looks (iv_from_bounds_o us l u).
Proof. destruct l as [[l lc]], u as [[u uc]]. cbn [iv_from_bounds_o lower_into_tuple upper_into_tuple lbound ubound bval bclosed]. unfold create_checked_o. look. Qed.
Lemma looks_lower_min a b : looks (lower_min_o us a b). Proof. unfold lower_min_o. look. Qed.
Lemma looks_lower_max a b : looks (lower_max_o us a b). Proof. unfold lower_max_o. look. Qed.
Lemma looks_upper_min a b : looks (upper_min_o us a b). Proof. unfold upper_min_o. look. Qed.
Lemma looks_upper_max a b : looks (upper_max_o us a b). Proof. unfold upper_max_o. look. Qed.
Lemma looks_fix i : looks (fix_after_modification_o us i).
Proof. unfold fix_after_modification_o, emptied. look. Qed.
Lemma looks_fixed i : looks (fixed us i).
Proof. apply looks_after; [apply looks_fix|intros]. apply looks_over. Qed.
Ltac look' := repeat first
  [ apply looks_from_bounds | apply looks_lower_min | apply looks_lower_max | apply looks_upper_min | apply looks_upper_max
  | apply looks_consult | apply looks_ask | apply looks_panics | apply looks_drops | apply looks_over
  | match goal with |- looks (match ?x with _ => _ end) => destruct x end
  | apply looks_seq; [|intros] | apply looks_after; [|intros] ].
Lemma looks_sets a b :
  looks (iv_into_merged_o us a b) /\ looks (iv_merge_o us a b) /\ looks (iv_into_intersection_o us a b) /\
  looks (iv_intersection_o us a b) /\ looks (iv_into_span_o us a b) /\ looks (iv_span_o us a b).
Proof.
  unfold iv_into_merged_o, iv_merge_o, iv_into_intersection_o, iv_intersection_o, iv_into_span_o, iv_span_o, iv_widen_o, emptied.
  repeat apply conj; look'.
Qed.

(** the books of a program *)
Lemma bookings_balance (t : list (act T U)) :
  Permutation (got (bookings t)) (made t ++ changed_to t) /\
  Permutation (gone (bookings t)) (dropped t ++ handed t ++ changed_from t).
Proof.
  split; induction t as [|e t IH]; try constructor; unfold bookings, got, gone, made, changed_to, changed_from, dropped, handed in *.
  - cbn [flat_map]. rewrite flat_map_app, IH. destruct e as [k x y a|x [r|]|x [r|]|x k [r|]|x k x' ok|x [r|]|v]; cbn [flat_map booked app]; auto.
    apply Permutation_middle.
  - cbn [flat_map]. rewrite flat_map_app, IH. clear IH.
    set (D := flat_map _ t). set (H := flat_map _ t). set (C := flat_map _ t). clearbody D H C.
    destruct e as [k x y a|x [r|]|x [r|]|x k [r|]|x k x' ok|x [r|]|v]; cbn [flat_map booked app]; try apply Permutation_refl.
    1, 2: apply Permutation_cons_app; apply Permutation_cons_app; apply Permutation_refl.
    2, 3: apply Permutation_cons_app; apply Permutation_refl.
    apply Permutation_cons_app. rewrite !app_assoc. apply Permutation_cons_app. apply Permutation_refl.
Qed.
End Lemmas.

(** ** C112 *)

(** Every call that moves ends keeps the books, whatever the user's code does:
    what it gets is afterwards owned once by its receiver or its result, or was
    dropped or handed to an operator, and nothing is dropped that is not owned.
    If it panics, all but what is left in the receiver is dropped. *)
Theorem c112_every_call_keeps_the_books : forall T U (us : user T U) (a b : interval T) (k : U) (x y : T) (xc yc : bool),
  let th := @things T U in
  (keeps [El x; El y] (create_checked_o us x xc y yc) none th /\
   keeps [El x; El y] (iv_from_bounds_o us (Lower (Bound x xc)) (Upper (Bound y yc))) none th /\
   keeps [El x] (iv_single_o us x) none th /\
   keeps [] (iv_clone_o us a) none th /\
   keeps (th a) (iv_clone_from_o us a b) th nil_of) /\
  (keeps (th a ++ th b) (iv_into_merged_o us a b) none merged_things /\
   keeps (th a ++ th b) (iv_merge_o us a b) th refused_things /\
   keeps (th a ++ th b) (iv_into_intersection_o us a b) none th /\
   keeps (th a ++ th b) (iv_intersection_o us a b) th nil_of /\
   keeps (th a ++ th b) (iv_into_span_o us a b) none th /\
   keeps (th a ++ th b) (iv_span_o us a b) th nil_of) /\
  (keeps (th a ++ [Arg k]) (iv_arith_o us a k) none th /\
   keeps (th a ++ [Arg k]) (iv_assign_o us a k) th nil_of /\
   keeps (th a) (iv_neg_o us a) none th).
Proof.
  intros. repeat apply conj.
  - apply keeps_checked.
  - apply keeps_checked.
  - apply keeps_single.
  - apply keeps_clone.
  - apply keeps_clone_from.
  - apply keeps_into_merged.
  - apply keeps_merge.
  - apply keeps_into_intersection.
  - apply keeps_intersection.
  - apply keeps_into_span.
  - apply keeps_span.
  - apply keeps_arith.
  - apply keeps_assign.
  - apply keeps_neg.
Qed.
Print Assumptions c112_every_call_keeps_the_books.

(** The same for bounds by themselves. *)
Theorem c112_bounds_keep_the_books : forall T U (us : user T U) (k : U) (x y : T) (xc yc : bool),
  let lb v c := Lower (Bound v c) in let ub v c := Upper (Bound v c) in
  let lth := @lower_things T U in let uth := @upper_things T U in
  (keeps [El x; El y] (lower_min_o us (lb x xc) (lb y yc)) none lth /\
   keeps [El x; El y] (lower_max_o us (lb x xc) (lb y yc)) none lth /\
   keeps [El x; El y] (upper_min_o us (ub x xc) (ub y yc)) none uth /\
   keeps [El x; El y] (upper_max_o us (ub x xc) (ub y yc)) none uth) /\
  (keeps [El x; Arg k] (lower_arith_o us (lb x xc) k) none lth /\
   keeps [El x; Arg k] (upper_arith_o us (ub x xc) k) none uth /\
   keeps [El x; Arg k] (lower_assign_o us (lb x xc) k) lth nil_of /\
   keeps [El x; Arg k] (upper_assign_o us (ub x xc) k) uth nil_of) /\
  (keeps [] (lower_clone_o us (lb x xc)) none lth /\
   keeps [] (upper_clone_o us (ub x xc)) none uth).
Proof.
  intros. repeat apply conj.
  - apply (@keeps_lower_min T U us (lb x xc) (lb y yc)).
  - apply (@keeps_lower_max T U us (lb x xc) (lb y yc)).
  - apply (@keeps_upper_min T U us (ub x xc) (ub y yc)).
  - apply (@keeps_upper_max T U us (ub x xc) (ub y yc)).
  - apply (@keeps_lower_arith T U us (lb x xc) k).
  - apply (@keeps_upper_arith T U us (ub x xc) k).
  - apply (@keeps_lower_assign T U us (lb x xc) k).
  - apply (@keeps_upper_assign T U us (ub x xc) k).
  - apply keeps_lower_clone.
  - apply keeps_upper_clone.
Qed.
Print Assumptions c112_bounds_keep_the_books.

Section Program.
Variables T U : Type.
Variable us : user T U.
Notation all := (@all_things T U).

Lemma made_books (m : call T U unit (interval T)) ins rest h : keeps ins m none (@things T U) ->
  let '(t, _, o) := m h in books (ins ++ all rest) (bookings t) (all (got_back o ++ rest)).
Proof.
  intros K. pose proof (K h) as Kh. destruct (m h) as [[t []] [i| | | |]]; try contradiction; cbn [got_back app].
  - unfold all_things. cbn [flat_map]. apply bk_frame. exact Kh.
  - change (all rest) with ([] ++ all rest) at 2. apply bk_frame. exact Kh.
Qed.
Lemma left_books {A} (m : call T U (interval T) A) ins rest h : keeps ins m (@things T U) nil_of ->
  let '(t, i, _) := m h in books (ins ++ all rest) (bookings t) (all (i :: rest)).
Proof.
  intros K. pose proof (K h) as Kh. destruct (m h) as [[t i] [a| | | |]]; try contradiction; unfold all_things; cbn [flat_map]; apply bk_frame;
  [unfold nil_of in Kh; rewrite app_nil_r in Kh|]; exact Kh.
Qed.
Lemma deal_books (d : deal T U) is h :
  let '(t, is', g) := iv_deal_o us d is h in books (supplied d ++ all is) (bookings t) (all is' ++ g).
Proof.
  assert (Z : forall l, books l (bookings (@nil (act T U))) l) by (intros; apply bk_nil).
  assert (R : forall (m : call T U unit (interval T)) ins rest l, keeps ins m none (@things T U) -> Permutation l (ins ++ all rest) ->
    let '(t, is', g) := (let '(t, _, o) := m h in (t, got_back o ++ rest, [])) in books l (bookings t) (all is' ++ g)).
  { intros m ins rest l K P. pose proof (@made_books m ins rest h K) as B. destruct (m h) as [[t ?] o]. rewrite app_nil_r. eapply bk_perm; eauto. }
  assert (P3 : forall b a r : list (thing T U), Permutation ((b ++ a ++ r)) ((a ++ b) ++ r)).
  { intros b a r. rewrite app_assoc. apply Permutation_app_tail, Permutation_app_comm. }
  destruct d; cbn [supplied iv_deal_o].
  - apply R with (ins := [El l; El u]); [apply keeps_checked|apply Permutation_refl].
  - apply R with (ins := [El v]); [apply keeps_single|apply Permutation_refl].
  - rewrite app_nil_r. apply Z.
  - destruct is as [|i r]; [cbn; apply Z|]. apply R with (ins := []); [apply keeps_clone|apply Permutation_refl].
  - destruct is as [|b [|a r]]; try (rewrite app_nil_r; apply Z).
    pose proof (@left_books _ (iv_clone_from_o us a b) (things U a) (b :: r) h (keeps_clone_from us a b)) as B.
    destruct (iv_clone_from_o us a b h) as [[t a'] o]. rewrite app_nil_r. cbn [app].
    eapply bk_perm; [eapply bk_perm_r; [exact B|]|]; unfold all_things; cbn [flat_map]; apply Permutation_app_swap_app.
  - destruct is as [|i r]; [cbn; apply Z|]. rewrite bookings_drops, app_nil_r. apply (bk_gone_all (things U i) (all r)).
  - destruct is as [|[[[[[l lc]] [[u uc]]]|]] r]; cbn [iv_into_tuple imp lo up lower_into_tuple upper_into_tuple lbound ubound bval bclosed]; try (cbn; rewrite ?app_nil_r; apply Z).
    unfold all_things. cbn [flat_map app]. constructor. apply (Permutation_app_comm [El l; El u]).
  - destruct is as [|b [|a r]]; try (rewrite app_nil_r; apply Z).
    pose proof (keeps_into_merged us a b h) as K. destruct (iv_into_merged_o us a b h) as [[t []] [[i|[x y]]| | | |]]; try contradiction; rewrite app_nil_r;
    (eapply bk_perm; [|apply (P3 (things U b) (things U a) (all r))]); cbn [app]; unfold all_things; cbn [flat_map].
    + apply bk_frame. exact K.
    + rewrite app_assoc. apply bk_frame. eapply bk_perm_r; [exact K|]. apply (Permutation_app_comm (things U x) (things U y)).
    + change (flat_map (@things T U) r) with ([] ++ flat_map (@things T U) r) at 2. apply bk_frame. exact K.
  - destruct is as [|b [|a r]]; try (rewrite app_nil_r; apply Z).
    pose proof (keeps_merge us a b h) as K. destruct (iv_merge_o us a b h) as [[t a'] [[[]|x]| | | |]]; try contradiction; rewrite app_nil_r;
    (eapply bk_perm; [|apply (P3 (things U b) (things U a) (all r))]); cbn [app]; unfold all_things; cbn [flat_map].
    + apply bk_frame. cbn in K. rewrite app_nil_r in K. exact K.
    + rewrite app_assoc. apply bk_frame. eapply bk_perm_r; [exact K|]. apply (Permutation_app_comm (things U a') (things U x)).
    + apply bk_frame. exact K.
  - destruct is as [|b [|a r]]; try (rewrite app_nil_r; apply Z). apply R with (1 := keeps_into_intersection us a b). apply (P3 (things U b) (things U a) (all r)).
  - destruct is as [|b [|a r]]; try (rewrite app_nil_r; apply Z).
    pose proof (@left_books _ (iv_intersection_o us a b) _ r h (keeps_intersection us a b)) as B.
    destruct (iv_intersection_o us a b h) as [[t a'] o]. rewrite app_nil_r. eapply bk_perm; [exact B|]. apply (P3 (things U b) (things U a) (all r)).
  - destruct is as [|b [|a r]]; try (rewrite app_nil_r; apply Z). apply R with (1 := keeps_into_span us a b). apply (P3 (things U b) (things U a) (all r)).
  - destruct is as [|b [|a r]]; try (rewrite app_nil_r; apply Z).
    pose proof (@left_books _ (iv_span_o us a b) _ r h (keeps_span us a b)) as B.
    destruct (iv_span_o us a b h) as [[t a'] o]. rewrite app_nil_r. eapply bk_perm; [exact B|]. apply (P3 (things U b) (things U a) (all r)).
  - destruct is as [|i r]; [cbn; apply Z|]. apply R with (1 := keeps_arith us i k). apply (P3 [Arg k] (things U i) (all r)).
  - destruct is as [|i r]; [cbn; apply Z|].
    pose proof (@left_books _ (iv_assign_o us i k) _ r h (keeps_assign us i k)) as B.
    destruct (iv_assign_o us i k h) as [[t i'] o]. rewrite app_nil_r. eapply bk_perm; [exact B|]. apply (P3 [Arg k] (things U i) (all r)).
  - destruct is as [|i r]; [cbn; apply Z|]. apply R with (1 := keeps_neg us i). apply Permutation_refl.
Qed.
Lemma deals_books (ds : list (deal T U)) : forall is h,
  let '(t, is', g) := iv_deals_o us ds is h in books (flat_map supplied ds ++ all is) (bookings t) (all is' ++ g).
Proof.
  induction ds as [|d ds IH]; intros is h; cbn; [rewrite app_nil_r; apply bk_nil|].
  pose proof (deal_books d is h) as D. destruct (iv_deal_o us d is h) as [[t is1] g].
  specialize (IH is1 (h ++ t)). destruct (iv_deals_o us ds is1 (h ++ t)) as [[t' is2] g'].
  rewrite bookings_app. eapply bk_app with (l1 := (all is1 ++ g) ++ flat_map supplied ds).
  - eapply bk_perm; [apply bk_frame, D|]. rewrite <- !app_assoc. apply Permutation_app_head, Permutation_app_comm.
  - eapply bk_perm with (l := (flat_map supplied ds ++ all is1) ++ g).
    + eapply bk_perm_r; [apply bk_frame, IH|]. rewrite <- !app_assoc. apply Permutation_app_head, Permutation_app_comm.
    + rewrite <- !app_assoc. rewrite (Permutation_app_comm g). rewrite !app_assoc. apply Permutation_app_tail, Permutation_app_comm.
Qed.
End Program.

(** Any program: the intervals that it has in the end own, together with what was
    taken out of them, exactly what is left of what it supplied. *)
Theorem c112_program_keeps_the_books : forall T U (us : user T U) (ds : list (deal T U)) is h,
  let '(t, is', g) := iv_deals_o us ds is h in
  books (flat_map supplied ds ++ all_things is) (bookings t) (all_things is' ++ g).
Proof. intros. apply deals_books. Qed.
Print Assumptions c112_program_keeps_the_books.

(** From the first interval to the destructor of the last: every value supplied
    or made by a clone or an operator is dropped, handed to an operator or taken
    out, and each of them once. *)
Theorem c112_whole_life : forall T U (us : user T U) (ds : list (deal T U)),
  let '(t, is, g) := iv_deals_o us ds [] [] in
  let t := t ++ map Dropped (all_things is) in
  books (flat_map supplied ds) (bookings t) g /\
  Permutation (flat_map supplied ds ++ made t ++ changed_to t) (g ++ dropped t ++ handed t ++ changed_from t).
Proof.
  intros T U us ds. pose proof (deals_books us ds [] []) as B. destruct (iv_deals_o us ds [] []) as [[t is] g]. cbn zeta.
  cbn in B. rewrite app_nil_r in B.
  assert (K : books (flat_map supplied ds) (bookings (t ++ map Dropped (all_things is))) g).
  { rewrite bookings_app, bookings_drops. eapply bk_app; [exact B|]. apply bk_gone_all. }
  split; [exact K|]. apply bk_balance in K. destruct (bookings_balance (t ++ map Dropped (all_things is))) as [G1 G2].
  now rewrite G1, G2 in K.
Qed.
Print Assumptions c112_whole_life.

(** The set operations only look at the ends and move them: nothing is cloned and
    no operator of the elements is called; the constructors do not either. *)
Theorem c112_sets_only_move_ends : forall T U (us : user T U) (a b : interval T) x xc y yc h,
  let acts {S A} (m : call T U S A) := fst (fst (m h)) in
  Forall (Forall only_looks)
    [acts (iv_into_merged_o us a b); acts (iv_merge_o us a b); acts (iv_into_intersection_o us a b);
     acts (iv_intersection_o us a b); acts (iv_into_span_o us a b); acts (iv_span_o us a b);
     acts (create_checked_o us x xc y yc)].
Proof.
  intros. destruct (looks_sets us a b) as (A1 & A2 & A3 & A4 & A5 & A6).
  pose proof (looks_from_bounds us (Lower (Bound x xc)) (Upper (Bound y yc))) as A7.
  exact (Forall_cons _ (A1 h) (Forall_cons _ (A2 h) (Forall_cons _ (A3 h) (Forall_cons _ (A4 h) (Forall_cons _ (A5 h) (Forall_cons _ (A6 h) (Forall_cons _ (A7 h) (Forall_nil _)))))))).
Qed.
Print Assumptions c112_sets_only_move_ends.

Lemma fix_result {T U} (us : user T U) (l : T) lc u uc h :
  let '(t, i, o) := fix_after_modification_o us (nt l lc u uc) h in
  Forall only_looks t /\
  (((i = nt l lc u uc \/ i = nt u uc l lc) /\ dropped t = [] /\ (o = Panic \/ o = Ret tt)) \/
   (i = nil_iv /\ Permutation (dropped t) [El l; El u] /\ o = Ret tt)).
Proof.
  pose proof (looks_fix us (nt l lc u uc) h) as L. destruct (fix_after_modification_o us (nt l lc u uc) h) as [[t i] o] eqn:E.
  split; [exact L|]. clear L. revert E.
  unfold fix_after_modification_o, seq, after, over, emptied, drops, ask_o, happens.
  cbn [imp lo up lval uval lclosed uclosed lbound ubound bval bclosed].
  destruct (u_ask us h KGt l u) as [[|]|]; cbn -[fixed].
  - unfold seq, after, ask_o, happens. destruct (u_ask us _ KEq u l) as [[|]|]; [destruct lc, uc| |]; cbn; intros [= <- <- <-];
    first [left; split; [auto|split; [reflexivity|auto]] | right; split; [reflexivity|split; [|reflexivity]]; cbn; auto using perm_swap].
  - unfold seq, after, ask_o, happens. destruct (u_ask us _ KEq l u) as [[|]|]; [destruct lc, uc| |]; cbn; intros [= <- <- <-];
    first [left; split; [auto|split; [reflexivity|auto]] | right; split; [reflexivity|split; [|reflexivity]]; cbn; auto using perm_swap].
  - intros [= <- <- <-]. left. split; [auto|split; [reflexivity|auto]].
Qed.
Lemma fixed_result {T U} (us : user T U) (l : T) lc u uc h :
  let '(t, _, o) := fixed us (nt l lc u uc) h in
  Forall only_looks t /\
  (((o = Panic \/ o = Ret nil_iv) /\ Permutation (dropped t) [El l; El u]) \/
   ((o = Ret (nt l lc u uc) \/ o = Ret (nt u uc l lc)) /\ dropped t = [])).
Proof.
  unfold fixed, after. pose proof (fix_result us l lc u uc h) as F.
  destruct (fix_after_modification_o us (nt l lc u uc) h) as [[t i] o]. destruct F as [L F].
  assert (D : forall vs : list (thing T U), dropped (map Dropped vs) = vs) by (induction vs; cbn; [|f_equal]; auto).
  assert (DA : forall t t' : list (act T U), dropped (t ++ t') = dropped t ++ dropped t') by (intros; unfold dropped; apply flat_map_app).
  destruct F as [([-> | ->] & E & [-> | ->])|(-> & E & ->)]; cbn; rewrite ?app_nil_r.
  all: try (split; [exact L|]; auto; fail).
  - split; [apply Forall_app; split; [exact L|apply (looks_drops_list [El l; El u])]|]. left. split; [auto|].
    rewrite DA, E. apply Permutation_refl.
  - split; [apply Forall_app; split; [exact L|apply (looks_drops_list [El u; El l])]|]. left. split; [auto|].
    rewrite DA, E. apply perm_swap.
Qed.
(** [single]: the value is cloned once, the clone becomes the lower end and the value itself the
    upper one, both belonging to the interval; when the clone panics the value is dropped.  [new]
    and its kin take the values given as they are, or drop both and panic. *)
Theorem c112_constructor_calls : forall T U (us : user T U) (x : T) (xc : bool) (y : T) (yc : bool) h,
  (let '(t, _, o) := iv_single_o us x h in
   (t = [ClonedEl x None; Dropped (El x)] /\ o = Panic) \/
   (exists x', t = [ClonedEl x (Some x')] /\ o = Ret (nt x' true x true))) /\
  (let '(t, _, o) := create_checked_o us x xc y yc h in
   Forall only_looks t /\
   ((dropped t = [] /\ o = Ret (nt x xc y yc)) \/ (dropped t = [El y; El x] /\ o = Panic))).
Proof.
  intros. split.
  - unfold iv_single_o, clone_el, happens, seq, after, give, over.
    destruct (u_clone_el us h x) as [x'|]; cbn; [right; exists x'; auto|left; auto].
  - pose proof (looks_from_bounds us (Lower (Bound x xc)) (Upper (Bound y yc)) h) as A.
    change (iv_from_bounds_o us (Lower (Bound x xc)) (Upper (Bound y yc)) h) with (create_checked_o us x xc y yc h) in A.
    revert A. unfold create_checked_o, seq, after, ask_o, happens, panics, give, over.
    destruct (u_ask us h KGt x y) as [[|]|]; cbn; intros A; [split; [exact A|right; auto]| |split; [exact A|right; auto]].
    revert A. unfold consult, qand, ask. cbn.
    destruct (u_ask us _ KEq x y) as [[|]|]; cbn; [destruct xc, yc; cbn| |]; intros A; (split; [exact A|auto]).
Qed.
Print Assumptions c112_constructor_calls.

(** An operator with a non-empty interval: the operand is cloned once, the clone
    goes with the upper end and the operand itself with the lower; each end is
    handed over once.  At the first panic all that is left is dropped. *)
Theorem c112_operator_calls : forall T U (us : user T U) (l : T) lc u uc (k : U) h,
  let '(t, _, o) := iv_arith_o us (nt l lc u uc) k h in
  (t = [ClonedArg k None; Dropped (El u); Dropped (El l); Dropped (Arg k)] /\ o = Panic) \/
  (exists k', t = [ClonedArg k (Some k'); Combined u k' None; Dropped (El l); Dropped (Arg k)] /\ o = Panic) \/
  (exists k' u', t = [ClonedArg k (Some k'); Combined u k' (Some u'); Combined l k None; Dropped (El u')] /\ o = Panic) \/
  (exists k' u' l' t', t = [ClonedArg k (Some k'); Combined u k' (Some u'); Combined l k (Some l')] ++ t' /\
     Forall only_looks t' /\
     (((o = Panic \/ o = Ret nil_iv) /\ Permutation (dropped t') [El l'; El u']) \/
      ((o = Ret (nt l' lc u' uc) \/ o = Ret (nt u' uc l' lc)) /\ dropped t' = []))).
Proof.
  intros. unfold iv_arith_o, upper_arith_o, lower_arith_o, clone_arg, combine, happens, seq, after, give, over.
  cbn [imp lo up lval uval lclosed uclosed lbound ubound bval bclosed upper_things lower_things].
  destruct (u_clone_arg us h k) as [k'|]; cbn -[fixed]; [|left; split; reflexivity].
  destruct (u_combine us _ u k') as [u'|]; cbn -[fixed]; [|right; left; exists k'; split; reflexivity].
  destruct (u_combine us _ l k) as [l'|]; cbn -[fixed]; [|right; right; left; exists k', u'; split; reflexivity].
  set (h' := _ ++ [Combined l k (Some l')]). clearbody h'. unfold upper_new, lower_new.
  pose proof (fixed_result us l' lc u' uc h') as L.
  destruct (fixed us (nt l' lc u' uc) h') as [[t' []] o].
  right. right. right. exists k', u', l', t'. split; [reflexivity|]. exact L.
Qed.
Print Assumptions c112_operator_calls.

(** [op=] with a non-empty interval: here the clone goes with the lower end and
    comes first; each end is changed in place once.  At the first panic the
    receiver keeps what the operator left there and the operand is dropped. *)
Theorem c112_assigning_operator_calls : forall T U (us : user T U) (l : T) lc u uc (k : U) h,
  let '(t, i, o) := iv_assign_o us (nt l lc u uc) k h in
  (t = [ClonedArg k None; Dropped (Arg k)] /\ i = nt l lc u uc /\ o = Panic) \/
  (exists k' l', t = [ClonedArg k (Some k'); Changed l k' l' false; Dropped (Arg k)] /\ i = nt l' lc u uc /\ o = Panic) \/
  (exists k' l' u', t = [ClonedArg k (Some k'); Changed l k' l' true; Changed u k u' false] /\ i = nt l' lc u' uc /\ o = Panic) \/
  (exists k' l' u' t', t = [ClonedArg k (Some k'); Changed l k' l' true; Changed u k u' true] ++ t' /\
     Forall only_looks t' /\
     (((i = nt l' lc u' uc \/ i = nt u' uc l' lc) /\ dropped t' = [] /\ (o = Panic \/ o = Ret tt)) \/
      (i = nil_iv /\ Permutation (dropped t') [El l'; El u'] /\ o = Ret tt))).
Proof.
  intros. unfold iv_assign_o, upper_assign_o, lower_assign_o, clone_arg, change, happens, seq, after, give, over.
  cbn [imp lo up lval uval lclosed uclosed lbound ubound bval bclosed upper_things lower_things].
  destruct (u_clone_arg us h k) as [k'|]; cbn -[fix_after_modification_o]; [|left; repeat split; reflexivity].
  destruct (u_change us _ l k') as [l' [|]]; cbn -[fix_after_modification_o]; [|right; left; exists k', l'; repeat split; reflexivity].
  destruct (u_change us _ u k) as [u' [|]]; cbn -[fix_after_modification_o]; [|right; right; left; exists k', l', u'; repeat split; reflexivity].
  set (h' := _ ++ [Changed u k u' true]). clearbody h'. unfold upper_new, lower_new.
  pose proof (fix_result us l' lc u' uc h') as L.
  destruct (fix_after_modification_o us (nt l' lc u' uc) h') as [[t' i] o].
  right. right. right. exists k', l', u', t'. split; [reflexivity|]. exact L.
Qed.
Print Assumptions c112_assigning_operator_calls.

(** Negation negates the upper end first; each end is handed over once. *)
Theorem c112_negation_calls : forall T U (us : user T U) (l : T) lc u uc h,
  let '(t, _, o) := iv_neg_o us (nt l lc u uc) h in
  (t = [Negated u None; Dropped (El l)] /\ o = Panic) \/
  (exists u', t = [Negated u (Some u'); Negated l None; Dropped (El u')] /\ o = Panic) \/
  (exists u' l' t', t = [Negated u (Some u'); Negated l (Some l')] ++ t' /\
     Forall only_looks t' /\
     (((o = Panic \/ o = Ret nil_iv) /\ Permutation (dropped t') [El u'; El l']) \/
      ((o = Ret (nt u' uc l' lc) \/ o = Ret (nt l' lc u' uc)) /\ dropped t' = []))).
Proof.
  intros. unfold iv_neg_o, create_friendly_o, negate, happens, seq, after, give, over.
  cbn [iv_into_tuple lower_into_tuple upper_into_tuple imp lo up lbound ubound bval bclosed].
  destruct (u_negate us h u) as [u'|]; cbn -[fixed]; [|left; split; reflexivity].
  destruct (u_negate us _ l) as [l'|]; cbn -[fixed]; [|right; left; exists u'; split; reflexivity].
  set (h' := _ ++ [Negated l (Some l')]). clearbody h'. unfold upper_new, lower_new.
  pose proof (fixed_result us u' uc l' lc h') as L.
  destruct (fixed us (nt u' uc l' lc) h') as [[t' []] o].
  right. right. exists u', l', t'. split; [reflexivity|]. exact L.
Qed.
Print Assumptions c112_negation_calls.

(** With the empty interval no operator is called and nothing is cloned: the
    operand is dropped. *)
Theorem c112_operators_on_the_empty : forall T U (us : user T U) (k : U) h,
  iv_arith_o us nil_iv k h = ([Dropped (Arg k)], tt, Ret nil_iv) /\
  iv_assign_o us nil_iv k h = ([Dropped (Arg k)], nil_iv, Ret tt) /\
  iv_neg_o us nil_iv h = ([], tt, Ret nil_iv) /\
  iv_clone_o us nil_iv h = ([], tt, Ret nil_iv).
Proof. intros. repeat split; reflexivity. Qed.
Print Assumptions c112_operators_on_the_empty.

(** The calls ask the questions of C98 and leave and return the same, whatever is
    answered: the destructors are all that is added. *)
Theorem c112_forgetting_acts : forall T U (us : user T U) (a b : interval T) x xc y yc,
  follows (create_checked_d x xc y yc) (create_checked_o us x xc y yc) /\
  follows (iv_into_merged_d a b) (iv_into_merged_o us a b) /\
  follows (iv_merge_d a b) (iv_merge_o us a b) /\
  follows (iv_into_intersection_d a b) (iv_into_intersection_o us a b) /\
  follows (iv_intersection_d a b) (iv_intersection_o us a b) /\
  follows (iv_into_span_d a b) (iv_into_span_o us a b) /\
  follows (iv_span_d a b) (iv_span_o us a b) /\
  follows (fix_after_modification_d a) (fix_after_modification_o us a).
Proof.
  intros. repeat apply conj; [apply follows_checked|apply follows_into_merged|apply follows_merge|apply follows_into_intersection
   |apply follows_intersection|apply follows_into_span|apply follows_span|apply follows_fix].
Qed.
Print Assumptions c112_forgetting_acts.

(** With comparisons that follow one order, clones that are equal and operators
    that are functions, the operators are those of C34 to C39. *)
Theorem c112_forgetting_acts_operators : forall T U cmp op opa neg (i : interval T) (k : U) h,
  let us := plain_user cmp op opa neg in
  let may {A} (r : option A) := match r with Some a => Ret a | None => Panic end in
  let opa' x k := (fst (opa x k), if snd (opa x k) : bool then Ret tt else Panic) in
  let run {S A} (m : call T U S A) := (snd (fst (m h)), snd (m h)) in
  run (iv_arith_o us i k) = (tt, iv_add cmp (fun x k => may (op x k)) i k) /\
  run (iv_assign_o us i k) = iv_add_assign cmp opa' i k /\
  run (iv_neg_o us i) = (tt, iv_neg cmp (fun x => may (neg x)) i).
Proof.
  intros T U cmp op opa neg [[[[[l lc]] [[u uc]]]|]] k h us may opa' run; [|repeat split].
  assert (F : forall l lc u uc h, fix_after_modification_o us (nt l lc u uc) h =
    (fst (fst (fix_after_modification_o us (nt l lc u uc) h)), fix_after_modification cmp (nt l lc u uc), Ret tt)).
  { clear. intros l lc u uc h. subst us. unfold fix_after_modification_o, fix_after_modification, plain_user, seq, after, ask_o, happens, emptied, drops, over, vgt, veq.
    cbn. unfold vgt, veq. destruct (cmp l u); cbn; unfold veq; cbn; destruct (cmp u l); destruct (cmp l u); cbn; destruct lc, uc; reflexivity. }
  assert (G : forall l lc u uc h, fixed us (nt l lc u uc) h = (fst (fst (fixed us (nt l lc u uc) h)), tt, Ret (fix_after_modification cmp (nt l lc u uc)))).
  { intros. unfold fixed, after. now rewrite F. }
  repeat split.
  - unfold run, iv_arith_o, iv_add, upper_arith_o, lower_arith_o, upper_add, lower_add, bound_add, clone_arg, combine, happens, seq, after, give, over, us, plain_user. cbn -[fixed fix_after_modification].
    destruct (op u k) as [u'|]; cbn -[fixed fix_after_modification]; [|reflexivity].
    destruct (op l k) as [l'|]; cbn -[fixed fix_after_modification]; [|reflexivity].
    unfold lower_new, upper_new. fold (plain_user cmp op opa neg). fold us. now rewrite G.
  - unfold run, iv_assign_o, iv_add_assign, upper_assign_o, lower_assign_o, upper_add_assign, lower_add_assign, bound_add_assign, clone_arg, change, happens, seq, after, give, over, opa', us, plain_user. cbn -[fix_after_modification_o fix_after_modification].
    destruct (opa l k) as [l' [|]]; cbn -[fix_after_modification_o fix_after_modification]; [|reflexivity].
    destruct (opa u k) as [u' [|]]; cbn -[fix_after_modification_o fix_after_modification]; [|reflexivity].
    unfold lower_new, upper_new. fold (plain_user cmp op opa neg). fold us. now rewrite F.
  - unfold run, iv_neg_o, iv_neg, create_friendly_o, create_friendly, negate, happens, seq, after, give, over, us, plain_user. cbn -[fixed fix_after_modification].
    destruct (neg u) as [u'|]; cbn -[fixed fix_after_modification]; [|reflexivity].
    destruct (neg l) as [l'|]; cbn -[fixed fix_after_modification]; [|reflexivity].
    unfold lower_new, upper_new. fold (plain_user cmp op opa neg). fold us. now rewrite G.
Qed.
Print Assumptions c112_forgetting_acts_operators.

(** Two intervals with equal ends, but different instances of them.  In place the
    receiver keeps its own; the consuming calls mix the instances: [into_merged]
    and [into_span] take the upper end of the argument, [into_intersection] its
    lower end. *)
Theorem c112_which_of_equal_ends : forall T U (us : user T U) cmp (l u l' u' : T) c h, ord_laws cmp ->
  (forall h k x y, u_ask us h k x y = Some (answers (of_cmp cmp) k x y)) ->
  cmp l u = Lt -> cmp l l' = Eq -> cmp u u' = Eq ->
  let a := nt l c u c in let b := nt l' c u' c in
  let end_of {S A} (m : call T U S A) := (dropped (fst (fst (m h))), snd (fst (m h)), snd (m h)) in
  end_of (iv_merge_o us a b) = ([El l'; El u'], a, Ret (inl tt)) /\
  end_of (iv_span_o us a b) = ([El l'; El u'], a, Ret tt) /\
  end_of (iv_intersection_o us a b) = ([El l'; El u'], a, Ret tt) /\
  end_of (iv_into_merged_o us a b) = ([El l'; El u], tt, Ret (inl (nt l c u' c))) /\
  end_of (iv_into_span_o us a b) = ([El l'; El u], tt, Ret (nt l c u' c)) /\
  end_of (iv_into_intersection_o us a b) = ([El l; El u'], tt, Ret (nt l' c u c)).
Proof.
  intros T U us cmp l u l' u' c h O ASK LU LL UU a b end_of.
  assert (S : forall x y, cmp y x = CompOpp (cmp x y)) by (apply O).
  assert (L'L : cmp l' l = Eq) by (now rewrite S, LL). assert (U'U : cmp u' u = Eq) by (now rewrite S, UU).
  assert (L'U : cmp l' u = Lt) by (rewrite (ord_eq O _ _ u L'L); exact LU).
  assert (UL : cmp u l = Gt) by (now rewrite S, LU). assert (UL' : cmp u l' = Gt) by (now rewrite S, L'U).
  assert (U'L : cmp u' l = Gt) by (rewrite (ord_eq O _ _ l U'U); exact UL).
  assert (LU' : cmp l u' = Lt) by (rewrite S, U'L; reflexivity).
  assert (L'U' : cmp l' u' = Lt) by (rewrite (ord_eq O _ _ u' L'L); exact LU').
  assert (U'L' : cmp u' l' = Gt) by (now rewrite S, L'U').
  assert (AO : forall h k x y, ask_o us k x y h = ([Asked k x y (Some (answers (of_cmp cmp) k x y))], tt, Ret (answers (of_cmp cmp) k x y))).
  { intros. unfold ask_o. now rewrite ASK. }
  repeat split;
  unfold end_of, a, b, iv_merge_o, iv_span_o, iv_intersection_o, iv_into_merged_o, iv_into_span_o, iv_into_intersection_o, iv_widen_o,
    lower_min_o, lower_max_o, upper_min_o, upper_max_o, iv_from_bounds_o, create_checked_o, seq, after;
  destruct c; cbn -[ask_o]; unfold seq, after;
  repeat (rewrite AO; cbn -[ask_o]; unfold vlt, vgt, veq, vle, vge, seq, after, drops, give, over, panics; rewrite ?LU, ?LL, ?UU, ?L'L, ?U'U, ?L'U, ?UL, ?UL', ?U'L, ?LU', ?L'U', ?U'L'; cbn -[ask_o]; unfold seq, after, drops, give, over, panics);
  try reflexivity.
Qed.
Print Assumptions c112_which_of_equal_ends.

(** ** Examples

    Ends are numbered instances of numbers: the order looks at the number only.
    Operators give a new instance and panic on a sum above 50; clones give
    instances numbered by what happened before. *)
Definition ex_cmp (x y : nat * nat) : comparison := Nat.compare (fst x) (fst y).
Definition ex_user : user (nat * nat) nat :=
  {| u_ask := fun _ k x y => Some (answers (of_cmp ex_cmp) k x y);
     u_clone_el := fun h x => if fst x =? 13 then None else Some (fst x, 100 + length h);
     u_clone_arg := fun h k => if k =? 13 then None else Some (k + 100);
     u_combine := fun h x k => let s := fst x + k mod 100 in if 50 <? s then None else Some (s, 200 + length h);
     u_change := fun h x k => let s := fst x + k mod 100 in if 50 <? s then ((50, snd x), false) else ((s, snd x), true);
     u_negate := fun h x => Some (60 - fst x, 300 + length h) |}.
Definition ex_a : interval (nat * nat) := nt (10, 1) true (20, 2) true.
Definition ex_b : interval (nat * nat) := nt (10, 3) true (20, 4) true.

(** the instances of [c112_which_of_equal_ends], and its hypotheses *)
Example c112_ex_instances :
  ord_laws ex_cmp /\
  (forall h k x y, u_ask ex_user h k x y = Some (answers (of_cmp ex_cmp) k x y)) /\
  snd (iv_into_span_o ex_user ex_a ex_b []) = Ret (nt (10, 1) true (20, 4) true) /\
  snd (iv_into_intersection_o ex_user ex_a ex_b []) = Ret (nt (10, 3) true (20, 2) true).
Proof.
  split; [|repeat split].
  constructor; unfold ex_cmp.
  - intros x y. apply Nat.compare_antisym.
  - intros x y z E. apply Nat.compare_eq_iff in E. now rewrite E.
  - intros x y z. rewrite !Nat.compare_lt_iff. lia.
Qed.

(** adding 5: the clone goes with the upper end, the operand with the lower *)
Example c112_ex_arith :
  iv_arith_o ex_user ex_a 5 [] =
  ([ClonedArg 5 (Some 105); Combined (20, 2) 105 (Some (25, 201)); Combined (10, 1) 5 (Some (15, 202));
    Asked KGt (15, 202) (25, 201) (Some false); Asked KEq (15, 202) (25, 201) (Some false)], tt, Ret (nt (15, 202) true (25, 201) true)).
Proof. reflexivity. Qed.
(** adding 35: the upper end is lost in its operator, the rest is dropped *)
Example c112_ex_arith_panics :
  iv_arith_o ex_user ex_a 35 [] =
  ([ClonedArg 35 (Some 135); Combined (20, 2) 135 None; Dropped (El (10, 1)); Dropped (Arg 35)], tt, Panic).
Proof. reflexivity. Qed.
(** adding 35 in place: the lower end is changed, the upper one half way *)
Example c112_ex_assign_panics :
  iv_assign_o ex_user ex_a 35 [] =
  ([ClonedArg 35 (Some 135); Changed (10, 1) 135 (45, 1) true; Changed (20, 2) 35 (50, 2) false], nt (45, 1) true (50, 2) true, Panic).
Proof. reflexivity. Qed.
(** the clone of the second end panics: the first clone is dropped *)
Example c112_ex_clone_panics :
  iv_clone_o ex_user (nt (3, 1) true (13, 2) false) [] = ([ClonedEl (3, 1) (Some (3, 100)); ClonedEl (13, 2) None; Dropped (El (3, 100))], tt, Panic).
Proof. reflexivity. Qed.
(** one clone for [single], which may panic; crossed ends are dropped *)
Example c112_ex_constructors :
  iv_single_o ex_user (3, 1) [] = ([ClonedEl (3, 1) (Some (3, 100))], tt, Ret (nt (3, 100) true (3, 1) true)) /\
  iv_single_o ex_user (13, 1) [] = ([ClonedEl (13, 1) None; Dropped (El (13, 1))], tt, Panic) /\
  create_checked_o ex_user (9, 5) true (7, 6) true [] =
    ([Asked KGt (9, 5) (7, 6) (Some true); Dropped (El (7, 6)); Dropped (El (9, 5))], tt, Panic).
Proof. repeat split; reflexivity. Qed.
(** a program of eleven calls, three of which panic *)
Definition ex_program : list (deal (nat * nat) nat) :=
  [DNew _ (10, 1) true (20, 2) true; DClone _ _; DNew _ (15, 3) true (30, 4) false; DSpan _ _; DArith _ 35; DAssign _ 13;
   DAssign _ 4; DNeg _ _; DNew _ (9, 5) true (7, 6) true; DClone _ _; DIntoTuple _ _].
Example c112_ex_program :
  let r := iv_deals_o ex_user ex_program [] [] in
  let t := fst (fst r) in let is := snd (fst r) in let g := snd r in
  (dropped t, handed t) =
    ([El (15, 3); El (20, 103); El (10, 102); Arg 35; Arg 13; El (7, 6); El (9, 5)],
     [El (30, 4); Arg 135; Arg 104; Arg 4; El (24, 2); El (14, 1)]) /\
  (is, g) = ([nt (36, 321) true (46, 322) true], [El (36, 128); El (46, 129)]) /\
  (made t, changed_from t, changed_to t) =
    ([El (10, 102); El (20, 103); Arg 135; Arg 104; El (36, 321); El (46, 322); El (36, 128); El (46, 129)],
     [El (10, 1); El (20, 2)], [El (14, 1); El (24, 2)]) /\
  flat_map supplied ex_program = [El (10, 1); El (20, 2); El (15, 3); El (30, 4); Arg 35; Arg 13; Arg 4; El (9, 5); El (7, 6)].
Proof. vm_compute. repeat split. Qed.
