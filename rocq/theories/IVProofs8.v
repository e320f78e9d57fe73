(** Every call keeps the books of the ends. *)
From Coq Require Import Permutation.
From Verif Require Import Base OwnSpec OwnProofs IVModel IVModel5 IVModel6 IVRun6 IVProofs7.
Set Implicit Arguments.

Section Calls.
Variables T U : Type.
Variable us : user T U.
Notation thing := (thing T U).
Notation lthings := (@lower_things T U).
Notation uthings := (@upper_things T U).

Lemma keeps_quiet {S A B} (s : S) (lost ins : list thing) (m : call T U unit A) (f : A -> call T U S B) left res :
  keeps [] m none nil_of -> Permutation ins (lost ++ left s) -> (forall a, keeps ins (f a) left res) ->
  keeps ins (seq s lost m f) left res.
Proof. intros K P F. apply keeps_seq with (ins1 := []) (rest := ins) (res1 := nil_of); auto. Qed.
Lemma keeps_dropping {S B} (s : S) (vs rest ins : list thing) (f : unit -> call T U S B) left res :
  Permutation ins (vs ++ rest) -> keeps rest (f tt) left res -> keeps ins (seq s [] (drops vs) f) left res.
Proof.
  intros P F h. unfold seq, after, drops. pose proof (F (h ++ map Dropped vs)) as Fh.
  destruct (f tt (h ++ map Dropped vs)) as [[t' s'] [b| | | |]]; try contradiction;
  rewrite bookings_app, bookings_drops; (eapply bk_perm; [|exact P]); (eapply bk_app; [apply bk_gone_all|exact Fh]).
Qed.

Ltac tamed := repeat (cbn; intros; match goal with
  | |- True => exact I
  | |- context [match ?x with _ => _ end] => destruct x
  | |- tame _ => progress cbn
  end).
Lemma tame_lower_cmp a b : tame (@lower_cmp_d T a b). Proof. tamed. Qed.
Lemma tame_upper_cmp a b : tame (@upper_cmp_d T a b). Proof. tamed. Qed.
Lemma tame_lower_lt a b : tame (@lower_lt_d T a b). Proof. tamed. Qed.
Lemma tame_upper_gt a b : tame (@upper_gt_d T a b). Proof. tamed. Qed.
Lemma tame_eq_and x y b : tame (qand (@ask T KEq x y) (ret T b)). Proof. tamed. Qed.
Lemma tame_can a b : tame (@iv_can_be_merged_d T a b). Proof. destruct a as [[[l u]|]], b as [[[l' u']|]]; tamed. Qed.
Lemma tame_beyond a b : tame (qor (@iv_gt_d T a b) (iv_lt_d a b)). Proof. destruct a as [[[l u]|]], b as [[[l' u']|]]; tamed. Qed.
Lemma tame_intersects a b : tame (@iv_intersects_d T a b). Proof. destruct a as [[[l u]|]], b as [[[l' u']|]]; tamed. Qed.

Ltac quiet t := apply keeps_quiet; [apply keeps_consult, t|perm|].
Ltac dropping r := apply keeps_dropping with (rest := r); [perm|apply keeps_give; perm].
Lemma keeps_lower_min a b : keeps (lthings a ++ lthings b) (lower_min_o us a b) none lthings.
Proof. destruct a as [[a ac]], b as [[b bc]]. quiet tame_lower_cmp. intros []; [dropping [@El T U a]|dropping [@El T U a]|dropping [@El T U b]]. Qed.
Lemma keeps_lower_max a b : keeps (lthings a ++ lthings b) (lower_max_o us a b) none lthings.
Proof. destruct a as [[a ac]], b as [[b bc]]. quiet tame_lower_cmp. intros []; [dropping [@El T U b]|dropping [@El T U b]|dropping [@El T U a]]. Qed.
Lemma keeps_upper_min a b : keeps (uthings a ++ uthings b) (upper_min_o us a b) none uthings.
Proof. destruct a as [[a ac]], b as [[b bc]]. quiet tame_upper_cmp. intros []; [dropping [@El T U a]|dropping [@El T U a]|dropping [@El T U b]]. Qed.
Lemma keeps_upper_max a b : keeps (uthings a ++ uthings b) (upper_max_o us a b) none uthings.
Proof. destruct a as [[a ac]], b as [[b bc]]. quiet tame_upper_cmp. intros []; [dropping [@El T U b]|dropping [@El T U b]|dropping [@El T U a]]. Qed.

Lemma keeps_lower_arith l k : keeps (lthings l ++ [Arg k]) (lower_arith_o us l k) none lthings.
Proof.
  destruct l as [[l lc]]. apply keeps_seq with (rest := []) (1 := keeps_combine us l k); [perm|perm|].
  intros v. apply keeps_give. perm.
Qed.
Lemma keeps_upper_arith u k : keeps (uthings u ++ [Arg k]) (upper_arith_o us u k) none uthings.
Proof.
  destruct u as [[u uc]]. apply keeps_seq with (rest := []) (1 := keeps_combine us u k); [perm|perm|].
  intros v. apply keeps_give. perm.
Qed.
Lemma keeps_lower_assign l k : keeps (lthings l ++ [Arg k]) (lower_assign_o us l k) lthings nil_of.
Proof.
  destruct l as [[l lc]]. apply keeps_after with (rest := []) (1 := keeps_change us l k); [perm|intros; perm|].
  intros v []. apply keeps_over. perm.
Qed.
Lemma keeps_upper_assign u k : keeps (uthings u ++ [Arg k]) (upper_assign_o us u k) uthings nil_of.
Proof.
  destruct u as [[u uc]]. apply keeps_after with (rest := []) (1 := keeps_change us u k); [perm|intros; perm|].
  intros v []. apply keeps_over. perm.
Qed.
Lemma keeps_lower_clone l : keeps [] (lower_clone_o us l) none lthings.
Proof.
  destruct l as [[l lc]]. apply keeps_seq with (rest := []) (1 := keeps_clone_el us l); [perm|perm|].
  intros v. apply keeps_give. perm.
Qed.
Lemma keeps_upper_clone u : keeps [] (upper_clone_o us u) none uthings.
Proof.
  destruct u as [[u uc]]. apply keeps_seq with (rest := []) (1 := keeps_clone_el us u); [perm|perm|].
  intros v. apply keeps_give. perm.
Qed.

Lemma keeps_checked l lc u uc : keeps [El l; El u] (create_checked_o us l lc u uc) none (@things T U).
Proof.
  apply keeps_quiet; [apply keeps_ask|perm|]. intros [|]; [apply keeps_panics; perm|].
  quiet tame_eq_and. intros [|]; [apply keeps_panics; perm|]. apply keeps_give. perm.
Qed.
Lemma keeps_from_bounds l u : keeps (lthings l ++ uthings u) (iv_from_bounds_o us l u) none (@things T U).
Proof. destruct l as [[l lc]], u as [[u uc]]. apply keeps_checked. Qed.
Lemma keeps_single v : keeps [El v] (iv_single_o us v) none (@things T U).
Proof.
  apply keeps_seq with (rest := [El v]) (1 := keeps_clone_el us v); [perm|perm|]. intros v'. apply keeps_give. perm.
Qed.
Lemma keeps_emptied i : keeps (things U i) (@emptied T U i) (@things T U) nil_of.
Proof. apply keeps_dropping with (rest := []); [now rewrite app_nil_r|]. apply keeps_over. perm. Qed.
Lemma keeps_fix i : keeps (things U i) (fix_after_modification_o us i) (@things T U) nil_of.
Proof.
  destruct i as [[[[[l lc]] [[u uc]]]|]]; [|apply keeps_over; perm].
  apply keeps_quiet; [apply keeps_ask|perm|]. intros g.
  set (a := if g then _ else _). assert (P : Permutation (things U (Interval (Some (NonEmpty (Lower (Bound l lc)) (Upper (Bound u uc)))))) (things U (Interval (Some a)))).
  { subst a. destruct g; cbn [swap_bounds lo up]; perm. }
  apply keeps_quiet; [apply keeps_consult, tame_eq_and|exact P|]. intros e. destruct e.
  - eapply keeps_perm; [apply keeps_emptied|exact P].
  - apply keeps_over. rewrite app_nil_r. exact P.
Qed.
Lemma keeps_fixed i : keeps (things U i) (fixed us i) none (@things T U).
Proof.
  apply keeps_after with (rest := []) (1 := keeps_fix i); [now rewrite app_nil_r|intros s; now rewrite !app_nil_r|].
  intros s []. apply keeps_give. cbn. unfold nil_of. now rewrite !app_nil_r.
Qed.
Lemma keeps_friendly l lc u uc : keeps [El l; El u] (create_friendly_o us l lc u uc) none (@things T U).
Proof. apply keeps_fixed. Qed.
Lemma keeps_clone i : keeps [] (iv_clone_o us i) none (@things T U).
Proof.
  destruct i as [[[l u]|]]; [|apply keeps_give; perm].
  apply keeps_seq with (rest := []) (1 := keeps_lower_clone l); [perm|perm|]. intros l'.
  apply keeps_seq with (rest := lthings l') (1 := keeps_upper_clone u); [rewrite app_nil_r; apply Permutation_refl|rewrite app_nil_r; apply Permutation_refl|].
  intros u'. apply keeps_give. destruct l' as [[l' lc']], u' as [[u' uc']]. perm.
Qed.
Lemma keeps_clone_from i source : keeps (things U i) (iv_clone_from_o us i source) (@things T U) nil_of.
Proof.
  apply keeps_seq with (rest := things U i) (1 := keeps_clone source); [apply Permutation_refl|apply Permutation_refl|].
  intros c. apply keeps_dropping with (rest := things U c); [apply Permutation_app_comm|].
  apply keeps_over. unfold nil_of. now rewrite app_nil_r.
Qed.

Lemma keeps_into_merged a b : keeps (things U a ++ things U b) (iv_into_merged_o us a b) none (@merged_things T U).
Proof.
  apply keeps_quiet; [apply keeps_consult, tame_can|rewrite app_nil_r; apply Permutation_app_comm|]. intros [|]; cbn [negb]; [|apply keeps_give; apply Permutation_refl].
  destruct a as [[[[[l lc]] [[u uc]]]|]], b as [[[[[l' lc']] [[u' uc']]]|]]; cbn [iv_is_empty imp iv_into_bounds lo up]; try (apply keeps_give; unfold merged_things; perm).
  apply keeps_seq with (rest := [@El T U u; El u']) (1 := keeps_lower_min _ _); [perm|perm|]. intros [[l0 lc0]].
  apply keeps_seq with (rest := [@El T U l0]) (1 := keeps_upper_max _ _); [perm|perm|]. intros [[u0 uc0]].
  apply keeps_seq with (rest := []) (1 := keeps_from_bounds _ _); [perm|perm|]. intros i. apply keeps_give.
  cbn. now rewrite app_nil_r.
Qed.
Lemma keeps_widen {A} s o (r : A) res : res r = [] -> keeps (nonempty_things U s ++ nonempty_things U o) (iv_widen_o us s o r) (@things T U) res.
Proof.
  intros R.
  destruct s as [[[l lc]] [[u uc]]], o as [[[l' lc']] [[u' uc']]]. cbn [iv_widen_o lo up].
  quiet tame_lower_lt. intros [|]; cbn zeta beta iota; (quiet tame_upper_gt); intros [|]; cbn zeta beta iota;
  (match goal with |- keeps _ (seq ?s _ _ _) _ _ => apply keeps_dropping with (rest := things U s) end; [perm|apply keeps_over; rewrite R; perm]).
Qed.
Lemma keeps_merge a b : keeps (things U a ++ things U b) (iv_merge_o us a b) (@things T U) (@refused_things T U).
Proof.
  apply keeps_quiet; [apply keeps_consult, tame_can|apply Permutation_app_comm|]. intros [|]; cbn [negb]; [|apply keeps_over; apply Permutation_refl].
  destruct a as [[s|]], b as [[o|]]; cbn [imp]; try (apply keeps_over; cbn; rewrite ?app_nil_r; apply Permutation_refl).
  now apply keeps_widen.
Qed.
Lemma keeps_into_intersection a b : keeps (things U a ++ things U b) (iv_into_intersection_o us a b) none (@things T U).
Proof.
  destruct a as [[[[[l lc]] [[u uc]]]|]], b as [[[[[l' lc']] [[u' uc']]]|]]; cbn [iv_into_intersection_o iv_is_empty imp].
  2-4: apply keeps_dropping with (rest := []); [perm|apply keeps_give; perm].
  apply keeps_quiet; [apply keeps_consult, tame_intersects|perm|]. intros [|]; cbn [negb iv_into_bounds imp lo up].
  - apply keeps_seq with (rest := [@El T U u; El u']) (1 := keeps_lower_max _ _); [perm|perm|]. intros [[l0 lc0]].
    apply keeps_seq with (rest := [@El T U l0]) (1 := keeps_upper_min _ _); [perm|perm|]. intros [[u0 uc0]].
    eapply keeps_perm; [apply keeps_from_bounds|perm].
  - apply keeps_dropping with (rest := []); [perm|apply keeps_give; unfold iv_empty; perm].
Qed.
Lemma keeps_intersection a b : keeps (things U a ++ things U b) (iv_intersection_o us a b) (@things T U) nil_of.
Proof.
  assert (E : keeps (things U a ++ things U b) (after (@emptied T U a) (fun i => i) (fun _ => []) (fun i _ => seq i [] (drops (things U b)) (fun _ => over i (Ret tt)))) (@things T U) nil_of).
  { intros h. cbn. rewrite !app_nil_r, bookings_app, !bookings_drops, <- map_app. apply bk_gone_every. }
  unfold iv_intersection_o. destruct (iv_is_empty a || iv_is_empty b) eqn:Z; [exact E|].
  apply keeps_quiet; [apply keeps_consult, tame_beyond|apply Permutation_app_comm|]. intros [|]; [exact E|]. clear E.
  destruct a as [[[[[l lc]] [[u uc]]]|]], b as [[[[[l' lc']] [[u' uc']]]|]]; try discriminate Z. cbn [imp lo up].
  quiet tame_lower_lt. intros [|]; cbn zeta beta iota; (quiet tame_upper_gt); intros [|]; cbn zeta beta iota;
  (match goal with |- keeps _ (seq ?s _ _ _) _ _ => apply keeps_dropping with (rest := things U s) end; [perm|apply keeps_over; perm]).
Qed.
Lemma keeps_into_span a b : keeps (things U a ++ things U b) (iv_into_span_o us a b) none (@things T U).
Proof.
  destruct a as [[[[[l lc]] [[u uc]]]|]], b as [[[[[l' lc']] [[u' uc']]]|]]; cbn [iv_into_span_o iv_is_empty imp iv_into_bounds lo up]; try (apply keeps_give; perm).
  apply keeps_seq with (rest := [@El T U u; El u']) (1 := keeps_lower_min _ _); [perm|perm|]. intros [[l0 lc0]].
  apply keeps_seq with (rest := [@El T U l0]) (1 := keeps_upper_max _ _); [perm|perm|]. intros [[u0 uc0]].
  eapply keeps_perm; [apply keeps_from_bounds|perm].
Qed.
Lemma keeps_span a b : keeps (things U a ++ things U b) (iv_span_o us a b) (@things T U) nil_of.
Proof.
  destruct a as [[s|]], b as [[o|]]; cbn [iv_span_o iv_is_empty imp]; try (apply keeps_over; cbn; rewrite ?app_nil_r; apply Permutation_refl).
  now apply keeps_widen.
Qed.

Lemma keeps_arith i k : keeps (things U i ++ [Arg k]) (iv_arith_o us i k) none (@things T U).
Proof.
  destruct i as [[[[[l lc]] [[u uc]]]|]]; cbn [iv_arith_o imp lo up].
  - apply keeps_seq with (rest := [El l; El u; Arg k]) (1 := keeps_clone_arg us k); [perm|perm|]. intros k'.
    apply keeps_seq with (rest := [El l; Arg k]) (1 := keeps_upper_arith _ _); [perm|perm|]. intros [[u0 uc0]].
    apply keeps_seq with (rest := [El u0]) (1 := keeps_lower_arith _ _); [perm|perm|]. intros [[l0 lc0]].
    eapply keeps_perm; [apply keeps_fixed|perm].
  - apply keeps_dropping with (rest := []); [perm|apply keeps_give; perm].
Qed.
Lemma keeps_assign i k : keeps (things U i ++ [Arg k]) (iv_assign_o us i k) (@things T U) nil_of.
Proof.
  destruct i as [[[[[l lc]] [[u uc]]]|]]; cbn [iv_assign_o imp lo up].
  - apply keeps_seq with (rest := [El l; El u; Arg k]) (1 := keeps_clone_arg us k); [perm|perm|]. intros k'.
    apply keeps_after with (rest := [El u; Arg k]) (1 := keeps_lower_assign _ _); [perm|intros [[l0 lc0]]; perm|]. intros [[l0 lc0]] [].
    apply keeps_after with (rest := [El l0]) (1 := keeps_upper_assign _ _); [perm|intros [[u0 uc0]]; perm|]. intros [[u0 uc0]] [].
    eapply keeps_perm; [apply keeps_fix|perm].
  - apply keeps_after with (rest := [Arg k]) (1 := keeps_fix (Interval None)); [perm|intros [[[[[l lc]] [[u uc]]]|]]; perm|]. intros i' [].
    apply keeps_dropping with (rest := things U i'); [unfold nil_of; rewrite app_nil_r; apply Permutation_app_comm|apply keeps_over; unfold nil_of; now rewrite app_nil_r].
Qed.
Lemma keeps_neg i : keeps (things U i) (iv_neg_o us i) none (@things T U).
Proof.
  destruct i as [[[[[l lc]] [[u uc]]]|]]; cbn [iv_neg_o iv_into_tuple imp lo up lower_into_tuple upper_into_tuple lbound ubound bval bclosed].
  - apply keeps_seq with (rest := [El l]) (1 := keeps_negate us u); [perm|perm|]. intros u'.
    apply keeps_seq with (rest := [El u']) (1 := keeps_negate us l); [perm|perm|]. intros l'.
    eapply keeps_perm; [apply keeps_friendly|perm].
  - apply keeps_give. unfold iv_empty. perm.
Qed.
End Calls.
