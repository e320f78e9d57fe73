(** Property theorems C42-C51 and C63-C65: the counter. *)
From Coq Require Import Permutation.
From Verif Require Import Base HMModel CTModel CTSpec CTRun CTProofs CTProofs2 CTProofs3 CTProofs4 CTProofs5.
Local Open Scope outcome_scope.

(** ** A concrete machine, key type and counters used in the examples *)
Definition Ec : machine := Machine 255 16 true.
Definition Ecr : machine := Machine 255 16 false.
(** keys carry a tag that equality ignores; cloning forgets the tag *)
Definition key : Type := nat * nat.
Definition keq (a b : key) : bool := fst a =? fst b.
Definition kcl (a : key) : key := (fst a, 0).

Lemma keq_laws : eq_laws keq.
Proof.
  constructor; unfold keq; intros; rewrite ?Nat.eqb_eq in *; congruence.
Qed.
Lemma kcl_eq k : keq (kcl k) k = true.
Proof. apply Nat.eqb_refl. Qed.

Definition word : list key := [(1, 10); (2, 20); (1, 11); (3, 30); (1, 12); (2, 21)].
Definition ca : counter key := Counter [((3, 30), 1); ((2, 20), 2); ((1, 10), 3)].
Definition cb' : counter key := Counter [((4, 40), 5); ((1, 13), 7)].
Lemma ca_valid : ct_valid keq Ec ca.
Proof. split; [split; repeat constructor|]; apply Nat.leb_le; reflexivity. Qed.
Lemma cb_valid : ct_valid keq Ec cb'.
Proof. split; [split; repeat constructor|]; apply Nat.leb_le; reflexivity. Qed.

(** ** C42 *)
Theorem c42_from_iter_counts_occurrences : forall K (eqb : K -> K -> bool) E hint xs c,
  eq_laws eqb -> 1 <= usize_max E -> ct_from_iter eqb E hint xs = Ret c ->
  debug_build E = true \/ (forall x, occ eqb x xs <= usize_max E) ->
  (forall x, ct_get eqb c x = if occ eqb x xs =? 0 then None else Some (occ eqb x xs)) /\
  has_distinct eqb xs (ct_len c).
Proof. exact (fun K eqb E h xs c L U H O => proj2 (@from_iter_counts K eqb L E U h xs c H O)). Qed.
Print Assumptions c42_from_iter_counts_occurrences.

Theorem c42_from_iter_returns : forall K (eqb : K -> K -> bool) E hint xs n,
  eq_laws eqb -> 1 <= usize_max E -> hint <= alloc_max E ->
  has_distinct eqb xs n -> n <= alloc_max E ->
  (debug_build E = true -> forall x, occ eqb x xs <= usize_max E) ->
  exists c, ct_from_iter eqb E hint xs = Ret c.
Proof. exact (fun K eqb E h xs n L U => @from_iter_returns K eqb L E U h xs n). Qed.
Print Assumptions c42_from_iter_returns.

Theorem c42_from_iter_by_reference_agrees : forall K (eqb : K -> K -> bool) cl E hint xs,
  eq_laws eqb -> (forall k, eqb (cl k) k = true) -> 1 <= usize_max E ->
  agree eqb (ct_from_iter eqb E hint xs) (ct_from_iter_ref eqb cl E hint xs).
Proof. exact (fun K eqb cl E h xs L CL U => @from_iter_ref_agree K eqb L E U cl h xs CL). Qed.
Print Assumptions c42_from_iter_by_reference_agrees.

Example c42_ex : ct_from_iter keq Ec 6 word = Ret ca /\ occ keq (1, 0) word = 3 /\ occ keq (9, 0) word = 0
  /\ ct_get keq ca (1, 99) = Some 3 /\ ct_get keq ca (9, 0) = None.
Proof. repeat split. Qed.
Example c42_ex_distinct : has_distinct keq word 3.
Proof. exact (proj2 (c42_from_iter_counts_occurrences key keq Ec _ _ _ keq_laws (proj1 (Nat.leb_le 1 255) eq_refl)
  (proj1 c42_ex) (or_introl eq_refl))). Qed.
Example c42_ex_ref : ct_from_iter_ref keq kcl Ec 0 word = Ret (Counter [((3, 0), 1); ((2, 0), 2); ((1, 0), 3)]).
Proof. reflexivity. Qed.

(** ** C43 *)
Theorem c43_push_adds_one : forall K (eqb : K -> K -> bool) E k c c',
  eq_laws eqb -> 1 <= usize_max E -> ct_valid eqb E c -> ct_push eqb E k c = (c', Ret tt) ->
  debug_build E = true \/ opt_count (ct_get eqb c k) < usize_max E ->
  forall x, ct_get eqb c' x =
    if eqb x k then Some (S (opt_count (ct_get eqb c k))) else ct_get eqb c x.
Proof. exact (fun K eqb E k c c' L U V H O => proj2 (@push_counts K eqb L E U k c c' V H O)). Qed.
Print Assumptions c43_push_adds_one.

Theorem c43_extend_adds_occurrences : forall K (eqb : K -> K -> bool) E hint xs c c',
  eq_laws eqb -> 1 <= usize_max E -> ct_valid eqb E c -> ct_extend eqb E hint xs c = (c', Ret tt) ->
  debug_build E = true \/ (forall x, opt_count (ct_get eqb c x) + occ eqb x xs <= usize_max E) ->
  forall x, ct_get eqb c' x =
    opt_plus (ct_get eqb c x) (if occ eqb x xs =? 0 then None else Some (occ eqb x xs)).
Proof. exact (fun K eqb E h xs c c' L U V H O => proj2 (@extend_counts K eqb L E U h xs c c' V H O)). Qed.
Print Assumptions c43_extend_adds_occurrences.

Theorem c43_extend_returns : forall K (eqb : K -> K -> bool) E hint xs c n,
  eq_laws eqb -> 1 <= usize_max E -> ct_valid eqb E c -> ct_len c + hint <= alloc_max E ->
  has_distinct eqb (map fst (ct_map c) ++ xs) n -> n <= alloc_max E ->
  (debug_build E = true -> forall x, opt_count (ct_get eqb c x) + occ eqb x xs <= usize_max E) ->
  exists c', ct_extend eqb E hint xs c = (c', Ret tt).
Proof. exact (fun K eqb E h xs c n L U => @extend_returns K eqb L E U h xs c n). Qed.
Print Assumptions c43_extend_returns.

Theorem c43_extend_order_is_irrelevant : forall K (eqb : K -> K -> bool) E hint xs ys c,
  eq_laws eqb -> 1 <= usize_max E -> ct_valid eqb E c -> Permutation xs ys ->
  snd (ct_extend eqb E hint xs c) = snd (ct_extend eqb E hint ys c) /\
  (snd (ct_extend eqb E hint xs c) = Ret tt ->
   ct_eq eqb (fst (ct_extend eqb E hint xs c)) (fst (ct_extend eqb E hint ys c)) = true).
Proof. exact (fun K eqb E h xs ys c L U => @extend_perm K eqb L E U h xs ys c). Qed.
Print Assumptions c43_extend_order_is_irrelevant.

Theorem c43_extend_by_reference_is_extend : forall K (eqb : K -> K -> bool) E hint xs c,
  ct_extend_ref eqb E hint xs c = ct_extend eqb E hint xs c.
Proof. intros. unfold ct_extend_ref. now rewrite map_id. Qed.
Print Assumptions c43_extend_by_reference_is_extend.

Example c43_ex : ct_extend keq Ec 2 [(2, 5); (7, 70); (7, 71)] ca =
  (Counter [((7, 70), 2); ((3, 30), 1); ((2, 20), 3); ((1, 10), 3)], Ret tt) /\
  ct_extend keq Ec 2 [(7, 71); (2, 5); (7, 70)] ca =
  (Counter [((7, 71), 2); ((3, 30), 1); ((2, 20), 3); ((1, 10), 3)], Ret tt) /\
  ct_push keq Ec (3, 1) ca = (Counter [((3, 30), 2); ((2, 20), 2); ((1, 10), 3)], Ret tt).
Proof. repeat split. Qed.
Example c43_ex_panic : snd (ct_push keq Ec (1, 1) (Counter [((1, 10), 255)])) = Panic /\
  snd (ct_extend keq Ec 14 [] ca) = Panic.
Proof. split; reflexivity. Qed.

(** ** C44 *)
Theorem c44_add_is_pointwise : forall K (eqb : K -> K -> bool) E a b l c,
  eq_laws eqb -> ct_valid eqb E a -> ct_valid eqb E b -> ct_into_iter b l ->
  ct_add eqb E a l = Ret c ->
  debug_build E = true \/
    (forall x, opt_count (ct_get eqb a x) + opt_count (ct_get eqb b x) <= usize_max E) ->
  forall x, ct_get eqb c x = opt_plus (ct_get eqb a x) (ct_get eqb b x).
Proof. exact (fun K eqb E a b l c L Va Vb => @add_pointwise K eqb L E a b Va Vb l c). Qed.
Print Assumptions c44_add_is_pointwise.

Theorem c44_add_returns : forall K (eqb : K -> K -> bool) E a b l n,
  eq_laws eqb -> ct_valid eqb E a -> ct_valid eqb E b -> ct_into_iter b l ->
  (debug_build E = true ->
     forall x, opt_count (ct_get eqb a x) + opt_count (ct_get eqb b x) <= usize_max E) ->
  has_size eqb (fun x => match shown eqb a x with Some e => Some e | None => shown eqb b x end) n ->
  n <= alloc_max E ->
  exists c, ct_add eqb E a l = Ret c.
Proof. exact (fun K eqb E a b l n L Va Vb => @add_returns K eqb L E a b Va Vb l n). Qed.
Print Assumptions c44_add_returns.

Theorem c44_add_is_commutative : forall K (eqb : K -> K -> bool) E a b la lb,
  eq_laws eqb -> ct_valid eqb E a -> ct_valid eqb E b -> ct_into_iter a la -> ct_into_iter b lb ->
  agree eqb (ct_add eqb E a lb) (ct_add eqb E b la).
Proof. exact (fun K eqb E a b la lb L => @add_comm K eqb L E a b la lb). Qed.
Print Assumptions c44_add_is_commutative.

Theorem c44_add_is_associative : forall K (eqb : K -> K -> bool) E a b c lb lc pick,
  eq_laws eqb -> ct_valid eqb E a -> ct_valid eqb E b -> ct_valid eqb E c ->
  ct_into_iter b lb -> ct_into_iter c lc -> (forall l, Permutation l (pick l)) ->
  agree eqb (let* ab := ct_add eqb E a lb in ct_add eqb E ab lc)
            (let* bc := ct_add eqb E b lc in ct_add eqb E a (pick (ct_map bc))).
Proof. exact (fun K eqb E a b c lb lc pick L => @add_assoc K eqb L E a b c lb lc pick). Qed.
Print Assumptions c44_add_is_associative.

Theorem c44_add_variants_agree : forall K (eqb : K -> K -> bool) cl E a b l1 l2 l3 l4,
  eq_laws eqb -> (forall k, eqb (cl k) k = true) -> ct_valid eqb E a -> ct_valid eqb E b ->
  ct_into_iter b l1 -> ct_into_iter b l2 -> ct_into_iter b l3 -> ct_into_iter b l4 ->
  agree eqb (ct_add eqb E a l1) (finish (ct_add_assign eqb E l2 a)) /\
  agree eqb (ct_add eqb E a l1) (finish (ct_add_assign_ref eqb cl E l3 a)) /\
  agree eqb (ct_add eqb E a l1) (ct_add_ref eqb cl E a l4).
Proof.
  exact (fun K eqb cl E a b l1 l2 l3 l4 L CL Va Vb P1 P2 P3 P4 =>
    conj (@add_orders K eqb L E a b l1 l2 Va Vb P1 P2)
   (conj (@add_ref_orders K eqb L E cl a b l1 l3 CL Va Vb P1 P3)
         (@add_ref_orders K eqb L E cl a b l1 l4 CL Va Vb P1 P4))).
Qed.
Print Assumptions c44_add_variants_agree.

Example c44_ex : ct_into_iter cb' [((1, 13), 7); ((4, 40), 5)] /\
  ct_add keq Ec ca [((1, 13), 7); ((4, 40), 5)] =
    Ret (Counter [((4, 40), 5); ((3, 30), 1); ((2, 20), 2); ((1, 10), 10)]) /\
  ct_add keq Ec cb' (ct_map ca) =
    Ret (Counter [((2, 20), 2); ((3, 30), 1); ((4, 40), 5); ((1, 13), 10)]) /\
  ct_add_ref keq kcl Ec ca (ct_map cb') =
    Ret (Counter [((4, 0), 5); ((3, 30), 1); ((2, 20), 2); ((1, 10), 10)]).
Proof. split; [apply perm_swap|]. repeat split. Qed.
Example c44_ex_size :
  has_size keq (fun x => match shown keq ca x with Some e => Some e | None => shown keq cb' x end) 4.
Proof.
  exists [(4, 40); (3, 30); (2, 20); (1, 10)]. split; [repeat constructor|]. split; [reflexivity|].
  intros [a t]. unfold shown, ct_get_key_value, keq; simpl. split.
  - destruct (a =? 3) eqn:H3; [intros _; exists (3, 30); simpl; auto|].
    destruct (a =? 2) eqn:H2; [intros _; exists (2, 20); simpl; auto|].
    destruct (a =? 1) eqn:H1; [intros _; exists (1, 10); simpl; auto 10|].
    destruct (a =? 4) eqn:H4; [intros _; exists (4, 40); simpl; auto 10|]. congruence.
  - intros (k & [<-|[<-|[<-|[<-|[]]]]] & H); simpl in H; apply Nat.eqb_eq in H; subst; discriminate.
Qed.
(** sums that overflow: panic in debug builds for both orders *)
Example c44_ex_overflow : ct_add keq Ec (Counter [((1, 0), 200)]) [((1, 1), 100)] = Panic /\
  ct_add keq Ec (Counter [((1, 1), 100)]) [((1, 0), 200)] = Panic /\
  ct_add keq Ecr (Counter [((1, 0), 200)]) [((1, 1), 100)] = Ret (Counter [((1, 0), 44)]).
Proof. repeat split. Qed.

(** ** C45 *)
Theorem c45_sub_is_pointwise : forall K (eqb : K -> K -> bool) E a b l c,
  eq_laws eqb -> ct_valid eqb E a -> ct_valid eqb E b -> ct_into_iter b l ->
  ct_sub eqb E a l = Ret c ->
  forall x, ct_get eqb c x = opt_minus (ct_get eqb a x) (ct_get eqb b x).
Proof. exact (fun K eqb E a b l c L => @sub_pointwise K eqb L E a b l c). Qed.
Print Assumptions c45_sub_is_pointwise.

(** it always returns, except when a full table meets an absent key (see the
    model of [HashMap::entry]) *)
Theorem c45_sub_returns : forall K (eqb : K -> K -> bool) E a b l,
  eq_laws eqb -> ct_valid eqb E a -> ct_valid eqb E b -> ct_into_iter b l ->
  ct_len a < alloc_max E \/ (forall x, ct_get eqb b x <> None -> ct_get eqb a x <> None) ->
  exists c, ct_sub eqb E a l = Ret c.
Proof.
  exact (fun K eqb E a b l L Va Vb P H =>
    match H with
    | or_introl Le => @sub_ret K eqb L E l a Va (proj1 (@iterates_content K eqb L E b l Vb P)) Le
    | or_intror Inc => @sub_ret_iff K eqb L E a b l Va Vb P Inc
    end).
Qed.
Print Assumptions c45_sub_returns.

Theorem c45_sub_variants_agree : forall K (eqb : K -> K -> bool) cl E a b l1 l2 l3 l4,
  eq_laws eqb -> (forall k, eqb (cl k) k = true) -> ct_valid eqb E a -> ct_valid eqb E b ->
  ct_into_iter b l1 -> ct_into_iter b l2 -> ct_into_iter b l3 -> ct_into_iter b l4 ->
  ct_len a < alloc_max E ->
  agree eqb (ct_sub eqb E a l1) (finish (ct_sub_assign eqb E l2 a)) /\
  agree eqb (ct_sub eqb E a l1) (finish (ct_sub_assign_ref eqb cl E l3 a)) /\
  agree eqb (ct_sub eqb E a l1) (ct_sub_ref eqb cl E a l4).
Proof.
  exact (fun K eqb cl E a b l1 l2 l3 l4 L CL Va Vb P1 P2 P3 P4 Le =>
    conj (@sub_orders K eqb L E a b l1 l2 Va Vb P1 P2 Le)
   (conj (@sub_ref_orders K eqb L E cl a b l1 l3 CL Va Vb P1 P3 Le)
         (@sub_ref_orders K eqb L E cl a b l1 l4 CL Va Vb P1 P4 Le))).
Qed.
Print Assumptions c45_sub_variants_agree.

Example c45_ex : ct_into_iter cb' (ct_map cb') /\ ct_len ca < alloc_max Ec /\
  ct_sub keq Ec ca (ct_map cb') = Ret (Counter [((3, 30), 1); ((2, 20), 2)]) /\
  ct_sub keq Ec cb' (ct_map ca) = Ret (Counter [((4, 40), 5); ((1, 13), 4)]) /\
  ct_sub_ref keq kcl Ec ca [((1, 5), 2); ((2, 5), 2)] = Ret (Counter [((3, 30), 1); ((1, 10), 1)]).
Proof. split; [apply Permutation_refl|]. split; [apply Nat.leb_le; reflexivity|]. repeat split. Qed.

(** ** C46 *)
Theorem c46_add_then_sub_restores : forall K (eqb : K -> K -> bool) E a b l c l',
  eq_laws eqb -> ct_valid eqb E a -> ct_valid eqb E b ->
  ct_into_iter b l -> ct_into_iter b l' -> ct_add eqb E a l = Ret c ->
  (forall x, ct_get eqb a x <> Some 0) ->
  debug_build E = true \/
    (forall x, opt_count (ct_get eqb a x) + opt_count (ct_get eqb b x) <= usize_max E) ->
  exists d, ct_sub eqb E c l' = Ret d /\ ct_eq eqb d a = true.
Proof. exact (fun K eqb E a b l c l' L => @add_sub K eqb L E a b l c l'). Qed.
Print Assumptions c46_add_then_sub_restores.

Example c46_ex : (let* c := ct_add keq Ec ca (ct_map cb') in ct_sub keq Ec c (rev (ct_map cb'))) = Ret ca /\
  (forall x, ct_get keq ca x <> Some 0).
Proof.
  split; [reflexivity|]. intros [a t]. unfold ct_get, hm_get, keq; simpl.
  destruct (a =? 3), (a =? 2), (a =? 1); simpl; congruence.
Qed.
(** both side conditions are needed *)
Example c46_zero_count_is_lost :
  (let* c := ct_add keq Ec (Counter [((1, 0), 0)]) [((1, 0), 5)] in ct_sub keq Ec c [((1, 0), 5)])
  = Ret (Counter []) /\
  (let* c := ct_add keq Ecr (Counter [((1, 0), 200)]) [((1, 0), 100)] in ct_sub keq Ecr c [((1, 0), 100)])
  = Ret (Counter []).
Proof. split; reflexivity. Qed.

(** ** C47 *)
Theorem c47_into_most_common_sorts_all_entries : forall K (eqb : K -> K -> bool) E c r,
  eq_laws eqb -> ct_valid eqb E c -> ct_into_most_common E c r ->
  enumerates eqb (shown eqb c) r /\ ForallOrdPairs (fun p q => snd q <= snd p) r.
Proof. exact (fun K eqb E c r L => @into_most_common_ok K eqb L E c r). Qed.
Print Assumptions c47_into_most_common_sorts_all_entries.

Theorem c47_most_common_sorts_all_entries : forall K (eqb : K -> K -> bool) cl E c r,
  eq_laws eqb -> ct_valid eqb E c -> ct_most_common cl E c r ->
  (exists l, enumerates eqb (shown eqb c) l /\ r = map (fun e => (cl (fst e), snd e)) l) /\
  ForallOrdPairs (fun p q => snd q <= snd p) r.
Proof. exact (fun K eqb cl E c r L => @most_common_ok K eqb L E cl c r). Qed.
Print Assumptions c47_most_common_sorts_all_entries.

(** a result exists: the sort key never panics *)
Theorem c47_most_common_returns : forall K (eqb : K -> K -> bool) cl E c,
  eq_laws eqb -> ct_valid eqb E c ->
  (exists r, ct_into_most_common E c r) /\ (exists r, ct_most_common cl E c r).
Proof.
  exact (fun K eqb cl E c L V =>
    conj (@into_most_common_exists K eqb E c V) (@most_common_exists K eqb L E cl c V)).
Qed.
Print Assumptions c47_most_common_returns.

Theorem c47_counts_are_determined : forall K (eqb : K -> K -> bool) cl E c r1 r2,
  eq_laws eqb -> ct_valid eqb E c -> ct_into_most_common E c r1 -> ct_most_common cl E c r2 ->
  map snd r1 = map snd r2.
Proof. exact (fun K eqb cl E c r1 r2 L => @most_common_counts K eqb L E cl c r1 r2). Qed.
Print Assumptions c47_counts_are_determined.

Example c47_ex : ct_into_most_common Ec ca [((1, 10), 3); ((2, 20), 2); ((3, 30), 1)].
Proof.
  exists (ct_map ca). split; [apply Permutation_refl|]. split; [|split].
  - simpl. apply Permutation_rev.
  - repeat constructor; eexists _, _; (split; [reflexivity|]; split; [reflexivity|]; apply Nat.leb_le; reflexivity).
  - repeat constructor; eexists; reflexivity.
Qed.

(** ** C48 *)
Theorem c48_total_is_conserved : forall K (eqb : K -> K -> bool) cl E ops ns c c' tr,
  eq_laws eqb -> (forall k, eqb (cl k) k = true) -> 1 <= usize_max E -> ct_valid eqb E c ->
  Forall (op_ok eqb E) ops -> Forall2 (fun o n => counted o = Some n) ops ns ->
  ct_run eqb cl E ops c = (c', tr) -> Forall (fun r => r = Ret RUnit) tr ->
  debug_build E = true \/ total (ct_map c) + list_sum ns <= usize_max E ->
  total (ct_map c') = total (ct_map c) + list_sum ns.
Proof. exact (fun K eqb cl E ops ns c c' tr L CL U => @history_total K eqb L E cl ops ns c c' tr U CL). Qed.
Print Assumptions c48_total_is_conserved.

Theorem c48_from_iter_total_is_length : forall K (eqb : K -> K -> bool) E hint xs c,
  eq_laws eqb -> 1 <= usize_max E -> ct_from_iter eqb E hint xs = Ret c ->
  debug_build E = true \/ length xs <= usize_max E -> total (ct_map c) = length xs.
Proof. exact (fun K eqb E h xs c L U => @from_iter_total K eqb L E h xs c U). Qed.
Print Assumptions c48_from_iter_total_is_length.

Definition c48_ops : list (op key) :=
  [OPush (1, 5); OExtend 3 [(2, 0); (6, 60); (2, 1)]; OAdd (ct_map cb'); OAddRef (ct_map cb')].
Example c48_ex : Forall (op_ok keq Ec) c48_ops /\
  Forall2 (fun o n => counted o = Some n) c48_ops [1; 3; 12; 12] /\
  snd (ct_run keq kcl Ec c48_ops ca) = [Ret RUnit; Ret RUnit; Ret RUnit; Ret RUnit] /\
  total (ct_map ca) = 6 /\ total (ct_map (fst (ct_run keq kcl Ec c48_ops ca))) = 34.
Proof.
  split; [|split; [repeat constructor|repeat split]].
  repeat (apply Forall_cons; [simpl; try exact I; try (apply cb_valid)|]). apply Forall_nil.
Qed.

(** ** C49 *)
(** debug builds: counting panics or is exact *)
Theorem c49_debug_counts_are_exact_or_panic_partial : forall K (eqb : K -> K -> bool) E k c,
  eq_laws eqb -> 1 <= usize_max E -> debug_build E = true -> ct_valid eqb E c ->
  (ct_push eqb E k c = (c, Panic) /\
     (opt_count (ct_get eqb c k) = usize_max E \/
      (ct_get eqb c k = None /\ ct_len c = alloc_max E))) \/
  (exists c', ct_push eqb E k c = (c', Ret tt) /\
     ct_get eqb c' k = Some (S (opt_count (ct_get eqb c k)))).
Proof. exact (fun K eqb E k c L U => @push_debug K eqb L E k c U). Qed.
Print Assumptions c49_debug_counts_are_exact_or_panic_partial.

(** release builds: a count at [usize::MAX] silently becomes 0, in every such
    build and for every key *)
Theorem c49_counts_never_silently_overflow_refuted : forall K (eqb : K -> K -> bool) E k,
  eq_laws eqb -> debug_build E = false -> 1 <= alloc_max E -> 1 <= usize_max E ->
  exists c c', ct_valid eqb E c /\ ct_get eqb c k = Some (usize_max E) /\
    ct_push eqb E k c = (c', Ret tt) /\ ct_get eqb c' k = Some 0.
Proof. exact (fun K eqb E k L => @push_wraps K eqb L E k). Qed.
Print Assumptions c49_counts_never_silently_overflow_refuted.

Example c49_ex : ct_push keq Ecr (1, 0) (Counter [((1, 10), 255)]) = (Counter [((1, 10), 0)], Ret tt) /\
  ct_push keq Ec (1, 0) (Counter [((1, 10), 255)]) = (Counter [((1, 10), 255)], Panic).
Proof. split; reflexivity. Qed.

(** ** C50 *)
Theorem c50_from_hashmap_keeps_entries : forall K (eqb : K -> K -> bool) E m,
  eq_laws eqb -> map_content eqb E m -> length m <= alloc_max E ->
  ct_valid eqb E (ct_from_hashmap m) /\ ct_len (ct_from_hashmap m) = length m /\
  forall x e, ct_get_key_value eqb (ct_from_hashmap m) x = Some e <-> In e m /\ eqb x (fst e) = true.
Proof. exact (fun K eqb E m L => @from_hashmap_entries K eqb L E m). Qed.
Print Assumptions c50_from_hashmap_keeps_entries.

Theorem c50_from_map_keeps_entries : forall K (eqb : K -> K -> bool) E m l,
  eq_laws eqb -> map_content eqb E m -> length m <= alloc_max E -> iterates m l ->
  exists c, ct_from eqb E l = Ret c /\ ct_len c = length m /\
    forall x e, ct_get_key_value eqb c x = Some e <-> In e m /\ eqb x (fst e) = true.
Proof. exact (fun K eqb E m l L => @from_entries K eqb L E m l). Qed.
Print Assumptions c50_from_map_keeps_entries.

Theorem c50_from_map_ref_keeps_counts : forall K (eqb : K -> K -> bool) cl E m l,
  eq_laws eqb -> (forall k, eqb (cl k) k = true) ->
  map_content eqb E m -> length m <= alloc_max E -> iterates m l ->
  exists c, ct_from_ref eqb cl E l = Ret c /\ ct_len c = length m /\
    forall x n, ct_get eqb c x = Some n <-> exists k, In (k, n) m /\ eqb x k = true.
Proof. exact (fun K eqb cl E m l L => @from_ref_entries K eqb L E cl m l). Qed.
Print Assumptions c50_from_map_ref_keeps_counts.

Theorem c50_equality_is_same_lookups : forall K (eqb : K -> K -> bool) E a b,
  eq_laws eqb -> ct_valid eqb E a -> ct_valid eqb E b ->
  (ct_eq eqb a b = true <-> forall x, ct_get eqb a x = ct_get eqb b x).
Proof. exact (fun K eqb E a b L => @eq_iff K eqb L E a b). Qed.
Print Assumptions c50_equality_is_same_lookups.

Theorem c50_equality_is_an_equivalence : forall K (eqb : K -> K -> bool) E,
  eq_laws eqb ->
  (forall a, ct_valid eqb E a -> ct_eq eqb a a = true) /\
  (forall a b, ct_valid eqb E a -> ct_valid eqb E b -> ct_eq eqb a b = ct_eq eqb b a) /\
  (forall a b c, ct_valid eqb E a -> ct_valid eqb E b -> ct_valid eqb E c ->
     ct_eq eqb a b = true -> ct_eq eqb b c = true -> ct_eq eqb a c = true).
Proof.
  exact (fun K eqb E L => conj (@eq_refl_ct K eqb L E) (conj (@eq_sym_ct K eqb L E) (@eq_trans_ct K eqb L E))).
Qed.
Print Assumptions c50_equality_is_an_equivalence.

Theorem c50_clone_is_equal : forall K (eqb : K -> K -> bool) cl E c,
  eq_laws eqb -> (forall k, eqb (cl k) k = true) -> ct_valid eqb E c ->
  ct_valid eqb E (ct_clone cl c) /\ ct_eq eqb (ct_clone cl c) c = true.
Proof. exact (fun K eqb cl E c L => @clone_eq K eqb L E cl c). Qed.
Print Assumptions c50_clone_is_equal.

Example c50_ex : ct_from keq Ec (rev (ct_map ca)) = Ret ca /\ iterates (ct_map ca) (rev (ct_map ca)) /\
  ct_eq keq ca (Counter [((1, 7), 3); ((3, 7), 1); ((2, 7), 2)]) = true /\
  ct_eq keq ca (Counter [((1, 7), 3); ((3, 7), 1); ((2, 7), 1)]) = false /\
  ct_eq keq ca cb' = false.
Proof. split; [reflexivity|]. split; [apply Permutation_rev|]. repeat split. Qed.

(** ** C51 *)
Theorem c51_history_is_finite_map : forall K (eqb : K -> K -> bool) cl E ops c c' tr,
  eq_laws eqb -> (forall k, eqb (cl k) k = true) -> 1 <= usize_max E ->
  ct_valid eqb E c -> Forall (op_ok eqb E) ops -> ct_run eqb cl E ops c = (c', tr) ->
  ct_valid eqb E c' /\ history eqb E cl ops (shown eqb c) (shown eqb c') tr.
Proof. exact (fun K eqb cl E ops c c' tr L CL U => @run_ok K eqb L E cl CL U ops c c' tr). Qed.
Print Assumptions c51_history_is_finite_map.

Definition c51_ops : list (op key) :=
  [OPush (5, 50); OInsert (2, 9) 40; OSub (ct_map cb'); OGetMut (5, 0) (fun n => Nat.min 255 (n * 3));
   OIter (@rev _); ORetain (fun _ n => n <? 20); OLen; OIndex (2, 0); ORemove (3, 0); OIsEmpty;
   OReserve 15; OIndex (9, 9)].
Example c51_ex : Forall (op_ok keq Ec) c51_ops /\
  snd (ct_run keq kcl Ec c51_ops ca) =
   [Ret RUnit; Ret (ROpt (Some 2)); Ret RUnit; Ret (RBool true);
    Ret (RList [((2, 20), 40); ((3, 30), 1); ((5, 50), 3)]); Ret RUnit; Ret (RNat 2); Panic;
    Ret (ROpt (Some 1)); Ret (RBool false); Ret RUnit; Panic].
Proof.
  split; [|reflexivity].
  repeat (apply Forall_cons; [cbn [op_ok]; try exact I|]); try apply Forall_nil.
  - apply Nat.leb_le; reflexivity.
  - apply cb_valid.
  - intros n. apply (Nat.le_min_l 255).
  - intros l. apply Permutation_rev.
Qed.

(** iteration meets every entry once, in any order *)
Theorem c51_into_iter_enumerates_the_entries : forall K (eqb : K -> K -> bool) E c l,
  eq_laws eqb -> ct_valid eqb E c -> ct_into_iter c l -> enumerates eqb (shown eqb c) l.
Proof. exact (fun K eqb E c l L V I => @enumerates_iterates K eqb L E c l V I). Qed.
Print Assumptions c51_into_iter_enumerates_the_entries.

(** an empty counter is built exactly for the capacities a table can have *)
Theorem c51_with_capacity_is_empty : forall K (eqb : K -> K -> bool) E n,
  ct_with_capacity K E n = (if n <=? alloc_max E then Ret (ct_new K) else Panic) /\
  same (shown eqb (ct_new K)) (@empty K).
Proof.
  intros K eqb E n. split; [|intros x; reflexivity].
  unfold ct_with_capacity, hm_reserve. simpl. destruct (n <=? alloc_max E); reflexivity.
Qed.
Print Assumptions c51_with_capacity_is_empty.

Example c51_ex_iter : ct_into_iter ca (rev (ct_map ca)) /\ ct_len ca = 3 /\
  enumerates keq (shown keq ca) (rev (ct_map ca)).
Proof.
  split; [apply Permutation_rev|]. split; [reflexivity|].
  exact (c51_into_iter_enumerates_the_entries _ keq Ec ca _ keq_laws ca_valid (Permutation_rev _)).
Qed.
Example c51_ex_capacity : ct_with_capacity key Ec 3 = Ret (ct_new key) /\ ct_with_capacity key Ec 300 = Panic.
Proof. split; reflexivity. Qed.

(** ** C63: algebraic laws *)
Theorem c63_subtracting_itself_gives_empty : forall K (eqb : K -> K -> bool) E a l,
  eq_laws eqb -> ct_valid eqb E a -> ct_into_iter a l ->
  exists d, ct_sub eqb E a l = Ret d /\ ct_len d = 0.
Proof. exact (fun K eqb E a l L => @sub_self K eqb L E a l). Qed.
Print Assumptions c63_subtracting_itself_gives_empty.

Theorem c63_subtracting_twice_is_subtracting_the_sum : forall K (eqb : K -> K -> bool) E a b c lb lc bc lbc ab abc abc',
  eq_laws eqb -> ct_valid eqb E a -> ct_valid eqb E b -> ct_valid eqb E c ->
  ct_into_iter b lb -> ct_into_iter c lc ->
  ct_add eqb E b lc = Ret bc -> ct_into_iter bc lbc ->
  debug_build E = true \/
    (forall x, opt_count (ct_get eqb b x) + opt_count (ct_get eqb c x) <= usize_max E) ->
  ct_sub eqb E a lb = Ret ab -> ct_sub eqb E ab lc = Ret abc -> ct_sub eqb E a lbc = Ret abc' ->
  ct_eq eqb abc abc' = true.
Proof.
  exact (fun K eqb E a b c lb lc bc lbc ab abc abc' L => @sub_sub K eqb L E a b c lb lc bc lbc ab abc abc').
Qed.
Print Assumptions c63_subtracting_twice_is_subtracting_the_sum.

Theorem c63_counting_a_concatenation_is_adding : forall K (eqb : K -> K -> bool) E h h1 h2 xs ys c c1 c2 l2,
  eq_laws eqb -> 1 <= usize_max E ->
  ct_from_iter eqb E h (xs ++ ys) = Ret c -> ct_from_iter eqb E h1 xs = Ret c1 ->
  ct_from_iter eqb E h2 ys = Ret c2 -> ct_into_iter c2 l2 ->
  debug_build E = true \/ (forall x, occ eqb x (xs ++ ys) <= usize_max E) ->
  exists c12, ct_add eqb E c1 l2 = Ret c12 /\ ct_eq eqb c c12 = true.
Proof. exact (fun K eqb E h h1 h2 xs ys c c1 c2 l2 L U => @from_iter_app K eqb L E U h h1 h2 xs ys c c1 c2 l2). Qed.
Print Assumptions c63_counting_a_concatenation_is_adding.

Example c63_ex : ct_sub keq Ec ca (rev (ct_map ca)) = Ret (Counter []) /\
  ct_from_iter keq Ec 0 (word ++ [(2, 7); (8, 80)]) =
    Ret (Counter [((8, 80), 1); ((3, 30), 1); ((2, 20), 3); ((1, 10), 3)]) /\
  ct_from_iter keq Ec 0 [(2, 7); (8, 80)] = Ret (Counter [((8, 80), 1); ((2, 7), 1)]) /\
  ct_add keq Ec ca [((2, 7), 1); ((8, 80), 1)] =
    Ret (Counter [((8, 80), 1); ((3, 30), 1); ((2, 20), 3); ((1, 10), 3)]).
Proof. repeat split. Qed.

(** ** C64: a panic in the middle of an addition leaves a consistent counter *)
Theorem c64_panicking_add_is_a_partial_add : forall K (eqb : K -> K -> bool) E a b l c,
  eq_laws eqb -> ct_valid eqb E a -> ct_valid eqb E b -> ct_into_iter b l ->
  ct_add_assign eqb E l a = (c, Panic) ->
  ct_valid eqb E c /\
  (forall x, ct_get eqb c x = ct_get eqb a x \/
             ct_get eqb c x = option_map (wrap E) (opt_plus (ct_get eqb a x) (ct_get eqb b x))) /\
  (exists x, ct_get eqb c x = ct_get eqb a x /\ ct_get eqb b x <> None /\
     (debug_build E = true /\ usize_max E < opt_count (ct_get eqb a x) + opt_count (ct_get eqb b x) \/
      ct_get eqb a x = None /\ ct_len c = alloc_max E)).
Proof. exact (fun K eqb E a b l c L => @add_panic K eqb L E a b l c). Qed.
Print Assumptions c64_panicking_add_is_a_partial_add.

Example c64_ex : ct_add_assign keq Ec [((3, 0), 9); ((1, 0), 253); ((2, 0), 1)] ca =
  (Counter [((3, 30), 10); ((2, 20), 2); ((1, 10), 3)], Panic).
Proof. reflexivity. Qed.

(** ** C65: counting needs room for the size hint *)
(** an iterator announcing more items than a table can hold makes [from_iter]
    and [extend] panic at once, however few different elements it has *)
Theorem c65_counting_succeeds_when_elements_fit_refuted : forall K (eqb : K -> K -> bool) E (x : K) xs c,
  eq_laws eqb -> alloc_max E < length xs -> Forall (fun y => eqb x y = true) xs ->
  ct_from_iter eqb E (length xs) xs = Panic /\ ct_extend eqb E (length xs) xs c = (c, Panic).
Proof. exact (fun K eqb E x xs c L => fun A _ => @hint_panics K eqb E xs c A). Qed.
Print Assumptions c65_counting_succeeds_when_elements_fit_refuted.

(** with a hint that fits, only the number of different elements matters *)
Theorem c65_small_hint_counts_partial : forall K (eqb : K -> K -> bool) E (x : K) xs hint,
  eq_laws eqb -> 1 <= alloc_max E -> 1 <= usize_max E -> hint <= alloc_max E -> length xs <= usize_max E ->
  Forall (fun y => eqb x y = true) xs -> xs <> [] ->
  exists c, ct_from_iter eqb E hint xs = Ret c /\ ct_get eqb c x = Some (length xs).
Proof. exact (fun K eqb E x xs h L => @small_hint K eqb L E x xs h). Qed.
Print Assumptions c65_small_hint_counts_partial.

Example c65_ex : ct_from_iter keq Ec 17 (repeat (1, 0) 17) = Panic /\
  ct_from_iter keq Ec 16 (repeat (1, 0) 17) = Ret (Counter [((1, 0), 17)]).
Proof. split; reflexivity. Qed.
