(** Property theorems C123 and C124: hashbrown's table is a map, and what its
    capacity is worth. *)
From Coq Require Import Permutation NArith.
From Verif Require Import Base HMModel HMProofs HTModel HTProofs CTProps HTProps GTModel GTSpec GTRun GTProofs GTProofs2 GTProofs3 GTProofs4.
Local Open Scope outcome_scope.

(** group widths are powers of two *)
Definition power_of_two (n : nat) : Prop := exists b, n = 2 ^ b.

(** ** C123 *)

(** From [with_capacity] on, every history of calls makes the table a map: each call changes it
    and answers as the specification says, whatever the hash function (consistent with equality)
    and the width of groups. *)
Theorem c123_table_is_a_map : forall K V (eqb : K -> K -> bool) hash W E cap (cs : list (call K V)),
  eq_laws eqb -> consistent eqb hash -> power_of_two W ->
  match g_with_capacity V hash W E cap with
  | Ret t0 => cap <= alloc_max E /\
      history eqb E cs (@none K V) (fun k => g_entry_of eqb hash W k (fst (g_run eqb hash W E cs t0)))
        (snd (g_run eqb hash W E cs t0))
  | Panic => alloc_max E < cap
  | _ => False
  end.
Proof.
  intros K V eqb hash W E cap cs L HH W2. pose proof (@Rg_with_capacity K V eqb hash W E L W2 cap) as C.
  destruct (g_with_capacity V hash W E cap) as [t0| | | |]; auto. destruct C as [R Le]. split; auto.
  destruct (g_run eqb hash W E cs t0) as [t rs] eqn:T. cbn [fst snd].
  destruct (rel_run E L HH W2 cs R T) as (m' & R' & H).
  assert (X : forall f f', same f' f -> history eqb E cs (@none K V) f rs -> history eqb E cs (@none K V) f' rs).
  { clear. generalize (@none K V). revert rs. induction cs as [|c cs IH]; intros rs g f f' S H; inversion H; subst.
    - constructor. intros k. rewrite S. auto.
    - econstructor; eauto. }
  apply (X _ _ (fun k => Rg_entry_of L HH k R')). exact H.
Qed.
Print Assumptions c123_table_is_a_map.

(** Nobody can tell the hash function, the width of groups or the initial capacity from the
    answers, up to the order of iteration. *)
Theorem c123_hash_and_groups_do_not_matter : forall K V (eqb : K -> K -> bool) E hash W cap t hash' W' cap' t' (cs : list (call K V)),
  eq_laws eqb -> consistent eqb hash -> power_of_two W -> g_with_capacity V hash W E cap = Ret t ->
  consistent eqb hash' -> power_of_two W' -> g_with_capacity V hash' W' E cap' = Ret t' ->
  Forall2 (@alike K V) (snd (g_run eqb hash W E cs t)) (snd (g_run eqb hash' W' E cs t')) /\
  forall k, g_entry_of eqb hash W k (fst (g_run eqb hash W E cs t)) = g_entry_of eqb hash' W' k (fst (g_run eqb hash' W' E cs t')).
Proof.
  intros K V eqb E hash W cap t hash' W' cap' t' cs L HH W2 C HH' W2' C'.
  pose proof (c123_table_is_a_map K V eqb hash W E cap cs L HH W2) as H. rewrite C in H.
  pose proof (c123_table_is_a_map K V eqb hash' W' E cap' cs L HH' W2') as H'. rewrite C' in H'.
  exact (history_det L (fun k => eq_refl) (proj2 H) (proj2 H')).
Qed.
Print Assumptions c123_hash_and_groups_do_not_matter.

(** There is always an EMPTY slot, so lookups (whose loop has no other end for an absent key) end:
    going on for longer than there are slots makes no difference. *)
Theorem c123_lookups_end : forall K V (eqb : K -> K -> bool) hash W E cap t0 (cs : list (call K V)) k,
  eq_laws eqb -> consistent eqb hash -> power_of_two W -> g_with_capacity V hash W E cap = Ret t0 ->
  let t := fst (g_run eqb hash W E cs t0) in
  In Empty t /\
  forall steps, length t <= steps -> g_seek eqb hash W k t (g_start (hash k) (length t)) 0 steps = g_find eqb hash W k t.
Proof.
  intros K V eqb hash W E cap t0 cs k L HH W2 C t.
  pose proof (@Rg_with_capacity K V eqb hash W E L W2 cap) as R. rewrite C in R. destruct R as [R _].
  destruct (g_run eqb hash W E cs t0) as [t1 rs] eqn:T. cbn in t. subst t.
  destruct (rel_run E L HH W2 cs R T) as (m' & [O _] & _). split; [|intros steps Le; now apply find_fuel].
  destruct (has_empty O) as (p & Hp & Em). unfold g_is_empty, g_at in Em. destruct (nth p t1 Empty) eqn:N; try discriminate.
  rewrite <- N. now apply nth_In.
Qed.
Print Assumptions c123_lookups_end.

(** six keys in groups of four and of eight: removing leaves EMPTY or DELETED *)
Definition c123_calls : list (call key nat) :=
  [TInsert (1, 0) 10; TInsert (2, 0) 20; TUpsert (3, 0) 0 S; TUpsert (1, 5) 0 S; TInsert (4, 0) 40; TInsert (5, 0) 50; TInsert (6, 0) 60;
   TRemove nat (2, 7); TGet nat (6, 9); TUpdate (6, 1) (fun n => n + 5); TInsert (5, 8) 51; TRemove nat (9, 9); TRetain (fun _ n => n <? 60);
   TLen; TUpsert (7, 7) 3 S; TGet nat (6, 0); TReserve 300; TReserve 20; TIter; TClear; TLen].
Definition Eg : machine := Machine 255 200 true.
Definition table_run (hash : key -> N) (W cap : nat) (cs : list (call key nat)) : table key nat * list (outcome (answer key nat)) :=
  match g_with_capacity nat hash W Eg cap with Ret t => g_run keq hash W Eg cs t | _ => ([], []) end.
Example c123_ex : snd (table_run all_collide 4 0 c123_calls) =
  [Ret (AOld key None); Ret (AOld key None); Ret (AVal key 1); Ret (AVal key 11); Ret (AOld key None); Ret (AOld key None); Ret (AOld key None);
   Ret (AOld key (Some 20)); Ret (AEntry (Some ((6, 0), 60))); Ret AUnit; Ret (AOld key (Some 50)); Ret (AOld key None); Ret AUnit;
   Ret (ANum 4); Ret (AVal key 4); Ret (AEntry None); Panic; Ret AUnit;
   Ret (AAll [((3, 0), 1); ((1, 0), 11); ((4, 0), 40); ((5, 0), 51); ((7, 7), 4)]); Ret AUnit; Ret (ANum 0)].
Proof. vm_compute. reflexivity. Qed.

Example c123_ex_fnv : last (snd (table_run by_fnv 8 3 (firstn 19 c123_calls))) Panic =
    Ret (AAll [((5, 0), 51); ((7, 7), 4); ((1, 0), 11); ((3, 0), 1); ((4, 0), 40)]) /\
  eq_laws keq /\ consistent keq by_fnv /\ power_of_two 8.
Proof. split; [vm_compute; reflexivity|]. exact (conj keq_laws (conj by_fnv_ok (ex_intro _ 3 eq_refl))). Qed.

(** erasing one of seven keys of one hash value leaves DELETED, one of two leaves EMPTY *)
Definition c123_keys (n : nat) : list (call key nat) := map (fun k => TInsert (k, 0) k) (seq 1 n).
Example c123_ex_erase :
  ht_marks (fst (table_run all_collide 4 7 (c123_keys 7 ++ [TRemove nat (2, 0)]))) = 1 /\
  ht_marks (fst (table_run all_collide 4 7 (c123_keys 2 ++ [TRemove nat (2, 0)]))) = 0.
Proof. vm_compute. auto. Qed.

(** ** C124 *)

Section Capacity.
Variables K V : Type.
Variable eqb : K -> K -> bool.
Variable hash : K -> N.
Variable W : nat.
Variable E : machine.
Hypothesis L : eq_laws eqb.
Hypothesis HH : consistent eqb hash.
Hypothesis W2 : pow2 W.
Notation Rg := (@Rg K V eqb hash W).

Lemma entry_stays k (t : table K V) m t1 o : Rg t m -> ht_marks t = 0 -> g_entry eqb hash W E k t = (t1, o) ->
  (o = Ret Vacant -> length m + 1 <= g_cap (length t)) -> t1 = t.
Proof.
  intros R M. unfold g_entry. destruct (g_get eqb hash W k t) as [v|]; [intros [= <- _]; auto|].
  unfold g_reserve. rewrite (Rg_len R), M, Nat.add_0_r. destruct (length m + 1 <=? alloc_max E); cbn [omap obind].
  - intros HG Le. apply pair_equal_spec in HG. destruct HG as [<- <-]. specialize (Le eq_refl).
    destruct (Nat.leb_spec 1 (g_cap (length t) - length m)); [auto|lia].
  - intros [= <- _]. auto.
Qed.

Lemma set_stays k v (t : table K V) : length (g_set eqb hash W k v t) = length t /\ ht_marks (g_set eqb hash W k v t) = ht_marks t.
Proof.
  unfold g_set. destruct (g_find eqb hash W k t) as [p|]; auto. destruct (nth p t Empty) as [| |k' v'] eqn:N; auto.
  apply nth_full in N. rewrite length_write. destruct (write_counts _ _ (Full k' v) N) as [_ C]. cbn in C. split; auto. lia.
Qed.

Lemma capacity_step c (t : table K V) m t' r cap : Rg t m -> ht_marks t = 0 -> cap <= g_cap (length t) -> keeps c = true ->
  g_step eqb hash W E c t = (t', r) -> ht_len t' <= cap -> (forall n, c = TReserve n -> ht_len t + n <= cap) ->
  length t' = length t /\ ht_marks t' = 0.
Proof.
  intros R M C Kp. destruct c; cbn [g_step]; try discriminate Kp; try (intros [= <- <-]; auto; fail).
  - unfold g_insert. destruct (g_entry eqb hash W E k t) as [t1 o] eqn:G. intros H Le _.
    pose proof (Rg_entry E L HH W2 _ R G) as (R1 & _ & Va).
    destruct o as [[old|]| | | |].
    + injection H as <- <-. rewrite (entry_stays k t m t1 _ R M G) by discriminate. destruct (set_stays k v t). split; auto. lia.
    + injection H as <- <-. destruct (Va eq_refl) as [Lt Ab].
      destruct (Rg_put L W2 (t := t1) (m := m) k v R1 Lt Ab) as [R2 M2]. rewrite (Rg_len R2) in Le. cbn [hm_insert_vacant length] in Le.
      assert (T : t1 = t) by (apply (entry_stays k t m t1 _ R M G); intros _; lia). subst t1. rewrite length_gput. split; auto. lia.
    + injection H as <- <-. rewrite (entry_stays k t m t1 _ R M G) by discriminate. auto.
    + injection H as <- <-. rewrite (entry_stays k t m t1 _ R M G) by discriminate. auto.
    + injection H as <- <-. rewrite (entry_stays k t m t1 _ R M G) by discriminate. auto.
    + injection H as <- <-. rewrite (entry_stays k t m t1 _ R M G) by discriminate. auto.
  - unfold g_upsert. destruct (g_entry eqb hash W E k t) as [t1 o] eqn:G. intros H Le _.
    pose proof (Rg_entry E L HH W2 _ R G) as (R1 & _ & Va).
    destruct o as [[old|]| | | |].
    + injection H as <- <-. rewrite (entry_stays k t m t1 _ R M G) by discriminate. destruct (set_stays k (up old) t). split; auto. lia.
    + injection H as <- <-. destruct (Va eq_refl) as [Lt Ab].
      destruct (Rg_put L W2 (t := t1) (m := m) k (up d) R1 Lt Ab) as [R2 M2]. rewrite (Rg_len R2) in Le. cbn [hm_insert_vacant length] in Le.
      assert (T : t1 = t) by (apply (entry_stays k t m t1 _ R M G); intros _; lia). subst t1. rewrite length_gput. split; auto. lia.
    + injection H as <- <-. rewrite (entry_stays k t m t1 _ R M G) by discriminate. auto.
    + injection H as <- <-. rewrite (entry_stays k t m t1 _ R M G) by discriminate. auto.
    + injection H as <- <-. rewrite (entry_stays k t m t1 _ R M G) by discriminate. auto.
    + injection H as <- <-. rewrite (entry_stays k t m t1 _ R M G) by discriminate. auto.
  - intros [= <- <-] _ _. destruct (g_get eqb hash W k t) as [v|]; auto. destruct (set_stays k (up v) t). split; auto. lia.
  - unfold g_reserve. intros H _ An. specialize (An n eq_refl). destruct (ht_len t + n <=? alloc_max E); [|injection H as <- _; auto].
    apply pair_equal_spec in H. destruct H as [<- _]. rewrite M.
    destruct (Nat.leb_spec n (g_cap (length t) - (ht_len t + 0))); [auto|lia].
  - intros [= <- <-] _ _. unfold g_clear. rewrite map_length. split; auto.
    unfold ht_marks. clear. induction t; cbn; auto.
Qed.

Lemma capacity_run cs : forall (t : table K V) m cap, Rg t m -> ht_marks t = 0 -> cap <= g_cap (length t) -> forallb keeps cs = true ->
  (forall cs1 cs2, cs = cs1 ++ cs2 -> ht_len (fst (g_run eqb hash W E cs1 t)) <= cap /\
     forall n cs3, cs2 = TReserve n :: cs3 -> ht_len (fst (g_run eqb hash W E cs1 t)) + n <= cap) ->
  length (fst (g_run eqb hash W E cs t)) = length t.
Proof.
  induction cs as [|c cs IH]; intros t m cap R M C Kp H; auto. cbn [forallb] in Kp. apply andb_true_iff in Kp. destruct Kp as [K1 K2].
  cbn [g_run]. destruct (g_step eqb hash W E c t) as [t1 r] eqn:S. destruct (rel_step E L HH W2 c R S) as (m1 & R1 & _).
  assert (P : forall cs1, g_run eqb hash W E (c :: cs1) t = (fst (g_run eqb hash W E cs1 t1), r :: snd (g_run eqb hash W E cs1 t1))).
  { intros cs1. cbn [g_run]. rewrite S. now destruct (g_run eqb hash W E cs1 t1). }
  destruct (capacity_step c t m t1 r cap R M C K1 S) as [L1 M1].
  - destruct (H [c] cs eq_refl) as [X _]. rewrite P in X. exact X.
  - intros n ->. destruct (H [] _ eq_refl) as [_ X]. exact (X n cs eq_refl).
  - destruct (g_run eqb hash W E cs t1) as [t2 rs] eqn:T. cbn [fst]. rewrite <- L1.
    specialize (IH t1 m1 cap R1 M1). rewrite T in IH. apply IH; auto; [now rewrite L1|].
    intros cs1 cs2 ->. destruct (H (c :: cs1) cs2 eq_refl) as [X Y]. rewrite P in X, Y. auto.
Qed.
End Capacity.

(** A table made for [cap] entries keeps its array while it holds and announces at most [cap]
    entries, if no entry is removed (other than all at once). *)
Theorem c124_array_is_kept : forall K V (eqb : K -> K -> bool) hash W E cap t0 (cs : list (call K V)),
  eq_laws eqb -> consistent eqb hash -> power_of_two W -> g_with_capacity V hash W E cap = Ret t0 ->
  forallb keeps cs = true ->
  (forall cs1 cs2, cs = cs1 ++ cs2 -> ht_len (fst (g_run eqb hash W E cs1 t0)) <= cap /\
     forall n cs3, cs2 = TReserve n :: cs3 -> ht_len (fst (g_run eqb hash W E cs1 t0)) + n <= cap) ->
  length (fst (g_run eqb hash W E cs t0)) = length t0.
Proof.
  intros K V eqb hash W E cap t0 cs L HH W2 C Kp H.
  pose proof (@Rg_with_capacity K V eqb hash W E L W2 cap) as R. rewrite C in R. destruct R as [R _].
  assert (X : ht_marks t0 = 0 /\ cap <= g_cap (length t0)).
  { clear R H. unfold g_with_capacity in C. destruct (@g_reserve K V hash W E cap [Empty]) as [t o] eqn:G.
    destruct (Rg_reserve E L W2 cap (@Rg_blank K V eqb hash W 1 pow2_1) G) as (R & Eo & Le). destruct o as [[]| | | |]; try discriminate C.
    injection C as <-. specialize (Le eq_refl). cbn [length] in Le. split; [|lia].
    unfold g_reserve in G. destruct (_ <=? alloc_max E); [|discriminate]. apply pair_equal_spec in G. destruct G as [<- _].
    destruct (cap <=? _); [reflexivity|].
    assert (B : forall n, ht_marks (g_rehash hash W n (@Empty K V :: nil)) = 0).
    { intros n. unfold g_rehash, ht_marks. cbn. induction n; cbn; auto. }
    destruct (_ <=? _ / 2); apply B. }
  destruct X as [M Ca]. exact (capacity_run K V eqb hash W E L HH W2 cs t0 [] cap R M Ca Kp H).
Qed.
Print Assumptions c124_array_is_kept.

(** With removals this is false: marks take places, and the array grows although fewer entries
    than announced are held all the time. *)
Theorem c124_array_is_kept_with_removals_refuted : ~ (forall K V (eqb : K -> K -> bool) hash W E cap t0 (cs : list (call K V)),
  eq_laws eqb -> consistent eqb hash -> power_of_two W -> g_with_capacity V hash W E cap = Ret t0 ->
  (forall cs1 cs2, cs = cs1 ++ cs2 -> ht_len (fst (g_run eqb hash W E cs1 t0)) <= cap /\
     forall n cs3, cs2 = TReserve n :: cs3 -> ht_len (fst (g_run eqb hash W E cs1 t0)) + n <= cap) ->
  length (fst (g_run eqb hash W E cs t0)) = length t0).
Proof.
  intros H.
  set (cs := c123_keys 14 ++ [TRemove nat (2, 0); TInsert (20, 0) 1]).
  specialize (H key nat keq all_collide 4 Eg 14 (repeat Empty 16) cs keq_laws all_collide_ok (ex_intro _ 2 eq_refl) eq_refl).
  assert (X : length (fst (g_run keq all_collide 4 Eg cs (repeat Empty 16))) = 32) by (vm_compute; reflexivity).
  rewrite H in X; [discriminate X|]. intros cs1 cs2 Ec.
  assert (A : forallb (fun n => ht_len (fst (g_run keq all_collide 4 Eg (firstn n cs) (repeat Empty 16))) <=? 14) (seq 0 17) = true)
    by (vm_compute; reflexivity).
  rewrite forallb_forall in A. split.
  - assert (Ef : firstn (length cs1) cs = cs1) by (rewrite Ec, firstn_app, Nat.sub_diag, firstn_all; apply app_nil_r).
    rewrite <- Ef. apply Nat.leb_le, A, in_seq. split; [lia|]. pose proof (f_equal (@length _) Ec) as El. rewrite app_length in El.
    change (length cs) with 16 in El. lia.
  - intros n cs3 ->. exfalso. assert (I : In (TReserve n) cs) by (rewrite Ec; apply in_or_app; right; left; reflexivity).
    unfold cs, c123_keys in I. cbn in I. intuition discriminate.
Qed.
Print Assumptions c124_array_is_kept_with_removals_refuted.

(** fourteen keys announced: they and a second round after [clear] fit in the sixteen slots; one
    removal and one more key need thirty-two, with fourteen keys *)
Example c124_ex :
  map (@length _) [fst (table_run by_fnv 8 14 (c123_keys 14 ++ [TClear] ++ c123_keys 14)); fst (table_run all_collide 4 14 (c123_keys 15));
    fst (table_run all_collide 4 14 (c123_keys 14 ++ [TRemove nat (2, 0); TInsert (20, 0) 1]))] = [16; 32; 32] /\
  forallb keeps (c123_keys 14 ++ [TClear] ++ c123_keys 14) = true /\
  forallb (fun n => ht_len (fst (table_run by_fnv 8 14 (firstn n (c123_keys 14 ++ [TClear] ++ c123_keys 14)))) <=? 14) (seq 0 30) = true.
Proof. vm_compute. auto. Qed.
