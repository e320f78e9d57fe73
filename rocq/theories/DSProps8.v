(** Property theorems C103-C104: the accesses made by the calls of the disjoint set
    and the room they demand, against the documented complexities. *)
From Coq Require Import Permutation NArith.
From Verif Require Import Base HMModel HMProofs CTSpec5 CTProofs8 DSModel DSSpec DSRun DSProofs DSProofs2 DSProofs3 DSProofs4.
From Verif Require Import DSAck DSCost DSAmort DSFlat DSProps DSProps2 DSSpec2 DSModel5 DSProofs10 DSProofs11 DSProofs12.
Local Open Scope outcome_scope.
Local Open Scope list_scope.

(** ** C103 *)
(** the calls that list their accesses are those of the model *)
Theorem c103_listing_accesses_changes_no_call : forall K (eqb : K -> K -> bool) cl E ee ops s h xs,
  fst (ds_run_t eqb E ee ops s) = ds_run eqb E ops s /\
  fst (ds_from_iter_t eqb E ee h xs) = ds_from_iter eqb E h xs /\
  fst (ds_from_iter_ref_t eqb cl E ee h xs) = ds_from_iter_ref eqb cl E h xs.
Proof.
  intros K eqb cl E ee ops s h xs. split; [apply er_run|]. split; [apply er_from_iter|]. rewrite from_iter_ref_map. apply er_from_iter.
Qed.
Print Assumptions c103_listing_accesses_changes_no_call.

(** each key handled is looked up once, in order, until the call panics;
    [in_union] stops at a first argument that is absent *)
Theorem c103_keys_are_looked_up_once : forall K (eqb : K -> K -> bool) E ee o s s' r t,
  ds_step_t eqb E ee o s = ((s', r), t) ->
  exists rest, handled o = looked t ++ rest /\
    forall v, r = Ret v -> rest = [] \/ exists a b, o = OInUnion a b /\ looked t = [a] /\ ds_contains eqb a s = false.
Proof.
  intros K eqb E ee o s s' r t X. destruct (lk_step eqb E ee o s) as (rest & A & B). rewrite <- (er_step eqb E ee), X in B. rewrite X in A.
  cbn [fst snd] in *. exists rest. split; [exact A|]. intros v ->. destruct B as [B|(a & b & -> & B)]; [eauto|auto|right].
  exists a, b. split; [reflexivity|]. split; [|exact B]. cbn [ds_step_t] in X. pose proof (lk_in_union eqb a b s) as Q. rewrite B in Q.
  destruct (ds_in_union_t eqb a b s) as [[s1 o1] t1]. injection X as _ _ <-. exact Q.
Qed.
Print Assumptions c103_keys_are_looked_up_once.

Theorem c103_initialization_looks_up_each_item_once : forall K (eqb : K -> K -> bool) cl E ee h xs o t,
  (ds_from_iter_t eqb E ee h xs = (o, t) -> exists rest, xs = looked t ++ rest /\ forall s, o = Ret s -> rest = []) /\
  (ds_from_iter_ref_t eqb cl E ee h xs = (o, t) -> exists rest, map cl xs = looked t ++ rest /\ forall s, o = Ret s -> rest = []).
Proof.
  assert (H : forall K (eqb : K -> K -> bool) E ee h xs o t, ds_from_iter_t eqb E ee h xs = (o, t) ->
    exists rest, xs = looked t ++ rest /\ forall s, o = Ret s -> rest = []).
  { intros K eqb E ee h xs o t. unfold ds_from_iter_t, ds_with_capacity_t. destruct (with_capacity_shape K E h) as [Q|Q]; rewrite Q.
    - pose proof (lk_makes eqb E ee xs (ds_new K)) as (rest & A & B). destruct (ds_makes_t eqb E ee xs (ds_new K)) as [[s1 o1] t1]. cbn [fst snd] in *.
      intros X; injection X as <- <-. exists rest. split.
      + destruct (hm_reserve E h (@nil (K * nat))); exact A.
      + intros s Hs. unfold ds_finish in Hs. cbn in Hs. destruct o1 as [[]| | | |]; try discriminate. eauto.
    - intros X; injection X as <- <-. exists xs. split; [|discriminate]. destruct (hm_reserve E h (@nil (K * nat))); reflexivity. }
  intros K eqb cl E ee h xs o t. rewrite from_iter_ref_map. split; apply H.
Qed.
Print Assumptions c103_initialization_looks_up_each_item_once.

(** creating a subset: four accesses at most, the vector being touched only at the
    place of the new element *)
Theorem c103_make_set_is_constant : forall K (eqb : K -> K -> bool) E ee x s s' r t,
  ds_make_set_t eqb E ee x s = ((s', r), t) ->
  length t <= 4 /\ (forall i, In i (nodes t) -> i = length (ds_data s) /\ i < length (ds_data s')).
Proof.
  intros K eqb E ee x s s' r t X. pose proof (make_count eqb E ee x s) as C. rewrite X in C. split; [exact C|].
  revert X. unfold ds_make_set_t, ds_make_or_get_t, vec_push.
  destruct (hm_entry eqb E x (ds_ids s)) as [e| | | |]; [destruct e|..]; destruct (length (ds_data s) + 1 <=? alloc_max E), (ee || negb (hm_contains eqb x (ds_ids s)));
    intros X; injection X as <- _ <-; cbn; intros i Hi; try contradiction; destruct Hi as [<-|[]]; rewrite app_length; cbn; split; lia.
Qed.
Print Assumptions c103_make_set_is_constant.

(** a search climbs to the root and writes every element but the root on its way
    back: nothing else is touched *)
Theorem c103_search_climbs_to_the_root : forall fuel v i v' r t,
  ds_find_t fuel v i = ((v', Ret r), t) ->
  exists p, climbs (fun j => option_map parent (nth_error v j)) i p r /\ t = p ++ tl (rev p) /\
    forall j, ~ In j p -> nth_error v' j = nth_error v j.
Proof.
  induction fuel as [|n IH]; intros v i v' r t; [discriminate|]. cbn [ds_find_t]. unfold vec_at at 1.
  destruct (nth_error v i) as [d|] eqn:Q; [|discriminate]. destruct (Nat.eqb_spec (parent d) i) as [P|P].
  - intros X; injection X as <- <- <-. exists [i]. split; [|split; [reflexivity|reflexivity]]. rewrite P. apply cl_top. cbv beta. rewrite Q. cbn. now rewrite P.
  - destruct (ds_find_t n v (parent d)) as [[v1 o1] t1] eqn:Q1. destruct o1 as [r1| | | |]; try discriminate.
    destruct (IH _ _ _ _ _ Q1) as (p & C & T & N). destruct (vec_at v1 i) as [d1| | | |] eqn:Q2; try discriminate.
    intros X; injection X as <- <- <-. exists (i :: p). split; [|split].
    + apply cl_up with (parent d); [now rewrite Q|exact P|exact C].
    + rewrite T. cbn [rev]. assert (NE : rev p <> []) by (inversion C; intros F; apply (f_equal (@length nat)) in F; rewrite rev_length in F; discriminate).
      destruct (rev p) as [|z zs]; [contradiction|]. cbn. now rewrite <- app_assoc.
    + intros j Hj. rewrite vec_set_other by (intros ->; apply Hj; left; reflexivity). apply N. intros I. apply Hj. right. exact I.
Qed.
Print Assumptions c103_search_climbs_to_the_root.

(** the accesses of single calls are logarithmic *)
Theorem c103_union_and_search_are_logarithmic : forall K (eqb : K -> K -> bool) cl E ee s a b,
  eq_laws eqb -> ranks_fit E -> (forall k, eqb (cl k) k = true) -> reachable eqb E cl s ->
  length (snd (ds_union_t eqb E ee a b s)) <= 14 + 4 * S (Nat.log2 (ds_len (fst (ds_union eqb E a b s)))) /\
  length (snd (ds_in_union_t eqb a b s)) <= 2 + 4 * S (Nat.log2 (ds_len s)).
Proof.
  intros K eqb cl E ee s a b L U CL R. destruct (reachable_valid L U CL R) as [V [g Sh]].
  assert (T : forall s ia ib ka kb, valid eqb E s -> In (ka, ia) (ds_ids s) -> In (kb, ib) (ds_ids s) ->
     calls_two ia ib s <= 2 * S (Nat.log2 (ds_len s))).
  { clear s V g Sh R. intros s ia ib ka kb V Ia Ib. unfold calls_two. destruct (root_of _ _ V Ia) as [r Hr]. destruct (find_in_ok V Hr) as (v & -> & S).
    pose proof (id_lt _ _ V Ia) as La. pose proof (id_lt _ _ V Ib) as Lb. pose proof V as (_ & Ld & _).
    destruct (@calls_count K eqb E s ia V) as [[_ C1] _]; [unfold ds_len; lia|].
    destruct (@calls_count K eqb E (DSet (ds_ids s) v) ib (same_valid V S)) as [[_ C2] _]; [unfold ds_len; cbn; lia|].
    unfold ds_len in *. cbn [ds_ids] in C2. lia. }
  split.
  - pose proof (union_count eqb E ee a b s) as C. etransitivity; [exact C|]. apply Nat.add_le_mono_l.
    enough (op_calls eqb E (OUnion a b) s <= 2 * S (Nat.log2 (ds_len (fst (ds_union eqb E a b s))))) by lia.
    cbn [op_calls]. unfold ds_union.
    destruct (make_shows L a V Sh) as [(s1 & ia & ka & H1 & V1 & S1 & Ia1 & Qa & _ & _)|[H1 N1]]; rewrite H1; [|lia].
    destruct (make_shows L b V1 S1) as [(s2 & ib & kb & H2 & V2 & S2 & Ib & Qb & Inc & _)|[H2 N2]]; rewrite H2; [|lia].
    etransitivity; [apply (T s2 ia ib ka kb V2); auto|]. destruct (root_of _ _ V2 (Inc _ Ia1)) as [ra Ra]. destruct (find_in_ok V2 Ra) as (v3 & H3 & E3). rewrite H3.
    pose proof (same_valid V2 E3) as V3. destruct (root_of _ _ V3 Ib) as [rb Rb]. destruct (find_in_ok V3 Rb) as (v4 & H4 & E4). rewrite H4.
    destruct (ra =? rb); [unfold ds_len; cbn; lia|]. cbn [ds_ids ds_data]. destruct (ds_link E v4 ra rb). unfold ds_len; cbn; lia.
  - pose proof (in_union_count eqb E a b s) as C. etransitivity; [exact C|]. apply Nat.add_le_mono_l.
    enough (op_calls eqb E (OInUnion a b) s <= 2 * S (Nat.log2 (ds_len s))) by lia. cbn [op_calls]. unfold hm_get.
    destruct (hm_entry_of eqb a (ds_ids s)) as [[ka ia]|] eqn:Qa; [|cbn; lia]. destruct (hm_entry_of eqb b (ds_ids s)) as [[kb ib]|] eqn:Qb; [|cbn; lia].
    apply entry_of_some in Qa as [Qa _]. apply entry_of_some in Qb as [Qb _]. cbn [option_map snd]. exact (T s ia ib ka kb V Qa Qb).
Qed.
Print Assumptions c103_union_and_search_are_logarithmic.

(** the elements of the vector that a call does not list do not influence it, and
    it does not change them *)
Theorem c103_only_listed_elements_matter : forall K (eqb : K -> K -> bool) E ee o ids v v' s1 r t,
  o <> OClear -> ds_step_t eqb E ee o (DSet ids v) = ((s1, r), t) -> length v = length v' ->
  (forall i, In i (nodes t) -> nth_error v i = nth_error v' i) ->
  exists s1', ds_step_t eqb E ee o (DSet ids v') = ((s1', r), t) /\ ds_ids s1' = ds_ids s1 /\
    forall i, (In i (nodes t) -> nth_error (ds_data s1) i = nth_error (ds_data s1') i) /\
      (~ In i (nodes t) -> nth_error (ds_data s1) i = nth_error v i /\ nth_error (ds_data s1') i = nth_error v' i).
Proof.
  intros K eqb E ee o ids v v' s1 r t N X L G. pose proof (@co_step K eqb E ee o N ids v v' L) as C. rewrite X in C. cbn [fst snd] in C.
  destruct (C G) as (A1 & A2 & A3 & A4 & A5 & A6 & A7). destruct (ds_step_t eqb E ee o (DSet ids v')) as [[s1' r'] t']. cbn [fst snd] in *. subst r' t'.
  exists s1'. split; [reflexivity|]. split; [exact A3|]. intros i. split; [apply A5|]. intros J. split; [apply A6, J|apply A7, J].
Qed.
Print Assumptions c103_only_listed_elements_matter.

(** over a history in which at most [A a 1] elements are held, a bounded number of
    accesses per call and per element gone through *)
Lemma finds_visited K (eqb : K -> K -> bool) E ops : forall s, run_finds eqb E ops s <= 2 * length ops + run_visited eqb E ops s.
Proof.
  induction ops as [|o ops IH]; intros s; [cbn; lia|]. cbn [run_finds run_visited length]. specialize (IH (fst (ds_step eqb E o s))).
  assert (op_finds o s <= 2 + visited o (ds_len s)) by (destruct o; cbn; lia). lia.
Qed.
Lemma unions_length K (ops : list (op K)) : run_unions ops <= length ops.
Proof. unfold run_unions. induction ops as [|o ops IH]; [cbn; lia|]. cbn [map list_sum fold_right length] in *. fold (list_sum (map (@op_unions K) ops)). destruct o; cbn [op_unions]; lia. Qed.
Theorem c103_calls_are_amortised_inverse_ackermann : forall K (eqb : K -> K -> bool) E ee ops a,
  eq_laws eqb -> ranks_fit E -> Forall (@op_ok K) ops ->
  (forall n b, alpha (ds_len (fst (ds_run eqb E (firstn n ops) (ds_new K)))) b -> b <= a) ->
  length (snd (ds_run_t eqb E ee ops (ds_new K))) <= (22 + 6 * a) * length ops + (8 + 2 * a) * run_visited eqb E ops (ds_new K).
Proof.
  intros K eqb E ee ops a L U Ok B. pose proof (run_count eqb E ee ops (ds_new K)) as C.
  pose proof (c67_searches_are_amortised_inverse_ackermann K eqb E ops a L U Ok B) as S.
  pose proof (finds_visited K eqb E ops (ds_new K)) as F. pose proof (unions_length K ops) as N.
  set (t := length _) in *. set (c := run_calls _ _ _ _) in *. set (f := run_finds _ _ _ _) in *. set (w := run_visited _ _ _ _) in *.
  set (u := run_unions _) in *. set (n := length ops) in *. clearbody t c f w u n. nia.
Qed.
Print Assumptions c103_calls_are_amortised_inverse_ackermann.

(** with 64-bit sizes the documented "about constant" is 46 per call, and 16 per
    element gone through *)
Theorem c103_calls_are_amortised_constant : forall K (eqb : K -> K -> bool) E ee ops,
  eq_laws eqb -> (N.of_nat (alloc_max E) < 2 ^ 64)%N -> Forall (@op_ok K) ops ->
  length (snd (ds_run_t eqb E ee ops (ds_new K))) <= 46 * length ops + 16 * run_visited eqb E ops (ds_new K).
Proof.
  intros K eqb E ee ops L S64 Ok. pose proof (run_count eqb E ee ops (ds_new K)) as C.
  pose proof (c67_six_calls_per_search K eqb E ops L S64 Ok) as S.
  pose proof (finds_visited K eqb E ops (ds_new K)) as F. pose proof (unions_length K ops) as N.
  set (t := length _) in *. set (c := run_calls _ _ _ _) in *. set (f := run_finds _ _ _ _) in *. set (w := run_visited _ _ _ _) in *.
  set (u := run_unions _) in *. set (n := length ops) in *. clearbody t c f w u n. lia.
Qed.
Print Assumptions c103_calls_are_amortised_constant.

(** calls that create, unite, query and clear, and do not go through elements *)
Theorem c103_single_calls_are_amortised_constant : forall K (eqb : K -> K -> bool) E ee ops,
  eq_laws eqb -> (N.of_nat (alloc_max E) < 2 ^ 64)%N -> Forall (@op_ok K) ops ->
  Forall (fun o => match o with OExtend _ _ | OExtendRef _ _ | OIter _ _ => False | _ => True end) ops ->
  length (snd (ds_run_t eqb E ee ops (ds_new K))) <= 46 * length ops.
Proof.
  intros K eqb E ee ops L S64 Ok F. pose proof (c103_calls_are_amortised_constant K eqb E ee ops L S64 Ok) as C.
  assert (W : forall s, run_visited eqb E ops s = 0).
  { clear - F. induction F as [|o ops H F IH]; intros s; [reflexivity|]. cbn [run_visited]. rewrite IH. destruct o; cbn; try reflexivity; contradiction. }
  rewrite W in C. lia.
Qed.
Print Assumptions c103_single_calls_are_amortised_constant.

(** uniting two pairs and then the pairs; a search that climbs three elements; a
    query stopped by an absent first argument *)
Definition ops103 : list (op nat) := [OUnion 1 2; OUnion 3 4; OUnion 1 3; OInUnion 4 9; OInUnion 9 4; OInUnion 4 2; OMake 4].
Definition ds103 : dset nat := fst (ds_run Nat.eqb Eg (firstn 3 ops103) (ds_new nat)).
Example c103_ex : Forall (@op_ok nat) ops103 /\
  Forall (fun o => match o with OExtend _ _ | OExtendRef _ _ | OIter _ _ => False | _ => True end) ops103 /\ (N.of_nat (alloc_max Eg) < 2 ^ 64)%N /\
  ds_data ds103 = [Data 0 2; Data 0 0; Data 0 1; Data 2 0] /\
  snd (ds_step_t Nat.eqb Eg false (OInUnion 4 9) ds103) = [Look 4; Look 9] /\
  snd (ds_step_t Nat.eqb Eg false (OInUnion 9 4) ds103) = [Look 9] /\
  ds_step_t Nat.eqb Eg false (OInUnion 4 2) ds103 =
    ((DSet (ds_ids ds103) [Data 0 2; Data 0 0; Data 0 1; Data 0 0], Ret (RBool true)),
     [Look 4; Look 2; Node 3; Node 2; Node 0; Node 2; Node 3; Node 1; Node 0; Node 1]) /\
  climbs (fun j => option_map parent (nth_error (ds_data ds103) j)) 3 [3; 2; 0] 0 /\
  snd (ds_step_t Nat.eqb Eg false (OMake 4) ds103) = [Look 4] /\
  snd (ds_step_t Nat.eqb Eg false (OUnion 3 5) ds103) =
    [Look 3; Look 5; IdsRoom 5; DataRoom 5; Node 4; Node 2; Node 0; Node 2; Node 4; Node 0; Node 4; Node 4; Node 0; Node 4] /\
  length (snd (ds_run_t Nat.eqb Eg false ops103 (ds_new nat))) = 56.
Proof.
  split; [repeat constructor|]. split; [repeat constructor|]. split; [reflexivity|]. split; [reflexivity|]. split; [reflexivity|]. split; [reflexivity|]. split; [reflexivity|].
  split; [apply cl_up with 2; [reflexivity|lia|]; apply cl_up with 0; [reflexivity|lia|]; now apply cl_top|]. vm_compute. repeat split.
Qed.
(** an unlisted element may have any content *)
Example c103_ex_unlisted : let s' := DSet (ds_ids ds103) [Data 0 2; Data 7 7; Data 0 1; Data 2 0] in
  ds_step_t Nat.eqb Eg false (OInUnion 4 3) s' =
  ((DSet (ds_ids ds103) [Data 0 2; Data 7 7; Data 0 1; Data 0 0], Ret (RBool true)), snd (ds_step_t Nat.eqb Eg false (OInUnion 4 3) ds103)).
Proof. reflexivity. Qed.

(** ** C104 *)
(** what is granted holds the entries of the table and the elements of the vector *)
Theorem c104_elements_have_room : forall K (eqb : K -> K -> bool) E ee g ops s' tr t room room',
  ds_run_t eqb E ee ops (ds_new K) = ((s', tr), t) ->
  granted (alloc_max E) g 0 (ids_demanded t) room -> granted (alloc_max E) g 0 (data_demanded t) room' ->
  ds_len s' <= room /\ length (ds_data s') <= room'.
Proof.
  intros K eqb E ee g ops s' tr t room room' X G G'. split.
  - exact (@run_fits K eqb E ee true g ops (ds_new K) s' tr t 0 room X (le_n 0) G).
  - exact (@run_fits K eqb E ee false g ops (ds_new K) s' tr t 0 room' X (le_n 0) G').
Qed.
Print Assumptions c104_elements_have_room.

(** the room demanded is that of the elements, one more, or what the caller
    announced (a size hint, or the argument of [reserve]) *)
Theorem c104_demands_partial : forall K (eqb : K -> K -> bool) E ee o s s' r t d,
  ds_step_t eqb E ee o s = ((s', r), t) ->
  (In d (ids_demanded t) -> d <= S (Nat.max (ds_len s) (ds_len s')) \/ exists h, announced o = Some h /\ d = ds_len s + h) /\
  (In d (data_demanded t) -> d <= S (Nat.max (length (ds_data s)) (length (ds_data s'))) \/
     exists h, announced o = Some h /\ d = length (ds_data s) + h).
Proof.
  intros K eqb E ee o s s' r t d X. split; intros Hd.
  - exact (proj1 (@dm_step K eqb E ee true o s s' r t X) d Hd).
  - exact (proj1 (@dm_step K eqb E ee false o s s' r t X) d Hd).
Qed.
Print Assumptions c104_demands_partial.

(** so table and vector stay within what their growth [g] makes of [P], if at all
    times less than [P] elements are held and no more than [P] with those announced *)
Theorem c104_memory_of_a_history_partial : forall K (eqb : K -> K -> bool) E ee g ops s' tr t room room' P B,
  eq_laws eqb -> ranks_fit E -> Forall (@op_ok K) ops ->
  ds_run_t eqb E ee ops (ds_new K) = ((s', tr), t) ->
  (forall ops1 ops2, ops = ops1 ++ ops2 -> ds_len (fst (ds_run eqb E ops1 (ds_new K))) < P /\
     forall o ops3 n, ops2 = o :: ops3 -> announced o = Some n -> ds_len (fst (ds_run eqb E ops1 (ds_new K))) + n <= P) ->
  (forall d, d <= P -> g d <= B) ->
  granted (alloc_max E) g 0 (ids_demanded t) room -> granted (alloc_max E) g 0 (data_demanded t) room' -> room <= B /\ room' <= B.
Proof.
  intros K eqb E ee g ops s' tr t room room' P B L U Ok X HP Hg G G'. split.
  - exact (@run_bound K eqb E ee true g ops (ds_new K) s' tr t 0 room P B X HP Hg (Nat.le_0_l B) G).
  - refine (@run_bound K eqb E ee false g ops (ds_new K) s' tr t 0 room' P B X _ Hg (Nat.le_0_l B) G').
    assert (Q : forall ops1 ops2, ops = ops1 ++ ops2 -> held false (fst (ds_run eqb E ops1 (ds_new K))) = ds_len (fst (ds_run eqb E ops1 (ds_new K)))).
    { intros ops1 ops2 ->. apply Forall_app in Ok as [Ok _]. destruct (ds_run eqb E ops1 (ds_new K)) as [s2 tr2] eqn:Q.
      destruct (run_ok L U (new_valid eqb E) (new_shows eqb) Ok Q) as (g2 & V & _). cbn. apply V. }
    intros ops1 ops2 Q2. rewrite (Q _ _ Q2). exact (HP _ _ Q2).
Qed.
Print Assumptions c104_memory_of_a_history_partial.

(** collecting with a size hint of at most the number of elements then held, or one
    more, takes the documented O(n) *)
Theorem c104_memory_of_initialization_partial : forall K (eqb : K -> K -> bool) E ee g hint xs s t room room' B,
  eq_laws eqb -> ranks_fit E -> ds_from_iter_t eqb E ee hint xs = (Ret s, t) ->
  (forall d, d <= Nat.max hint (S (ds_len s)) -> g d <= B) ->
  granted (alloc_max E) g 0 (ids_demanded t) room -> granted (alloc_max E) g 0 (data_demanded t) room' -> room <= B /\ room' <= B.
Proof.
  intros K eqb E ee g hint xs s t room room' B L U X Hg G G'.
  assert (V : valid eqb E s).
  { apply (@from_iter_shows K eqb L E hint xs s). rewrite <- (er_from_iter eqb E ee). now rewrite X. }
  split.
  - apply (granted_le G); [lia|]. intros d Hd. apply Hg. destruct (@dm_from_iter K eqb E ee true hint xs s t X) as [_ D]. destruct (D d Hd) as [D1|D1]; cbn in D1; unfold ds_len; lia.
  - apply (granted_le G'); [lia|]. intros d Hd. apply Hg. destruct (@dm_from_iter K eqb E ee false hint xs s t X) as [_ D]. destruct V as (_ & Ld & _).
    destruct (D d Hd) as [D1|D1]; cbn in D1; unfold ds_len; lia.
Qed.
Print Assumptions c104_memory_of_initialization_partial.

(** but table and vector have room for as many elements as the size hint announces,
    so the memory is not O(n) in the elements held: one element repeated is enough *)
Theorem c104_memory_is_not_linear_refuted : forall K (eqb : K -> K -> bool) E ee (x : K) a b,
  eq_laws eqb -> a + b + 1 <= alloc_max E ->
  exists xs s t, ds_from_iter_t eqb E ee (length xs) xs = (Ret s, t) /\ ds_len s = 1 /\
    forall g room room', granted (alloc_max E) g 0 (ids_demanded t) room -> granted (alloc_max E) g 0 (data_demanded t) room' ->
      a * 1 + b < room /\ a * 1 + b < room'.
Proof.
  intros K eqb E ee x a b L HA. set (n := a + b) in *. exists (repeat x (S n)). rewrite repeat_length.
  assert (M : forall m, fst (ds_makes_t eqb E ee (repeat x m) (DSet [(x, 0)] [data_new 0])) = (DSet [(x, 0)] [data_new 0], Ret tt)).
  { intros m. rewrite er_makes. induction m as [|m IH]; [reflexivity|]. cbn [repeat for_each]. unfold ds_make_set, ds_make_or_get, hm_entry, hm_get. cbn.
    rewrite (eq_refl' L x). cbn. exact IH. }
  assert (X : fst (ds_from_iter_t eqb E ee (S n) (repeat x (S n))) = Ret (DSet [(x, 0)] [data_new 0])).
  { rewrite er_from_iter. unfold ds_from_iter, ds_with_capacity, hm_reserve, vec_reserve. cbn [length Nat.add].
    rewrite (proj2 (Nat.leb_le (S n) (alloc_max E))) by lia. cbn [obind]. cbn [repeat for_each]. unfold ds_make_set at 1, ds_make_or_get, hm_entry, hm_get. cbn [hm_entry_of option_map ds_ids].
    unfold hm_reserve, vec_push. cbn [length ds_data Nat.add]. rewrite (proj2 (Nat.leb_le 1 (alloc_max E))) by lia. cbn [obind].
    change (ds_finish (for_each (ds_make_set eqb E) (repeat x n) (DSet [(x, 0)] [data_new 0])) = Ret (DSet [(x, 0)] [data_new 0])).
    rewrite <- (er_makes eqb E ee). rewrite M. reflexivity. }
  destruct (ds_from_iter_t eqb E ee (S n) (repeat x (S n))) as [o t] eqn:Q. cbn [fst] in X. subst o.
  exists (DSet [(x, 0)] [data_new 0]), t. split; [reflexivity|]. split; [reflexivity|]. intros g room room' G G'.
  destruct (@dm_from_iter K eqb E ee true _ _ _ _ Q) as [D _]. destruct (@dm_from_iter K eqb E ee false _ _ _ _ Q) as [D' _].
  apply granted_grows in G as [_ G]. apply granted_grows in G' as [_ G']. specialize (G (S n) D). specialize (G' (S n) D'). unfold n in *. split; lia.
Qed.
Print Assumptions c104_memory_is_not_linear_refuted.

(** likewise [extend] and [reserve] *)
Theorem c104_extend_demands_its_hint_refuted : forall K (eqb : K -> K -> bool) E ee h xs s s' t g have have' room room',
  ds_extend_t eqb E ee h xs s = ((s', Ret tt), t) -> ds_len s + h <= alloc_max E -> length (ds_data s) + h <= alloc_max E ->
  granted (alloc_max E) g have (ids_demanded t) room -> granted (alloc_max E) g have' (data_demanded t) room' ->
  ds_len s + h <= room /\ length (ds_data s) + h <= room'.
Proof.
  intros K eqb E ee h xs s s' t g have have' room room' X H H' G G'. apply granted_grows in G as [_ G]. apply granted_grows in G' as [_ G'].
  destruct (@gr_extend K eqb E ee true h xs s s' _ t X) as (_ & _ & _ & D). destruct (@gr_extend K eqb E ee false h xs s s' _ t X) as (_ & _ & _ & D').
  split; [exact (G _ (D eq_refl) H)|exact (G' _ (D' eq_refl) H')].
Qed.
Print Assumptions c104_extend_demands_its_hint_refuted.

(** four copies of one element, doubling growth: room for four, one element held *)
Example c104_ex : exists t, ds_from_iter_t Nat.eqb Eg false 4 [7; 7; 7; 7] = (Ret (DSet [(7, 0)] [Data 0 0]), t) /\
  ids_demanded t = [4; 1] /\ data_demanded t = [4; 1] /\ granted (alloc_max Eg) (fun d => 2 * d) 0 (ids_demanded t) 8 /\
  granted (alloc_max Eg) (fun d => d) 0 (data_demanded t) 4.
Proof.
  eexists. split; [reflexivity|]. split; [reflexivity|]. split; [reflexivity|].
  split; cbn.
  - eapply gr_meet with (r := 8); try lia. eapply gr_meet with (r := 8); try lia. constructor.
  - eapply gr_meet with (r := 4); try lia. eapply gr_meet with (r := 4); try lia. constructor.
Qed.
Definition ops104 : list (op nat) := [OMake 1; OUnion 1 2; OReserve 3; OExtend 2 [2; 3]; OClear; OMake 9].
Example c104_ex_run : Forall (@op_ok nat) ops104 /\ ranks_fit Eg /\
  exists s tr t, ds_run_t Nat.eqb Eg false ops104 (ds_new nat) = ((s, tr), t) /\ ids_demanded t = [1; 2; 5; 4; 3; 1] /\
    data_demanded t = [1; 2; 5; 4; 3; 1] /\
    forall ops1 ops2, ops104 = ops1 ++ ops2 -> ds_len (fst (ds_run Nat.eqb Eg ops1 (ds_new nat))) < 5 /\
     forall o ops3 n, ops2 = o :: ops3 -> announced o = Some n -> ds_len (fst (ds_run Nat.eqb Eg ops1 (ds_new nat))) + n <= 5.
Proof.
  split; [repeat constructor|]. split; [reflexivity|]. eexists _, _, _. split; [reflexivity|]. split; [reflexivity|]. split; [reflexivity|].
  intros ops1 ops2 X. unfold ops104 in X. destruct ops1 as [|o1 [|o2 [|o3 [|o4 [|o5 [|o6 [|o7 ops1]]]]]]]; cbn [app] in X; inversion X; subst;
    (split; [vm_compute; lia|]); intros o ops3 n Y Z; inversion Y; subst; cbn in Z; try discriminate Z; inversion Z; subst; vm_compute; lia.
Qed.
