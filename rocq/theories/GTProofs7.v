(** Comparisons made by lookups in hashbrown's table. *)
From Coq Require Import Permutation NArith.
From Verif Require Import Base HMModel HMProofs HTModel HTProofs HTProofs3 GTModel GTModel3 GTProofs GTProofs2 GTProofs3.
Set Implicit Arguments.

Section Steps.
Variable W : nat.
Hypothesis W2 : pow2 W.

(** the number of groups that cover the table once *)
Definition gsteps (n : nat) : nat := if n <? W then 1 else n / W.

Lemma gsteps_eq n : pow2 n -> W <= n -> exists c, gsteps n = 2 ^ c /\ n = W * 2 ^ c.
Proof.
  intros [a Ha] Le. destruct W2 as [b Hb]. exists (a - b).
  assert (AB : b <= a). { rewrite Ha, Hb in Le. apply Nat.pow_le_mono_r_iff in Le; lia. }
  assert (Hm : n = W * 2 ^ (a - b)). { rewrite Ha, Hb, <- Nat.pow_add_r. f_equal. lia. }
  split; auto. unfold gsteps. destruct (Nat.ltb_spec n W); [lia|]. rewrite Hm at 1. rewrite Nat.mul_comm.
  apply Nat.div_mul. pose proof (W_pos W2). lia.
Qed.

(** the bytes of a group belong to different slots *)
Lemma byte_inj n pos i j p : pos < n -> i < W -> j < W ->
  g_byte W n (pos + i) = Some p -> g_byte W n (pos + j) = Some p -> i = j.
Proof.
  intros Pn I J. unfold g_byte. destruct (Nat.ltb_spec n W).
  - destruct (Nat.ltb_spec (pos + i) n), (Nat.ltb_spec (pos + j) n);
      destruct (Nat.ltb_spec (pos + i) W), (Nat.ltb_spec (pos + j) W); try discriminate; intros [= A] [= B]; lia.
  - intros [= A] [= B]. rewrite <- B in A. clear B.
    pose proof (Nat.div_mod (pos + i) n ltac:(lia)) as Di. pose proof (Nat.div_mod (pos + j) n ltac:(lia)) as Dj.
    rewrite A in Di. revert Di Dj. generalize ((pos + i) / n), ((pos + j) / n). intros a b Di Dj.
    destruct (Nat.lt_trichotomy a b) as [X|[X|X]]; [|subst; lia|];
      [assert (n * a + n <= n * b) by nia|assert (n * b + n <= n * a) by nia]; lia.
Qed.

(** the groups of one round have no slot in common *)
Lemma groups_apart h n i j p : pow2 n -> i < j -> j < gsteps n ->
  In (Some p) (g_group W n (gpos W h n i)) -> In (Some p) (g_group W n (gpos W h n j)) -> False.
Proof.
  intros P2 I J A B. destruct (Nat.lt_ge_cases n W) as [Lt|Le].
  { unfold gsteps in J. destruct (Nat.ltb_spec n W); lia. }
  destruct (gsteps_eq P2 Le) as (c & E1 & E2). rewrite E1 in J. pose proof (W_pos W2) as WP.
  assert (M0 : 2 ^ c <> 0) by (apply Nat.pow_nonzero; lia). assert (Hn : 0 < n) by nia.
  apply group_large in A; auto. apply group_large in B; auto. destruct A as (x & X & A), B as (y & Y & B).
  rewrite gpos_tri, Nat.add_mod_idemp_l in A by lia. rewrite gpos_tri, Nat.add_mod_idemp_l in B by lia.
  set (s := g_start h n) in *. apply (@tri_apart c i j); auto.
  (* the offsets from the start agree modulo n *)
  assert (Q : (W * tri i + x) mod n = (W * tri j + y) mod n).
  { assert (S0 : s < n) by apply (gpos_in W h 0 Hn).
    assert (F : forall z, z mod n = ((s + z) mod n + (n - s)) mod n).
    { intros z. rewrite Nat.add_mod_idemp_l by lia. replace (s + z + (n - s)) with (z + 1 * n) by lia. now rewrite Nat.mod_add by lia. }
    rewrite (F (W * tri i + x)), (F (W * tri j + y)). rewrite !Nat.add_assoc. rewrite <- A, <- B. reflexivity. }
  assert (G : forall u z, z < W -> ((W * u + z) mod n) / W = u mod 2 ^ c).
  { intros u z Z. rewrite E2, Nat.mod_mul_r by lia.
    replace (W * u + z) with (z + u * W) by lia. rewrite Nat.mod_add, Nat.div_add by lia.
    rewrite (Nat.mod_small z W), (Nat.div_small z W) by auto. cbn [Nat.add].
    rewrite (Nat.mul_comm W), Nat.div_add, Nat.div_small by lia. reflexivity. }
  now rewrite <- (G (tri i) x X), <- (G (tri j) y Y), Q.
Qed.

(** [cover] within the first round *)
Lemma cover_round h n p : pow2 n -> p < n -> exists i, i < gsteps n /\ In (Some p) (g_group W n (gpos W h n i)).
Proof.
  intros P2 Hp. assert (Hn : 0 < n) by lia. destruct (Nat.lt_ge_cases n W) as [Lt|Ge].
  { exists 0. split; [unfold gsteps; destruct (Nat.ltb_spec n W); lia|]. apply group_small; auto. now apply gpos_in. }
  destruct (gsteps_eq P2 Ge) as (c & E1 & Hm). rewrite E1. pose proof (W_pos W2) as WP.
  set (m := 2 ^ c) in *. assert (M0 : 0 < m) by (destruct m; lia).
  set (s := g_start h n). assert (Hs : s < n) by apply (gpos_in W h 0 Hn).
  set (d := (p + (n - s)) mod n). assert (Hd : d < n) by (apply Nat.mod_upper_bound; lia).
  assert (Sd : (s + d) mod n = p).
  { unfold d. rewrite Nat.add_mod_idemp_r by lia. replace (s + (p + (n - s))) with (p + 1 * n) by lia.
    rewrite Nat.mod_add by lia. now apply Nat.mod_small. }
  assert (U : d / W < m) by (apply Nat.div_lt_upper_bound; lia).
  destruct (@tri_all c (d / W) U) as (i & I & T). exists i. split; auto.
  apply group_large; auto. exists (d mod W). split; [apply Nat.mod_upper_bound; lia|].
  rewrite gpos_tri by auto. fold s. rewrite Nat.add_mod_idemp_l by lia. rewrite <- Sd.
  fold m in T. pose proof (Nat.div_mod (tri i) m ltac:(lia)) as Dt. pose proof (Nat.div_mod d W ltac:(lia)) as Dd.
  rewrite T in Dt. rewrite Dt.
  replace (s + W * (m * (tri i / m) + d / W) + d mod W) with (s + d + tri i / m * n) by (rewrite Hm; nia).
  now rewrite Nat.mod_add by lia.
Qed.
End Steps.

Section Asks.
Variables K V : Type.
Variable eqb : K -> K -> bool.
Variable hash : K -> N.
Variable W : nat.
Hypothesis L : eq_laws eqb.
Hypothesis HH : forall a b, eqb a b = true -> hash a = hash b.
Hypothesis W2 : pow2 W.
Notation table := (table K V).
Implicit Types (t : table) (k : K).
Notation group := (g_group W).
Notation pos k t := (gpos W (hash k) (length t)).
Notation asks_in := (g_asks_in eqb hash).
Notation asks_from := (g_asks_from eqb hash W).
Notation tagged k t p := (match nth p t Empty with Full k' _ => N.eqb (g_tag (hash k')) (g_tag (hash k)) = true | _ => False end).

(** ** the slots of the keys compared *)
Lemma at_slot_full t p k' v : nth p t Empty = Full k' v -> at_slot t p = [k'].
Proof. intros H. unfold at_slot. apply nth_full in H. now rewrite H. Qed.

Lemma in_slots k t (f : list (option nat * nat)) : (forall i j p, In i f -> In j f -> fst i = Some p -> fst j = Some p -> snd i = snd j) ->
  NoDup (map snd f) ->
  exists ps, asks_in k t (map fst f) = flat_map (at_slot t) ps /\ NoDup ps /\
    forall p, In p ps -> In (Some p) (map fst f) /\ tagged k t p.
Proof.
  induction f as [|[b x] f IH]; intros Inj ND.
  { exists []. repeat split; try contradiction. constructor. }
  cbn [map g_asks_in fst]. inversion ND as [|? ? Nx ND']; subst.
  destruct IH as (ps & A & B & C); auto. { intros i j p I J. apply Inj; now right. }
  assert (Rest : exists ps, asks_in k t (map fst f) = flat_map (at_slot t) ps /\ NoDup ps /\
    forall p, In p ps -> In (Some p) (b :: map fst f) /\ tagged k t p).
  { exists ps. split; auto. split; auto. intros p Ip. destruct (C p Ip). split; auto. now right. }
  destruct (g_at t b) as [| |k' v] eqn:At; auto. destruct (N.eqb (g_tag (hash k')) (g_tag (hash k))) eqn:T; auto.
  destruct b as [p|]; [|discriminate]. cbn in At.
  exists (p :: if eqb k k' then [] else ps). split; [|split].
  - destruct (eqb k k'); cbn [flat_map]; rewrite (at_slot_full _ _ At); auto. cbn. now rewrite A.
  - constructor; [|destruct (eqb k k'); auto; constructor]. destruct (eqb k k'); [auto|]. intros I.
    destruct (C p I) as [C1 _]. apply in_map_iff in C1. destruct C1 as ([b y] & E1 & I1). cbn in E1. subst b.
    assert (Q : x = y) by (apply (Inj (Some p, x) (Some p, y) p); auto; [now left|now right]).
    apply Nx. cbn [snd]. rewrite Q. apply in_map_iff. exists (Some p, y). auto.
  - intros q [<-|I]; [rewrite At; split; auto; now left|]. destruct (eqb k k'); [destruct I|]. destruct (C q I). split; auto. now right.
Qed.

Lemma group_slots k t q : q < length t ->
  exists ps, asks_in k t (group (length t) q) = flat_map (at_slot t) ps /\ NoDup ps /\
    forall p, In p ps -> In (Some p) (group (length t) q) /\ tagged k t p.
Proof.
  intros Hq. set (f := map (fun j => (g_byte W (length t) (q + j), j)) (seq 0 W)).
  assert (F : map fst f = group (length t) q) by (unfold f, g_group; rewrite map_map; reflexivity).
  rewrite <- F. apply in_slots.
  - intros [b i] [b' j] p I J. cbn. intros -> ->. apply in_map_iff in I, J. destruct I as (i' & [= A ->] & I), J as (j' & [= B ->] & J).
    apply in_seq in I, J. apply (@byte_inj W (length t) q i j p); auto; lia.
  - unfold f. rewrite map_map. cbn. rewrite map_id. apply seq_NoDup.
Qed.

Lemma from_slots k t q : pow2 (length t) -> q < gsteps W (length t) -> existsb (g_is_empty t) (group (length t) (pos k t q)) = true ->
  forall f i, i <= q ->
  exists ps, asks_from k t (pos k t i) (W * i) f = flat_map (at_slot t) ps /\ NoDup ps /\
    forall p, In p ps -> p < length t /\ tagged k t p /\
      exists j, i <= j /\ j < gsteps W (length t) /\ In (Some p) (group (length t) (pos k t j)).
Proof.
  intros P2 Q Em. pose proof (pow2_pos P2) as Hn.
  induction f as [|f IH]; intros i I.
  { exists []. repeat split; try contradiction. constructor. }
  cbn [g_asks_from]. destruct (@group_slots k t (pos k t i) (gpos_in W (hash k) i Hn)) as (ps & A & B & C). rewrite A.
  assert (Here : forall p, In p ps -> p < length t /\ tagged k t p /\
      exists j, i <= j /\ j < gsteps W (length t) /\ In (Some p) (group (length t) (pos k t j))).
  { intros p Ip. destruct (C p Ip). split; [apply (@group_in W (length t) (pos k t i) p); auto; now apply gpos_in|]. split; auto. exists i. split; auto. split; [lia|auto]. }
  destruct (existsb (g_matches eqb hash k t) _); [exists ps; rewrite app_nil_r; auto|].
  destruct (existsb (g_is_empty t) (group (length t) (pos k t i))) eqn:X; [exists ps; rewrite app_nil_r; auto|].
  assert (Ne : i <> q) by congruence.
  change ((pos k t i + (W * i + W)) mod length t) with (pos k t (S i)). rewrite <- Nat.mul_succ_r.
  destruct (IH (S i)) as (ps' & A' & B' & C'); [lia|]. rewrite A'. exists (ps ++ ps'). split; [now rewrite flat_map_app|]. split.
  - clear - B B' C C' W2 P2 I Q. revert B C. induction ps as [|p ps IHp]; intros B C; cbn; auto.
    inversion B as [|? ? N1 N2]; subst. constructor; [|apply IHp; auto; intros z Z; apply C; now right].
    intros Hp. apply in_app_or in Hp. destruct Hp as [Hp|Hp]; [auto|].
    destruct (C' p Hp) as (_ & _ & j & J1 & J2 & J3). destruct (C p (or_introl eq_refl)) as [C1 _].
    exact (@groups_apart W W2 (hash k) (length t) i j p P2 ltac:(lia) J2 C1 J3).
  - intros p Ip. apply in_app_or in Ip. destruct Ip as [Ip|Ip]; auto. destruct (C' p Ip) as (D1 & D2 & j & D3 & D4).
    split; auto. split; auto. exists j. split; [lia|auto].
Qed.

Lemma asks_slots k t : GTProofs2.gok eqb hash W t ->
  exists ps, g_asks eqb hash W k t = flat_map (at_slot t) ps /\ NoDup ps /\ forall p, In p ps -> p < length t /\ tagged k t p.
Proof.
  intros O. pose proof O as (_ & _ & P2 & _). destruct (has_empty O) as (p & Hp & Em).
  destruct (@cover_round W W2 (hash k) (length t) p P2 Hp) as (q & Q & In1).
  destruct (@from_slots k t q P2 Q) with (f := length t) (i := 0) as (ps & A & B & C); [|lia|].
  { apply existsb_exists. eauto. }
  rewrite Nat.mul_0_r in A. exists ps. split; auto. split; auto. intros x X. destruct (C x X) as (C1 & C2 & _). auto.
Qed.

Lemma slots_split n ps : NoDup ps -> (forall p, In p ps -> p < n) -> exists rest, Permutation (ps ++ rest) (seq 0 n).
Proof.
  intros ND Lt. exists (filter (fun x => negb (if in_dec Nat.eq_dec x ps then true else false)) (seq 0 n)).
  apply NoDup_Permutation; [| apply seq_NoDup|].
  - assert (G : forall l, NoDup l -> NoDup ps -> (forall x, In x ps -> ~ In x l) -> NoDup (ps ++ l)).
    { clear. induction ps as [|p ps IH]; cbn; intros l A B C; auto. inversion B; subst. constructor; [|apply IH; auto].
      intros I. apply in_app_or in I. destruct I; [auto|]. exact (C p (or_introl eq_refl) H). }
    apply G; auto; [apply NoDup_filter, seq_NoDup|]. intros x X I. apply filter_In in I. destruct I as [_ I].
    destruct (in_dec Nat.eq_dec x ps); [discriminate|auto].
  - intros x. rewrite in_app_iff, filter_In, in_seq. split.
    + intros [I|[I _]]; [apply Lt in I; lia|lia].
    + intros I. destruct (in_dec Nat.eq_dec x ps); auto.
Qed.

(** each stored key at most once, and only those whose tags agree *)
Lemma gasks_sub k t : GTProofs2.gok eqb hash W t ->
  Forall (fun k' => g_tag (hash k') = g_tag (hash k)) (g_asks eqb hash W k t) /\
  exists rest, Permutation (g_asks eqb hash W k t ++ rest) (map fst (ht_entries t)).
Proof.
  intros O. destruct (@asks_slots k t O) as (ps & A & B & C). rewrite A. split.
  - apply Forall_forall. intros x X. apply in_flat_map in X. destruct X as (p & Ip & X). destruct (C p Ip) as [_ T].
    destruct (nth p t Empty) as [| |k' v] eqn:N; try contradiction. rewrite (at_slot_full _ _ N) in X. destruct X as [<-|[]].
    now apply N.eqb_eq.
  - destruct (slots_split (n := length t) B) as [rest R]; [intros p Ip; apply (C p Ip)|].
    exists (flat_map (at_slot t) rest). rewrite <- flat_map_app, <- at_all. now apply flat_map_perm.
Qed.

Lemma gasks_le k t : GTProofs2.gok eqb hash W t -> length (g_asks eqb hash W k t) <= ht_len t.
Proof.
  intros O. destruct (@gasks_sub k t O) as [_ [rest R]]. apply Permutation_length in R.
  rewrite app_length, map_length in R. unfold ht_len. lia.
Qed.

(** ** lookups that fail *)
Lemma no_match k t b : hm_entry_of eqb k (ht_entries t) = None -> g_matches eqb hash k t b = false.
Proof.
  intros Ab. unfold g_matches. destruct (g_at t b) as [| |k' v] eqn:A; auto. destruct b as [p|]; [|discriminate]. cbn in A.
  apply nth_full in A. rewrite entry_of_none in Ab. assert (Q : eqb k k' = false) by (apply (Ab (k', v)), entries_in; eauto). rewrite Q. apply andb_false_r.
Qed.

Lemma in_all k t bs p k' v : hm_entry_of eqb k (ht_entries t) = None -> In (Some p) bs -> nth_error t p = Some (Full k' v) ->
  hash k' = hash k -> In k' (asks_in k t bs).
Proof.
  intros Ab I N Q. apply nth_full in N. induction bs as [|b bs IH]; [destruct I|]. cbn [g_asks_in].
  pose proof (@no_match k t b Ab) as M. unfold g_matches in M.
  destruct I as [->|I].
  - cbn [g_at] in *. rewrite N. rewrite Q, N.eqb_refl. now left.
  - destruct (g_at t b) as [| |k2 v2]; auto. destruct (N.eqb (g_tag (hash k2)) (g_tag (hash k))); auto.
    cbn in M. rewrite M. right. auto.
Qed.

Lemma from_all k t q p k' v : hm_entry_of eqb k (ht_entries t) = None -> nth_error t p = Some (Full k' v) -> hash k' = hash k ->
  In (Some p) (group (length t) (pos k t q)) ->
  (forall j b, j < q -> In b (group (length t) (pos k t j)) -> g_is_empty t b = false) ->
  forall f i, i <= q -> q < i + f -> In k' (asks_from k t (pos k t i) (W * i) f).
Proof.
  intros Ab N Q I Ne. induction f as [|f IH]; intros i I1 I2; [lia|]. cbn [g_asks_from]. apply in_or_app.
  destruct (Nat.eq_dec i q) as [->|D]; [left; eapply in_all; eauto|]. right.
  destruct (existsb (g_matches eqb hash k t) _) eqn:X.
  { apply existsb_exists in X. destruct X as (b & _ & X). rewrite (@no_match k t b Ab) in X. discriminate. }
  destruct (existsb (g_is_empty t) (group (length t) (pos k t i))) eqn:Y.
  { apply existsb_exists in Y. destruct Y as (b & Ib & Y). rewrite (Ne i b) in Y; [discriminate|lia|auto]. }
  change ((pos k t i + (W * i + W)) mod length t) with (pos k t (S i)). rewrite <- Nat.mul_succ_r. apply IH; lia.
Qed.

Lemma stored_once t p q k' v v' : hm_wf eqb (ht_entries t) -> nth_error t p = Some (Full k' v) -> nth_error t q = Some (Full k' v') -> p = q.
Proof.
  intros Wf A B. destruct (nth_error_split _ _ A) as (l1 & l2 & E1 & E2).
  destruct (Nat.eq_dec p q) as [|D]; auto. exfalso. subst t.
  rewrite entries_app in Wf. change (ht_entries (Full k' v :: l2)) with ((k', v) :: ht_entries l2) in Wf.
  apply (wf_perm L (Permutation_sym (Permutation_middle _ _ _))) in Wf. inversion Wf as [|? ? F _]; subst. rewrite Forall_forall in F.
  assert (I : In (k', v') (ht_entries l1 ++ ht_entries l2)).
  { apply in_or_app. destruct (Nat.lt_ge_cases q (length l1)) as [Lt|Ge].
    - left. rewrite nth_error_app1 in B by auto. apply entries_in. eauto.
    - right. rewrite nth_error_app2 in B by auto. destruct (q - length l1) as [|x] eqn:Z; [lia|]. cbn in B. apply entries_in. eauto. }
  specialize (F _ I). cbn in F. rewrite (eq_refl' L) in F. discriminate.
Qed.

Lemma gasks_same k t : GTProofs2.gok eqb hash W t -> hm_entry_of eqb k (ht_entries t) = None ->
  Permutation (filter (fun k' => N.eqb (hash k') (hash k)) (g_asks eqb hash W k t))
              (filter (fun k' => N.eqb (hash k') (hash k)) (map fst (ht_entries t))).
Proof.
  intros O Ab. destruct (@asks_slots k t O) as (ps & A & B & C). pose proof O as (Wf & Pa & P2 & _).
  destruct (slots_split (n := length t) B) as [rest R]; [intros p Ip; apply (C p Ip)|].
  eapply Permutation_trans; [|apply filter_perm; rewrite <- at_all; apply flat_map_perm; exact R].
  rewrite flat_map_app, filter_app, A.
  assert (Z : filter (fun k' => N.eqb (hash k') (hash k)) (flat_map (at_slot t) rest) = []); [|now rewrite Z, app_nil_r].
  assert (NR : NoDup (ps ++ rest)) by (eapply Permutation_NoDup; [apply Permutation_sym; exact R|apply seq_NoDup]).
  destruct (filter _ (flat_map (at_slot t) rest)) as [|y l] eqn:F; auto. exfalso.
  assert (Y : In y (filter (fun k' => N.eqb (hash k') (hash k)) (flat_map (at_slot t) rest))) by (rewrite F; now left).
  apply filter_In in Y. destruct Y as [Y Q]. apply N.eqb_eq in Q. apply in_flat_map in Y. destruct Y as (p & Ip & Y).
  unfold at_slot in Y. destruct (nth_error t p) as [[| |k' v]|] eqn:N; try destruct Y as []. 2: destruct H. subst y.
  destruct (Pa _ _ _ N) as (i & I1 & I2 & I3). rewrite Q in I2, I3.
  pose proof (@from_all k t i p k' v Ab N Q I2 I3 (length t) 0 (Nat.le_0_l i) I1) as In1. rewrite Nat.mul_0_r in In1.
  change (In k' (g_asks eqb hash W k t)) in In1. rewrite A in In1. apply in_flat_map in In1. destruct In1 as (q & Iq & In1).
  unfold at_slot in In1. destruct (nth_error t q) as [[| |k2 v2]|] eqn:N2; try destruct In1 as []. 2: destruct H. subst k2.
  assert (p = q) by (eapply stored_once; eauto). subst q.
  clear - NR Ip Iq. induction ps as [|a ps IH]; [destruct Iq|]. cbn in NR. inversion NR as [|? ? N1 N2]; subst.
  destruct Iq as [->|Iq]; [apply N1, in_or_app; auto|auto].
Qed.

(** ** lookups that succeed *)
Lemma in_found k t bs b : find (g_matches eqb hash k t) bs = Some b -> exists k' v l, g_at t b = Full k' v /\
  asks_in k t bs = l ++ [k'] /\ eqb k k' = true /\ Forall (fun x => eqb k x = false) l.
Proof.
  induction bs as [|c bs IH]; cbn; [discriminate|]. unfold g_matches at 1. destruct (g_at t c) as [| |k' v] eqn:A; auto.
  destruct (N.eqb (g_tag (hash k')) (g_tag (hash k))) eqn:T; cbn [andb]; auto. destruct (eqb k k') eqn:Q.
  - intros [= ->]. exists k', v, []. repeat split; auto.
  - intros F. destruct (IH F) as (k2 & v2 & l & B1 & B2 & B3 & B4). exists k2, v2, (k' :: l). rewrite B2. repeat split; auto.
Qed.

Lemma in_not_found k t bs : existsb (g_matches eqb hash k t) bs = false -> Forall (fun x => eqb k x = false) (asks_in k t bs).
Proof.
  induction bs as [|c bs IH]; cbn; [constructor|]. intros H. apply orb_false_iff in H. destruct H as [H1 H2]. unfold g_matches in H1.
  destruct (g_at t c) as [| |k' v]; auto. destruct (N.eqb (g_tag (hash k')) (g_tag (hash k))); auto. cbn in H1. rewrite H1.
  constructor; auto.
Qed.

Lemma find_exists {A} (f : A -> bool) l : existsb f l = match find f l with Some _ => true | None => false end.
Proof. induction l as [|x l IH]; cbn; auto. now destruct (f x). Qed.

Lemma from_found k t f : forall q s p, g_seek eqb hash W k t q s f = Some p ->
  exists k' v l, nth p t Empty = Full k' v /\ asks_from k t q s f = l ++ [k'] /\
    eqb k k' = true /\ Forall (fun x => eqb k x = false) l.
Proof.
  induction f as [|f IH]; cbn [g_seek g_asks_from]; intros q s p H; [discriminate|]. rewrite find_exists.
  destruct (find (g_matches eqb hash k t) (group (length t) q)) as [b|] eqn:F.
  - destruct (in_found _ _ _ F) as (k' & v & l & A1 & A2 & A3 & A4). destruct b as [p'|]; [|discriminate]. injection H as ->.
    exists k', v, l. rewrite app_nil_r. auto.
  - destruct (existsb (g_is_empty t) _); [discriminate|]. destruct (IH _ _ _ H) as (k' & v & l & A1 & A2 & A3 & A4).
    assert (N : existsb (g_matches eqb hash k t) (group (length t) q) = false) by now rewrite find_exists, F.
    exists k', v, (asks_in k t (group (length t) q) ++ l). rewrite A2, app_assoc. repeat split; auto.
    apply Forall_app. split; auto. now apply in_not_found.
Qed.

Lemma gasks_found k t k' v : g_entry_of eqb hash W k t = Some (k', v) ->
  exists l, g_asks eqb hash W k t = l ++ [k'] /\ Forall (fun x => eqb k x = false) l.
Proof.
  unfold g_entry_of, g_find, g_asks. destruct (g_seek eqb hash W k t _ 0 (length t)) as [p|] eqn:S; [|discriminate].
  destruct (from_found _ _ _ _ _ S) as (k2 & v2 & l & A & B & _ & D). rewrite A. intros [= -> ->]. eauto.
Qed.

(** ** one round is enough *)
Lemma find_round k t f : GTProofs2.gok eqb hash W t -> Nat.max 1 (length t / W) <= f ->
  g_seek eqb hash W k t (g_start (hash k) (length t)) 0 f = g_find eqb hash W k t.
Proof.
  intros O Le. pose proof O as (_ & _ & P2 & _). destruct (has_empty O) as (p & Hp & Em).
  destruct (@cover_round W W2 (hash k) (length t) p P2 Hp) as (i & I & Ib).
  assert (G : gsteps W (length t) <= Nat.max 1 (length t / W)) by (unfold gsteps; destruct (length t <? W); lia).
  assert (G2 : Nat.max 1 (length t / W) <= length t).
  { pose proof (Nat.div_le_upper_bound (length t) W (length t)) as X. pose proof (W_pos W2). assert (length t / W <= length t) by (apply X; nia). lia. }
  set (m := Nat.max 1 (length t / W)) in *.
  pose proof (@seek_fuel K V eqb hash W k t 0 m f i (Some p)) as X. rewrite Nat.mul_0_r in X.
  pose proof (@seek_fuel K V eqb hash W k t 0 m (length t) i (Some p)) as Y. rewrite Nat.mul_0_r in Y.
  cbn [gpos] in X, Y. unfold g_find. rewrite X, Y; auto; lia.
Qed.
End Asks.
