(** More proofs for C110: the functions with events are those of the other models, and
    which keys are dropped when nothing panics. *)
From Coq Require Import Permutation.
From Verif Require Import Base HMModel CTModel CTModel2 CTModel3 OwnSpec OwnProofs CTModel6 CTSpec7 CTProofs10.
Local Open Scope outcome_scope.
Set Implicit Arguments.

Ltac pairs := repeat match goal with |- context [match ?x with (_, _) => _ end] => destruct x; cbn [fst snd] end.

(** no destructor panics *)
Definition never {K} (_ : K) : bool := false.
Lemma unwind_never K A (ks : list K) : @ct_unwind K never A ks = Panic.
Proof. unfold ct_unwind. induction ks as [|k ks IH]; [reflexivity|exact IH]. Qed.
Lemma drop_never K (ks : list K) : ct_drop never ks = Ret tt.
Proof. induction ks as [|k ks IH]; [reflexivity|exact IH]. Qed.

Section Erase.
Variable K : Type.
Variable E : machine.
Variable u : keys_do K.
Notation "'bump'" := (ct_bump_u (kd_eq u) (kd_look u) (kd_rehash u) never E).
Notation "'lower'" := (ct_lower_u (kd_eq u) (kd_look u) (kd_rehash u) never E).

Lemma bump_erase k n c : fst (ct_bump_o E u k n c) = bump k n c.
Proof.
  unfold ct_bump_o, ct_bump_u. rewrite !unwind_never, drop_never. destruct (kd_look u (ct_map c) k); [reflexivity|].
  destruct (hm_entry _ E k (ct_map c)) as [[old|]| | | |]; try reflexivity.
  - destruct (uadd E old n); reflexivity.
  - destruct (kd_rehash u (ct_map c) 1) as [[kept lost]|]; [now rewrite unwind_never|]. destruct (uadd E 0 n); reflexivity.
Qed.
Lemma lower_erase k n c : fst (ct_lower_o E u k n c) = lower k n c.
Proof.
  unfold ct_lower_o, ct_lower_u. rewrite !unwind_never, !drop_never. destruct (kd_look u (ct_map c) k); [reflexivity|].
  destruct (hm_entry _ E k (ct_map c)) as [[old|]| | | |]; try reflexivity.
  - destruct (old <=? n); [reflexivity|]. destruct (usub E old n); reflexivity.
  - destruct (kd_rehash u (ct_map c) 1) as [[kept lost]|]; [now rewrite unwind_never|reflexivity].
Qed.
Lemma bump_ret k n c : snd (fst (ct_bump_o E u k n c)) = Ret tt \/ snd (fst (ct_bump_o E u k n c)) = Panic.
Proof.
  unfold ct_bump_o. destruct (kd_look u (ct_map c) k); auto.
  destruct (hm_entry _ E k (ct_map c)) as [[old|]| | | |]; auto.
  - destruct (uadd E old n); auto.
  - destruct (kd_rehash u (ct_map c) 1) as [[kept lost]|]; auto. destruct (uadd E 0 n); auto.
Qed.
Lemma lower_ret k n c : snd (fst (ct_lower_o E u k n c)) = Ret tt \/ snd (fst (ct_lower_o E u k n c)) = Panic.
Proof.
  unfold ct_lower_o. destruct (kd_look u (ct_map c) k); auto.
  destruct (hm_entry _ E k (ct_map c)) as [[old|]| | | |]; auto.
  - destruct (old <=? n); auto. destruct (usub E old n); auto.
  - destruct (kd_rehash u (ct_map c) 1) as [[kept lost]|]; auto.
Qed.
Lemma push_erase k c : fst (ct_push_o E u k c) = ct_push_u (kd_eq u) (kd_look u) (kd_rehash u) never E k c.
Proof. unfold ct_push_o, ct_push_u. rewrite <- bump_erase. now destruct (ct_bump_o E u k 1 c). Qed.
Lemma push_from_erase xs : forall c, fst (ct_push_from_o E u (map Some xs) c) =
  for_each (ct_push_u (kd_eq u) (kd_look u) (kd_rehash u) never E) xs c.
Proof.
  induction xs as [|k xs IH]; intros c; [reflexivity|]. cbn [map ct_push_from_o for_each]. rewrite <- push_erase.
  destruct (ct_push_o E u k c) as [[c1 o] t]. cbn [fst]. destruct o as [[]| | | |]; try reflexivity.
  rewrite <- IH. now destruct (ct_push_from_o E u (map Some xs) c1).
Qed.
Lemma owned_erase body body' : (forall k n c, fst (body k n c) = body' (k, n) c) ->
  (forall k n c, snd (fst (body k n c)) = Ret tt \/ snd (fst (body k n c)) = Panic) ->
  forall rhs c, fst (ct_for_owned_o (K := K) body rhs c) = ct_for_owned never body' rhs c.
Proof.
  intros B R. induction rhs as [|[k n] rhs IH]; intros c; [reflexivity|]. cbn [ct_for_owned_o ct_for_owned]. rewrite <- B.
  specialize (R k n c). destruct (body k n c) as [[c1 o] t]. cbn [fst snd] in *. destruct R as [->| ->].
  - rewrite <- IH. now destruct (ct_for_owned_o body rhs c1).
  - now rewrite unwind_never.
Qed.
Lemma owned_erase' body body' : (forall k n c, fst (body k n c) = body' (k, n) c) ->
  forall rhs c, fst (ct_for_owned_o (K := K) body rhs c) = for_each body' rhs c.
Proof.
  intros B. induction rhs as [|[k n] rhs IH]; intros c; [reflexivity|]. cbn [ct_for_owned_o for_each]. rewrite <- B.
  destruct (body k n c) as [[c1 o] t]. cbn [fst snd] in *. destruct o as [[]| | | |]; try reflexivity.
  rewrite <- IH. now destruct (ct_for_owned_o body rhs c1).
Qed.
Lemma cloned_erase body body' : (forall k n c, fst (body k n c) = body' (k, n) c) ->
  forall rhs c, fst (ct_for_cloned_o u body rhs c) =
    for_each (fun e c => match kd_clone u (fst e) with Some k => body' (k, snd e) c | None => (c, Panic) end) rhs c.
Proof.
  intros B. induction rhs as [|[k n] rhs IH]; intros c; [reflexivity|]. cbn [ct_for_cloned_o for_each fst snd].
  destruct (kd_clone u k) as [k'|]; [|reflexivity]. rewrite <- B.
  destruct (body k' n c) as [[c1 o] t]. cbn [fst snd] in *. destruct o as [[]| | | |]; try reflexivity.
  rewrite <- IH. now destruct (ct_for_cloned_o u body rhs c1).
Qed.
Lemma finish_erase (r : (counter K * outcome unit) * list (ev K)) : snd (fst r) = Ret tt \/ snd (fst r) = Panic ->
  fst (finish_o r) = finish (fst r).
Proof. destruct r as [[c o] t]. cbn. now intros [->| ->]. Qed.
Lemma for_each_ext A B (f g : A -> B -> B * outcome unit) l : (forall a b, f a b = g a b) -> forall b, for_each f l b = for_each g l b.
Proof. intros H. induction l as [|a l IH]; intros b; cbn; [reflexivity|]. rewrite H. destruct (g a b) as [b' []]; auto. Qed.
Lemma for_each_map A B C (f : A -> B) (g : B -> C -> C * outcome unit) l : forall c, for_each g (map f l) c = for_each (fun a => g (f a)) l c.
Proof. induction l as [|a l IH]; intros c; cbn; [reflexivity|]. destruct (g (f a) c) as [c' []]; auto. Qed.
Lemma owned_ret body : (forall k n c, snd (fst (body k n c)) = Ret tt \/ snd (fst (body k n c)) = Panic) ->
  forall rhs c, snd (fst (ct_for_owned_o (K := K) body rhs c)) = Ret tt \/ snd (fst (ct_for_owned_o body rhs c)) = Panic.
Proof.
  intros R. induction rhs as [|[k n] rhs IH]; intros c; [now left|]. cbn [ct_for_owned_o]. specialize (R k n c).
  destruct (body k n c) as [[c1 o] t]. cbn [fst snd] in *. destruct R as [->| ->]; [|now right].
  specialize (IH c1). now destruct (ct_for_owned_o body rhs c1).
Qed.
Lemma cloned_ret body : (forall k n c, snd (fst (body k n c)) = Ret tt \/ snd (fst (body k n c)) = Panic) ->
  forall rhs c, snd (fst (ct_for_cloned_o u body rhs c)) = Ret tt \/ snd (fst (ct_for_cloned_o u body rhs c)) = Panic.
Proof.
  intros R. induction rhs as [|[k n] rhs IH]; intros c; [now left|]. cbn [ct_for_cloned_o].
  destruct (kd_clone u k) as [k'|]; [|now right]. specialize (R k' n c).
  destruct (body k' n c) as [[c1 o] t]. cbn [fst snd] in *. destruct R as [->| ->]; [|now right].
  specialize (IH c1). now destruct (ct_for_cloned_o u body rhs c1).
Qed.
Lemma push_from_ret evs : forall c, snd (fst (ct_push_from_o E u evs c)) = Ret tt \/ snd (fst (ct_push_from_o E u evs c)) = Panic.
Proof.
  induction evs as [|[k|] evs IH]; intros c; cbn [ct_push_from_o]; [now left| |now right].
  unfold ct_push_o. pose proof (bump_ret k 1 c) as R. destruct (ct_bump_o E u k 1 c) as [[c1 o] t]. cbn [fst snd] in *.
  destruct R as [->| ->]; [|now right]. specialize (IH c1). now destruct (ct_push_from_o E u evs c1).
Qed.
Lemma insert_ret k n m : (exists x, snd (fst (hm_insert_o E u k n m)) = Ret x) \/ snd (fst (hm_insert_o E u k n m)) = Panic.
Proof.
  unfold hm_insert_o. destruct (kd_look u m k); auto. destruct (hm_entry _ E k m) as [[old|]| | | |]; cbn; eauto.
  destruct (kd_rehash u m 1) as [[]|]; cbn; eauto.
Qed.
End Erase.

(** keys that do not panic, except in [clone] *)
Definition kind {K} (eqb : K -> K -> bool) (clone : K -> option K) : keys_do K :=
  KeysDo eqb (fun _ _ => false) (fun _ _ => None) clone.
Lemma kind_ok K (eqb : K -> K -> bool) clone : kd_ok (kind eqb clone).
Proof. intros m n kept lost Q. discriminate Q. Qed.

Section Kind.
Variable K : Type.
Variable E : machine.
Variable eqb : K -> K -> bool.
Variable clone : K -> option K.
Notation u := (kind eqb clone).
Lemma bump_kind k n c : fst (ct_bump_o E u k n c) = ct_bump eqb E k n c.
Proof.
  unfold ct_bump_o, ct_bump; cbn [kd_look kd_eq kd_rehash kind].
  destruct (hm_entry _ E k (ct_map c)) as [[old|]| | | |]; try reflexivity; [destruct (uadd E old n)|destruct (uadd E 0 n)]; reflexivity.
Qed.
Lemma lower_kind k n c : fst (ct_lower_o E u k n c) = ct_lower eqb E k n c.
Proof.
  unfold ct_lower_o, ct_lower; cbn [kd_look kd_eq kd_rehash kind].
  destruct (hm_entry _ E k (ct_map c)) as [[old|]| | | |]; try reflexivity. destruct (old <=? n); [reflexivity|]. destruct (usub E old n); reflexivity.
Qed.
Lemma push_from_kind evs : forall c, fst (ct_push_from_o E u evs c) = ct_push_from eqb E evs c.
Proof.
  induction evs as [|[k|] evs IH]; intros c; cbn [ct_push_from_o ct_push_from]; try reflexivity.
  unfold ct_push_o, ct_push. rewrite <- bump_kind. destruct (ct_bump_o E u k 1 c) as [[c1 o] t]. cbn [fst].
  destruct o as [[]| | | |]; try reflexivity. rewrite <- IH. now destruct (ct_push_from_o E u evs c1).
Qed.
Lemma from_iter_kind hint evs : fst (ct_from_iter_o E u hint evs) = ct_from_iter_from eqb E hint evs.
Proof.
  unfold ct_from_iter_o, ct_from_iter_from. destruct hint as [h|]; [|reflexivity]. unfold ct_with_capacity, hm_reserve.
  destruct (_ <=? alloc_max E); [|reflexivity]. cbn [obind]. rewrite <- push_from_kind. apply finish_erase, push_from_ret.
Qed.
Lemma from_iter_ref_kind hint evs : fst (ct_from_iter_ref_o E u hint evs) = ct_from_iter_refs eqb clone E hint evs.
Proof.
  unfold ct_from_iter_ref_o, ct_from_iter_refs. destruct hint as [h|]; [|reflexivity]. unfold ct_with_capacity, hm_reserve.
  destruct (_ <=? alloc_max E); [|reflexivity]. cbn [obind]. change (cloned clone evs) with (cloned_o u evs).
  rewrite <- push_from_kind. apply finish_erase, push_from_ret.
Qed.
Lemma extend_kind hint evs c : fst (ct_extend_o E u hint evs c) = ct_extend_from eqb E hint evs c.
Proof.
  unfold ct_extend_o, ct_extend_from. destruct hint as [h|]; [|reflexivity]. destruct (hm_reserve E h (ct_map c)); try reflexivity.
  apply push_from_kind.
Qed.
Lemma add_assign_kind rhs c : fst (ct_add_assign_o E u rhs c) = ct_add_assign eqb E rhs c.
Proof.
  unfold ct_add_assign_o, ct_add_assign.
  rewrite <- (owned_erase' (ct_bump_o E u) (fun e => ct_bump eqb E (fst e) (snd e)) (fun k n c => bump_kind k n c)).
  now destruct (ct_for_owned_o (ct_bump_o E u) rhs c).
Qed.
Lemma sub_assign_kind rhs c : fst (ct_sub_assign_o E u rhs c) = ct_sub_assign eqb E rhs c.
Proof.
  unfold ct_sub_assign_o, ct_sub_assign.
  rewrite <- (owned_erase' (ct_lower_o E u) (fun e => ct_lower eqb E (fst e) (snd e)) (fun k n c => lower_kind k n c)).
  now destruct (ct_for_owned_o (ct_lower_o E u) rhs c).
Qed.
Lemma add_assign_ref_kind rhs c : fst (ct_add_assign_ref_o E u rhs c) = ct_add_assign_refs eqb clone E rhs c.
Proof. exact (cloned_erase u (ct_bump_o E u) (fun e => ct_bump eqb E (fst e) (snd e)) (fun k n c => bump_kind k n c) rhs c). Qed.
Lemma sub_assign_ref_kind rhs c : fst (ct_sub_assign_ref_o E u rhs c) = ct_sub_assign_refs eqb clone E rhs c.
Proof. exact (cloned_erase u (ct_lower_o E u) (fun e => ct_lower eqb E (fst e) (snd e)) (fun k n c => lower_kind k n c) rhs c). Qed.
Lemma add_kind rhs c : fst (ct_add_o E u c rhs) = ct_add eqb E c rhs.
Proof.
  unfold ct_add_o, ct_add. rewrite <- add_assign_kind. apply finish_erase. unfold ct_add_assign_o.
  pose proof (@owned_ret K (ct_bump_o E u) (bump_ret E u) rhs c) as R. now destruct (ct_for_owned_o (ct_bump_o E u) rhs c).
Qed.
Lemma sub_kind rhs c : fst (ct_sub_o E u c rhs) = ct_sub eqb E c rhs.
Proof.
  unfold ct_sub_o, ct_sub. rewrite <- sub_assign_kind. apply finish_erase. unfold ct_sub_assign_o.
  pose proof (@owned_ret K (ct_lower_o E u) (lower_ret E u) rhs c) as R. now destruct (ct_for_owned_o (ct_lower_o E u) rhs c).
Qed.
Lemma add_ref_kind rhs c : fst (ct_add_ref_o E u c rhs) = ct_add_refs eqb clone E c rhs.
Proof.
  unfold ct_add_ref_o, ct_add_refs. pose proof (add_assign_ref_kind rhs c) as A. unfold ct_add_assign_ref_o, ct_add_assign_refs in A.
  rewrite <- A. apply finish_erase. apply cloned_ret, bump_ret.
Qed.
Lemma sub_ref_kind rhs c : fst (ct_sub_ref_o E u c rhs) = ct_sub_refs eqb clone E c rhs.
Proof.
  unfold ct_sub_ref_o, ct_sub_refs. pose proof (sub_assign_ref_kind rhs c) as A. unfold ct_sub_assign_ref_o, ct_sub_assign_refs in A.
  rewrite <- A. apply finish_erase. apply cloned_ret, lower_ret.
Qed.
Lemma insert_kind k n m : fst (hm_insert_o E u k n m) = hm_insert eqb E k n m.
Proof.
  unfold hm_insert_o, hm_insert; cbn [kd_look kd_eq kd_rehash kind].
  destruct (hm_entry _ E k m) as [[old|]| | | |]; reflexivity.
Qed.
Definition ins (e : K * nat) (m : hmap K nat) : hmap K nat * outcome unit := match hm_insert eqb E (fst e) (snd e) m with
                                  | (m', Ret _) => (m', Ret tt)
                                  | (m', _) => (m', Panic)
                                  end.
Definition ins_o (key : K) (n : nat) (c : counter K) := match hm_insert_o E u key n (ct_map c) with
                                            | ((m, Ret _), t) => ((Counter m, Ret tt), t)
                                            | ((m, _), t) => ((Counter m, Panic), t)
                                            end.
Lemma ins_kind k n c : fst (ins_o k n c) = let (m, o) := ins (k, n) (ct_map c) in (Counter m, o).
Proof. unfold ins_o, ins. cbn [fst snd]. rewrite <- insert_kind. destruct (hm_insert_o E u k n (ct_map c)) as [[m []] t]; reflexivity. Qed.
Lemma ins_ret k n c : snd (fst (ins_o k n c)) = Ret tt \/ snd (fst (ins_o k n c)) = Panic.
Proof. unfold ins_o. destruct (hm_insert_o E u k n (ct_map c)) as [[m []] t]; cbn; auto. Qed.
Lemma for_each_ct l : forall m, for_each (fun e c => let (m, o) := ins e (ct_map c) in (Counter m, o)) l (Counter m) =
  let (m', o) := for_each ins l m in (Counter m', o).
Proof.
  induction l as [|e l IH]; intros m; cbn [for_each ct_map]; [reflexivity|]. destruct (ins e m) as [m' []]; try reflexivity. apply IH.
Qed.
Lemma from_kind rhs : fst (ct_from_o E u rhs) = ct_from eqb E rhs.
Proof.
  unfold ct_from_o, ct_from, hm_collect_o, hm_collect, hm_reserve.
  destruct (_ <=? alloc_max E); [|reflexivity]. fold ins ins_o.
  change (for_each _ rhs []) with (for_each ins rhs []).
  change (ct_for_owned_o _ rhs (Counter [])) with (ct_for_owned_o ins_o rhs (Counter [])).
  pose proof (owned_erase' ins_o (fun e c => let (m, o) := ins e (ct_map c) in (Counter m, o)) (fun k n c => ins_kind k n c) rhs (Counter [])) as Q. rewrite for_each_ct in Q.
  pose proof (@owned_ret K ins_o ins_ret rhs (Counter [])) as R.
  pose proof (finish_erase (ct_for_owned_o ins_o rhs (Counter [])) R) as F. rewrite Q in F.
  destruct (finish_o _) as [o t]. cbn [fst] in *. rewrite F. now destruct (for_each ins rhs []) as [m' o'].
Qed.
End Kind.

Section Total.
Variable K : Type.
Variable E : machine.
Variable eqb : K -> K -> bool.
Variable cl : K -> K.
Notation u := (kind eqb (fun k => Some (cl k))).
Lemma from_ref_kind rhs : fst (ct_from_ref_o E u rhs) = ct_from_ref eqb cl E rhs.
Proof.
  unfold ct_from_ref_o, ct_from_ref, hm_collect, hm_reserve. rewrite map_length.
  destruct (_ <=? alloc_max E); [|reflexivity].
  change (for_each _ (map _ rhs) []) with (for_each (ins E eqb) (map (fun e => (cl (fst e), snd e)) rhs) []).
  change (ct_for_cloned_o u _ rhs (Counter [])) with (ct_for_cloned_o u (ins_o E eqb (fun k => Some (cl k))) rhs (Counter [])).
  pose proof (cloned_erase u (ins_o E eqb (fun k => Some (cl k))) (fun e c => let (m, o) := ins E eqb e (ct_map c) in (Counter m, o)) (fun k n c => ins_kind E eqb (fun k => Some (cl k)) k n c) rhs (Counter [])) as Q.
  cbn [kd_clone kind] in Q.
  rewrite <- (for_each_map (fun e => (cl (fst e), snd e)) (fun e c => let (m, o) := ins E eqb e (ct_map c) in (Counter m, o))) in Q.
  rewrite for_each_ct in Q.
  pose proof (cloned_ret u (ins_o E eqb (fun k => Some (cl k))) (ins_ret E eqb (fun k => Some (cl k))) rhs (Counter [])) as R.
  pose proof (finish_erase (ct_for_cloned_o u (ins_o E eqb (fun k => Some (cl k))) rhs (Counter [])) R) as F. rewrite Q in F.
  rewrite F. now destruct (for_each (ins E eqb) _ []) as [m' o'].
Qed.
Lemma clone_all_total l : forall acc, clone_all_o u acc l = (Ret (rev acc ++ map (fun e => (cl (fst e), snd e)) l), map (fun e => Got (cl (fst e))) l).
Proof.
  induction l as [|[k n] l IH]; intros acc; cbn [clone_all_o map]; [now rewrite app_nil_r|]. cbn [kd_clone kind fst snd].
  rewrite IH. cbn. now rewrite <- app_assoc.
Qed.
End Total.

Section Fresh.
Variable K : Type.
Variable E : machine.
Variable eqb : K -> K -> bool.
Variable clone : K -> option K.
Notation u := (kind eqb clone).
Lemma entry_of_exists k (m : hmap K nat) : match hm_entry_of eqb k m with Some _ => existsb (eqb k) (map fst m) = true | None => existsb (eqb k) (map fst m) = false end.
Proof. induction m as [|[k' v] m IH]; cbn; [reflexivity|]. destruct (eqb k k'); [reflexivity|exact IH]. Qed.
Lemma bump_fresh k n c c' t : ct_bump_o E u k n c = ((c', Ret tt), t) ->
  if existsb (eqb k) (ct_keys c) then ct_keys c' = ct_keys c /\ t = [Gone k] else ct_keys c' = k :: ct_keys c /\ t = [].
Proof.
  unfold ct_bump_o, ct_keys; cbn [kd_look kd_eq kd_rehash kind]. unfold hm_entry, hm_get, hm_reserve. pose proof (entry_of_exists k (ct_map c)) as X.
  destruct (hm_entry_of eqb k (ct_map c)) as [[k' v]|]; cbn [option_map snd]; rewrite X.
  - destruct (uadd E v n); intros Q; inversion Q; subst. cbn [ct_map]. now rewrite set_keys'.
  - destruct (_ <=? alloc_max E); cbn [obind]; [|discriminate]. destruct (uadd E 0 n); intros Q; inversion Q; subst. now cbn.
Qed.
Lemma push_from_fresh xs : forall c c' t, ct_push_from_o E u (map Some xs) c = ((c', Ret tt), t) ->
  ct_keys c' = rev (fresh eqb (ct_keys c) xs) ++ ct_keys c /\ got t = xs /\ gone t = again eqb (ct_keys c) xs.
Proof.
  induction xs as [|k xs IH]; intros c c' t; cbn [map ct_push_from_o]; [intros Q; inversion Q; subst; now cbn|].
  unfold ct_push_o. destruct (ct_bump_o E u k 1 c) as [[c1 o] t1] eqn:B. cbn [fst snd]. destruct o as [[]| | | |]; try discriminate.
  destruct (ct_push_from_o E u (map Some xs) c1) as [x t2] eqn:P. intros Q; inversion Q; subst.
  apply bump_fresh in B. apply IH in P as (P1 & P2 & P3). cbn [fresh again]. destruct (existsb (eqb k) (ct_keys c)); destruct B as [B ->]; rewrite B in *; cbn.
  - unfold got, gone in *. now rewrite P1, P2, P3.
  - unfold got, gone in *. now rewrite P1, P2, P3, <- app_assoc.
Qed.
Lemma owned_fresh rhs : forall c c' t, ct_for_owned_o (ct_bump_o E u) rhs c = ((c', Ret tt), t) ->
  ct_keys c' = rev (fresh eqb (ct_keys c) (map fst rhs)) ++ ct_keys c /\ t = map Gone (again eqb (ct_keys c) (map fst rhs)).
Proof.
  induction rhs as [|[k n] rhs IH]; intros c c' t; cbn [map ct_for_owned_o]; [intros Q; inversion Q; subst; now cbn|].
  destruct (ct_bump_o E u k n c) as [[c1 o] t1] eqn:B. destruct o as [[]| | | |]; try discriminate.
  destruct (ct_for_owned_o (ct_bump_o E u) rhs c1) as [x t2] eqn:P. intros Q; inversion Q; subst.
  apply bump_fresh in B. apply IH in P as (P1 & P2). cbn [fresh again fst]. destruct (existsb (eqb k) (ct_keys c)); destruct B as [B ->]; rewrite B in *; cbn.
  - rewrite P1. now rewrite P2.
  - rewrite P1, <- app_assoc. now rewrite P2.
Qed.
End Fresh.

Section Fresh2.
Variable K : Type.
Variable E : machine.
Variable eqb : K -> K -> bool.
Variable cl : K -> K.
Notation u := (kind eqb (fun k => Some (cl k))).
Lemma cloned_fresh rhs : forall c c' t, ct_for_cloned_o u (ct_bump_o E u) rhs c = ((c', Ret tt), t) ->
  let ks := map (fun e => cl (fst e)) rhs in
  ct_keys c' = rev (fresh eqb (ct_keys c) ks) ++ ct_keys c /\ got t = ks /\ gone t = again eqb (ct_keys c) ks.
Proof.
  induction rhs as [|[k n] rhs IH]; intros c c' t; cbn [map ct_for_cloned_o]; [intros Q; inversion Q; subst; now cbn|].
  cbn [kd_clone kind fst]. destruct (ct_bump_o E u (cl k) n c) as [[c1 o] t1] eqn:B. destruct o as [[]| | | |]; try discriminate.
  destruct (ct_for_cloned_o u (ct_bump_o E u) rhs c1) as [x t2] eqn:P. intros Q; inversion Q; subst.
  apply bump_fresh in B. apply IH in P as (P1 & P2 & P3). cbn [fresh again fst]. destruct (existsb (eqb (cl k)) (ct_keys c)); destruct B as [B ->]; rewrite B in *; cbn.
  - unfold got, gone in *. now rewrite P1, P2, P3.
  - unfold got, gone in *. now rewrite P1, P2, P3, <- app_assoc.
Qed.
End Fresh2.

Section Lower.
Variable K : Type.
Variable E : machine.
Variable u : keys_do K.
Lemma lower_gone k n c c' t : ct_lower_o E u k n c = ((c', Ret tt), t) ->
  exists x, t = map Gone (k :: x) /\ Permutation (ct_keys c) (x ++ ct_keys c').
Proof.
  unfold ct_lower_o, ct_keys. destruct (kd_look u (ct_map c) k); [discriminate|].
  destruct (hm_entry _ E k (ct_map c)) as [[old|]| | | |]; try discriminate.
  - destruct (old <=? n).
    + intros Q; inversion Q; subst. pose proof (remove_keys (kd_eq u) k (ct_map c)) as R. destruct (hm_entry_of _ k (ct_map c)) as [e|].
      * exists [fst e]. split; [reflexivity|]. exact R.
      * exists []. split; [reflexivity|]. cbn [ct_map]. now rewrite R.
    + destruct (usub E old n); intros Q; inversion Q; subst. exists []. split; [reflexivity|]. cbn [ct_map]. now rewrite set_keys'.
  - destruct (kd_rehash u (ct_map c) 1) as [[kept lost]|]; [discriminate|]. intros Q; inversion Q; subst. exists []. split; [reflexivity|]. reflexivity.
Qed.
Lemma owned_lower_gone rhs : forall c c' t, ct_for_owned_o (ct_lower_o E u) rhs c = ((c', Ret tt), t) ->
  exists x, got t = [] /\ Permutation (gone t) (map fst rhs ++ x) /\ Permutation (ct_keys c) (x ++ ct_keys c').
Proof.
  induction rhs as [|[k n] rhs IH]; intros c c' t; cbn [map ct_for_owned_o]; [intros Q; inversion Q; subst; now exists []|].
  destruct (ct_lower_o E u k n c) as [[c1 o] t1] eqn:B. destruct o as [[]| | | |]; try discriminate.
  destruct (ct_for_owned_o (ct_lower_o E u) rhs c1) as [x t2] eqn:P. intros Q; inversion Q; subst.
  apply lower_gone in B as (y & -> & B). apply IH in P as (z & P1 & P2 & P3). exists (y ++ z).
  unfold got, gone in *. rewrite !flat_map_app. rewrite P1. assert (G : flat_map (fun e : ev K => match e with Got k => [k] | Gone _ => [] end) (map Gone (k :: y)) = []) by (generalize (k :: y); intros ll; induction ll; auto).
  assert (G' : flat_map (fun e : ev K => match e with Got _ => [] | Gone k => [k] end) (map Gone (k :: y)) = k :: y) by (generalize (k :: y); intros ll; induction ll as [|h ll Hl]; cbn; auto; now rewrite Hl).
  rewrite G, G'. split; [reflexivity|]. split; [|rewrite B, P3; now rewrite app_assoc].
  rewrite P2. cbn. constructor. rewrite !app_assoc. apply Permutation_app_tail, Permutation_app_comm.
Qed.
Lemma cloned_lower_gone rhs : forall c c' t, ct_for_cloned_o u (ct_lower_o E u) rhs c = ((c', Ret tt), t) ->
  exists x, Permutation (gone t) (got t ++ x) /\ Permutation (ct_keys c) (x ++ ct_keys c').
Proof.
  induction rhs as [|[k n] rhs IH]; intros c c' t; cbn [map ct_for_cloned_o]; [intros Q; inversion Q; subst; now exists []|].
  destruct (kd_clone u k) as [k'|]; [|discriminate].
  destruct (ct_lower_o E u k' n c) as [[c1 o] t1] eqn:B. destruct o as [[]| | | |]; try discriminate.
  destruct (ct_for_cloned_o u (ct_lower_o E u) rhs c1) as [x t2] eqn:P. intros Q; inversion Q; subst.
  apply lower_gone in B as (y & -> & B). apply IH in P as (z & P2 & P3). exists (y ++ z).
  unfold got, gone in *. cbn [flat_map]. rewrite !flat_map_app. assert (G : flat_map (fun e : ev K => match e with Got k => [k] | Gone _ => [] end) (map Gone (k' :: y)) = []) by (generalize (k' :: y); intros ll; induction ll; auto).
  assert (G' : flat_map (fun e : ev K => match e with Got _ => [] | Gone k => [k] end) (map Gone (k' :: y)) = k' :: y) by (generalize (k' :: y); intros ll; induction ll as [|h ll Hl]; cbn; auto; now rewrite Hl).
  rewrite G, G'. split; [|rewrite B, P3; now rewrite app_assoc].
  rewrite P2. cbn. constructor. rewrite !app_assoc. apply Permutation_app_tail, Permutation_app_comm.
Qed.
End Lower.
