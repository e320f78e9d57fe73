(** Property theorem C86: the counter and keys whose [Hash], [Eq] or destructor
    panics. *)
From Coq Require Import Permutation.
From Verif Require Import Base HMModel HMProofs UserSpec2 CTModel CTModel3 CTSpec CTSpec2 CTRun CTProofs CTProofs2 CTProofs3 CTProofs4 CTProofs5 CTProofs6 CTProofs7 CTProps CTProps2.
Local Open Scope outcome_scope.

(** ** C86 *)
(** the keys lost when making room for one more entry panics *)
Definition lost_keys {K} (rp : hmap K nat -> nat -> option (hmap K nat * hmap K nat)) (c : counter K) : option (list K) :=
  option_map (fun p => map fst (snd p)) (rp (ct_map c) 1).

(** how counting [v] times the key [k] on top of [c] must end *)
Definition count_ends {K} (eqb : K -> K -> bool) hp rp dp E (c : counter K) (k : K) (v : nat) : outcome unit :=
  counting (hp (ct_map c)) dp (ct_contains_key eqb c k) (ct_len c =? alloc_max E) (lost_keys rp c)
    (debug_build E && (usize_max E <? opt_count (ct_get eqb c k) + v)) k.

(** what is left of [c] when making room for [k] panics, if room is made at all *)
Definition remains {K} (eqb : K -> K -> bool) hp (rp : hmap K nat -> nat -> option (hmap K nat * hmap K nat)) E
  (c : counter K) (k : K) : option (counter K) :=
  if hp (ct_map c) k || ct_contains_key eqb c k || (ct_len c =? alloc_max E) then None
  else match rp (ct_map c) 1 with Some (m, _) => Some (Counter m) | None => None end.

(** the counter after a failed attempt to count [k] *)
Definition unless {A} (o : option A) (a : A) : A := match o with Some b => b | None => a end.

Lemma remains_spared K (eqb : K -> K -> bool) hp rp E c k :
  remains eqb hp rp E c k = option_map (fun m => Counter m) (spared eqb E hp rp c k).
Proof. unfold remains, spared. destruct (_ || _); auto. destruct (rp (ct_map c) 1) as [[]|]; auto. Qed.
Lemma unless_after K (eqb : K -> K -> bool) hp rp E c k :
  unless (remains eqb hp rp E c k) c = after eqb E hp rp c k.
Proof. rewrite remains_spared. unfold after. destruct (spared eqb E hp rp c k); auto. Qed.

(** [push] returns, panics or aborts exactly as [counting] says; it counts the
    key, or does nothing, or loses what making room loses *)
Theorem c86_push : forall K (eqb : K -> K -> bool) hp rp dp E k c c' r,
  eq_laws eqb -> ct_rehashes rp -> 1 <= usize_max E -> ct_valid eqb E c ->
  ct_push_u eqb hp rp dp E k c = (c', r) ->
  ct_valid eqb E c' /\ r = count_ends eqb hp rp dp E c k 1 /\
  ((r = Ret tt /\ forall x, ct_get eqb c' x = counted_on eqb E (ct_get eqb c) [k] x) \/
   (r <> Ret tt /\ c' = unless (remains eqb hp rp E c k) c)).
Proof.
  intros K eqb hp rp dp E k c c' r L RP U V H. rewrite unless_after. exact (push_u_end L hp RP dp U k V H).
Qed.
Print Assumptions c86_push.

(** with keys that never panic these are the operations of the other properties *)
Lemma bump_u_agrees K (eqb : K -> K -> bool) E k v c :
  ct_bump_u eqb (fun _ _ => false) (fun _ _ => None) (fun _ => false) E k v c = ct_bump eqb E k v c.
Proof.
  destruct c as [m]. unfold ct_bump_u, ct_bump, ct_unwind. cbn.
  destruct (hm_entry eqb E k m) as [[old|]| | | |]; cbn; auto; match goal with |- context [uadd E ?a v] => destruct (uadd E a v) end; auto.
Qed.
Lemma lower_u_agrees K (eqb : K -> K -> bool) E k v c :
  ct_lower_u eqb (fun _ _ => false) (fun _ _ => None) (fun _ => false) E k v c = ct_lower eqb E k v c.
Proof.
  unfold ct_lower_u, ct_lower, ct_unwind. cbn.
  destruct (hm_entry eqb E k (ct_map c)) as [[old|]| | | |]; cbn; auto.
  destruct (old <=? v); [|destruct (usub E old v); auto].
  destruct (hm_entry_of eqb k (ct_map c)); reflexivity.
Qed.
Lemma loop_agrees K (f g : K * nat -> counter K -> counter K * outcome unit) l c :
  (forall e c, f e c = g e c) -> ct_for_owned (fun _ => false) f l c = for_each g l c.
Proof.
  intros H. revert c. induction l as [|e l IH]; intros c; cbn; auto. rewrite H.
  destruct (g e c) as [c' [[]| | | |]]; auto. unfold ct_unwind. induction (map fst l); auto.
Qed.
Lemma each_agrees A S (f g : A -> S -> S * outcome unit) l c :
  (forall e c, f e c = g e c) -> for_each f l c = for_each g l c.
Proof.
  intros H. revert c. induction l as [|e l IH]; intros c; cbn; auto. rewrite H.
  destruct (g e c) as [c' [[]| | | |]]; auto.
Qed.

Theorem c86_agrees_without_panics : forall K (eqb : K -> K -> bool) cl E c,
  let no := fun _ : K => false in let no' := fun (_ : hmap K nat) (_ : K) => false in
  let np := fun (_ : hmap K nat) (_ : nat) => None in
  (forall k, ct_push_u eqb no' np no E k c = ct_push eqb E k c) /\
  (forall hint xs, ct_extend_u eqb no' np no E hint xs c = ct_extend eqb E hint xs c) /\
  (forall l, ct_add_assign_u eqb no' np no E l c = ct_add_assign eqb E l c) /\
  (forall l, ct_add_assign_ref_u eqb no' np no cl E l c = ct_add_assign_ref eqb cl E l c) /\
  (forall l, ct_sub_assign_u eqb no' np no E l c = ct_sub_assign eqb E l c) /\
  (forall l, ct_sub_assign_ref_u eqb no' np no cl E l c = ct_sub_assign_ref eqb cl E l c).
Proof.
  intros K eqb cl E c no no' np. split; [|split; [|split; [|split; [|split]]]]; intros.
  - apply bump_u_agrees.
  - unfold ct_extend_u, ct_extend. destruct (hm_reserve E hint (ct_map c)); auto.
  - apply loop_agrees. intros. apply bump_u_agrees.
  - apply each_agrees. intros. apply bump_u_agrees.
  - apply loop_agrees. intros. apply lower_u_agrees.
  - apply each_agrees. intros. apply lower_u_agrees.
Qed.
Print Assumptions c86_agrees_without_panics.

(** [extend] loses what making room at the start loses, or stops at the first
    item that cannot be counted *)
Theorem c86_extend : forall K (eqb : K -> K -> bool) hp rp dp E hint xs c c' r,
  eq_laws eqb -> ct_rehashes rp -> 1 <= usize_max E -> ct_valid eqb E c ->
  ct_extend_u eqb hp rp dp E hint xs c = (c', r) ->
  ct_valid eqb E c' /\
  ((c' = c /\ r = Panic /\ alloc_max E < ct_len c + hint) \/
   (ct_len c + hint <= alloc_max E /\ exists m gone, rp (ct_map c) hint = Some (m, gone) /\
      c' = Counter m /\ r = dropping dp (map fst gone)) \/
   (ct_len c + hint <= alloc_max E /\ rp (ct_map c) hint = None /\
    (r = Ret tt /\ (forall x, ct_get eqb c' x = counted_on eqb E (ct_get eqb c) xs x) \/
     exists ys z zs c1, xs = ys ++ z :: zs /\ ct_valid eqb E c1 /\
       (forall x, ct_get eqb c1 x = counted_on eqb E (ct_get eqb c) ys x) /\
       c' = unless (remains eqb hp rp E c1 z) c1 /\
       r <> Ret tt /\ r = count_ends eqb hp rp dp E c1 z 1))).
Proof.
  intros K eqb hp rp dp E hint xs c c' r L RP U V H.
  destruct (extend_u_end L hp RP dp U hint xs V H) as [V' [A|[A|(A & B & C)]]]; split; auto.
  right; right. split; auto. split; auto. destruct C as [C|(ys & z & zs & c1 & C & V1 & G & F & N & R)]; auto.
  right. exists ys, z, zs, c1. rewrite unless_after. auto 7.
Qed.
Print Assumptions c86_extend.

(** [+=] by value, [l] being the entries of the right operand in the order met:
    everything is added, or exactly the entries before one that cannot be
    added (up to what making room for that one loses); the keys not met yet are
    dropped by the panic *)
Theorem c86_add_by_value : forall K (eqb : K -> K -> bool) hp rp dp E a b l c r,
  eq_laws eqb -> ct_rehashes rp -> ct_valid eqb E a -> ct_valid eqb E b -> ct_into_iter b l ->
  ct_add_assign_u eqb hp rp dp E l a = (c, r) ->
  ct_valid eqb E c /\
  ((r = Ret tt /\ forall x, ct_get eqb c x = added_on eqb E (ct_get eqb a) l x) \/
   exists l1 k v l2 c1, l = l1 ++ (k, v) :: l2 /\ ct_valid eqb E c1 /\
     (forall x, ct_get eqb c1 x = added_on eqb E (ct_get eqb a) l1 x) /\
     c = unless (remains eqb hp rp E c1 k) c1 /\
     count_ends eqb hp rp dp E c1 k v <> Ret tt /\
     r = stopping dp (count_ends eqb hp rp dp E c1 k v) (map fst l2)).
Proof.
  intros K eqb hp rp dp E a b l c r L RP Va Vb P H. destruct (iterates_content L Vb P) as [D F].
  rewrite (add_u_loop L hp RP dp Va F) in H.
  destruct (@add_loop K eqb L E hp rp RP dp (stopping dp) (fun k => k) (eq_refl' L) l a Va F) as (c' & r' & H' & V' & A).
  rewrite H in H'. injection H' as <- <-. split; auto.
  destruct A as [[G ->]|(l1 & [k v] & l2 & c1 & -> & V1 & G & A & N & ->)]; [left; auto|]. right. exists l1, k, v, l2, c1.
  rewrite unless_after. auto 7.
Qed.
Print Assumptions c86_add_by_value.

(** by reference: [cl k] is the clone counted; nothing else is dropped *)
Theorem c86_add_by_reference : forall K (eqb : K -> K -> bool) hp rp dp cl E a b l c r,
  eq_laws eqb -> ct_rehashes rp -> (forall k, eqb (cl k) k = true) -> ct_valid eqb E a -> ct_valid eqb E b -> ct_into_iter b l ->
  ct_add_assign_ref_u eqb hp rp dp cl E l a = (c, r) ->
  ct_valid eqb E c /\
  ((r = Ret tt /\ forall x, ct_get eqb c x = added_on eqb E (ct_get eqb a) l x) \/
   exists l1 k v l2 c1, l = l1 ++ (k, v) :: l2 /\ ct_valid eqb E c1 /\
     (forall x, ct_get eqb c1 x = added_on eqb E (ct_get eqb a) l1 x) /\
     c = unless (remains eqb hp rp E c1 (cl k)) c1 /\
     r <> Ret tt /\ r = count_ends eqb hp rp dp E c1 (cl k) v).
Proof.
  intros K eqb hp rp dp cl E a b l c r L RP CL Va Vb P H. destruct (iterates_content L Vb P) as [D F].
  unfold ct_add_assign_ref_u in H. rewrite floop_each in H.
  destruct (@add_loop K eqb L E hp rp RP dp (fun o _ => o) cl CL l a Va F) as (c' & r' & H' & V' & A).
  rewrite H in H'. injection H' as <- <-. split; auto.
  destruct A as [[G ->]|(l1 & [k v] & l2 & c1 & -> & V1 & G & A & N & ->)]; [left; auto|]. right. exists l1, k, v, l2, c1.
  rewrite unless_after. auto 7.
Qed.
Print Assumptions c86_add_by_reference.

(** [-=] by value: everything is taken off, or it stops at an entry; that one is
    still taken off unless looking it up, or making room for it, panicked *)
Theorem c86_sub_by_value : forall K (eqb : K -> K -> bool) hp rp dp E a b l c r,
  eq_laws eqb -> ct_rehashes rp -> ct_valid eqb E a -> ct_valid eqb E b -> ct_into_iter b l ->
  ct_sub_assign_u eqb hp rp dp E l a = (c, r) ->
  ct_valid eqb E c /\
  ((r = Ret tt /\ forall x, ct_get eqb c x = taken_off eqb (ct_get eqb a) l x) \/
   exists l1 k v l2 c1 o, l = l1 ++ (k, v) :: l2 /\ ct_sub_assign_u eqb hp rp dp E l1 a = (c1, Ret tt) /\
     (forall x, ct_get eqb c1 x = taken_off eqb (ct_get eqb a) l1 x) /\
     (if hp (ct_map c1) k then c = c1
      else match remains eqb hp rp E c1 k with
           | Some c2 => c = c2
           | None => forall x, ct_get eqb c x = taken_off eqb (ct_get eqb a) (l1 ++ [(k, v)]) x
           end) /\
     o = taking (hp (ct_map c1)) dp (ct_get_key_value eqb a k) (ct_len c1 =? alloc_max E) (lost_keys rp c1) k v /\
     o <> Ret tt /\ r = stopping dp o (map fst l2)).
Proof.
  intros K eqb hp rp dp E a b l c r L RP Va Vb P H. destruct (iterates_content L Vb P) as [D F].
  rewrite (sub_u_loop L hp RP dp l Va) in H.
  destruct (@sub_loop K eqb L E hp rp RP dp (stopping dp) (fun k => k) (eq_refl' L) l a Va D) as (c' & r' & H' & V' & A).
  rewrite H in H'. injection H' as <- <-. split; auto.
  destruct A as [[G ->]|(l1 & [k v] & l2 & c1 & o & -> & R & G1 & G & Ho & N & ->)]; [left; auto|].
  right. exists l1, k, v, l2, c1, o. rewrite (sub_u_loop L hp RP dp l1 Va), remains_spared. cbn [fst snd] in *.
  split; auto. split; auto. split; auto. split; auto. destruct (hp (ct_map c1) k), (spared eqb E hp rp c1 k); auto.
Qed.
Print Assumptions c86_sub_by_value.

Theorem c86_sub_by_reference : forall K (eqb : K -> K -> bool) hp rp dp cl E a b l c r,
  eq_laws eqb -> ct_rehashes rp -> (forall k, eqb (cl k) k = true) -> ct_valid eqb E a -> ct_valid eqb E b -> ct_into_iter b l ->
  ct_sub_assign_ref_u eqb hp rp dp cl E l a = (c, r) ->
  ct_valid eqb E c /\
  ((r = Ret tt /\ forall x, ct_get eqb c x = taken_off eqb (ct_get eqb a) l x) \/
   exists l1 k v l2 c1, l = l1 ++ (k, v) :: l2 /\ ct_sub_assign_ref_u eqb hp rp dp cl E l1 a = (c1, Ret tt) /\
     (forall x, ct_get eqb c1 x = taken_off eqb (ct_get eqb a) l1 x) /\
     (if hp (ct_map c1) (cl k) then c = c1
      else match remains eqb hp rp E c1 (cl k) with
           | Some c2 => c = c2
           | None => forall x, ct_get eqb c x = taken_off eqb (ct_get eqb a) (l1 ++ [(k, v)]) x
           end) /\
     r <> Ret tt /\
     r = taking (hp (ct_map c1)) dp (ct_get_key_value eqb a k) (ct_len c1 =? alloc_max E) (lost_keys rp c1) (cl k) v).
Proof.
  intros K eqb hp rp dp cl E a b l c r L RP CL Va Vb P H. destruct (iterates_content L Vb P) as [D F].
  unfold ct_sub_assign_ref_u in H. rewrite floop_each in H.
  destruct (@sub_loop K eqb L E hp rp RP dp (fun o _ => o) cl CL l a Va D) as (c' & r' & H' & V' & A).
  rewrite H in H'. injection H' as <- <-. split; auto.
  destruct A as [[G ->]|(l1 & [k v] & l2 & c1 & o & -> & R & G1 & G & Ho & N & ->)]; [left; auto|].
  right. exists l1, k, v, l2, c1. cbn [fst snd] in *. unfold ct_sub_assign_ref_u. rewrite floop_each, remains_spared.
  split; auto. split; auto. split; auto. split; [|split; auto]. destruct (hp (ct_map c1) (cl k)), (spared eqb E hp rp c1 (cl k)); auto.
Qed.
Print Assumptions c86_sub_by_reference.

(** looking up key 7 panics, and key 4 when it is compared with key 3; making room
    for many when key 5 is stored, or with six keys stored, panics and loses the
    entries with count 9 and more; the keys with second component 40 have
    a panicking destructor (their equals need not) *)
Definition khp (m : hmap key nat) (a : key) : bool :=
  (fst a =? 7) || ((fst a =? 4) && existsb (fun e => fst (fst e) =? 3) m).
Definition krp (m : hmap key nat) (n : nat) : option (hmap key nat * hmap key nat) :=
  if ((9 <? n) && existsb (fun e => fst (fst e) =? 5) m) || (6 <=? length m)
  then Some (filter (fun e => snd e <? 9) m, filter (fun e => negb (snd e <? 9)) m) else None.
Lemma krp_ok : ct_rehashes krp.
Proof.
  intros m n kept gone H. unfold krp in H. destruct (_ || _); [|discriminate]. injection H as <- <-.
  induction m as [|e m IH]; cbn [filter]; auto. destruct (snd e <? 9); cbn [negb app]; auto.
  apply Permutation_sym. apply Permutation_cons_app. now apply Permutation_sym.
Qed.
Definition kdp (a : key) : bool := snd a =? 40.
Definition cq : counter key := Counter [((1, 40), 3); ((2, 20), 2); ((5, 50), 9)].

Example c86_ex_push : ct_rehashes krp /\ ct_valid keq Ec cq /\
  ct_push_u keq khp krp kdp Ec (2, 40) cq = (cq, Panic) /\
  ct_push_u keq khp krp kdp Ec (7, 40) cq = (cq, Abort) /\
  ct_push_u keq khp krp kdp Ec (7, 0) cq = (cq, Panic) /\
  ct_push_u keq khp krp kdp Ec (1, 0) cq = (Counter [((1, 40), 4); ((2, 20), 2); ((5, 50), 9)], Ret tt) /\
  ct_push_u keq khp krp kdp Ec (3, 40) cq = (Counter [((3, 40), 1); ((1, 40), 3); ((2, 20), 2); ((5, 50), 9)], Ret tt) /\
  ct_push_u keq khp krp kdp (Machine 255 3 true) (3, 40) cq = (cq, Abort) /\
  ct_extend_u keq khp krp kdp Ec 2 [(2, 0); (3, 40); (3, 40); (2, 0)] cq =
    (Counter [((3, 40), 1); ((1, 40), 3); ((2, 20), 3); ((5, 50), 9)], Panic) /\
  snd (ct_push_u keq khp krp kdp Ec (4, 0) cq) = Ret tt /\
  ct_extend_u keq khp krp kdp Ec 2 [(2, 0); (3, 0); (4, 0); (2, 0)] cq =
    (Counter [((3, 0), 1); ((1, 40), 3); ((2, 20), 3); ((5, 50), 9)], Panic) /\
  ct_extend_u keq khp krp kdp Ec 10 [(2, 0)] cq = (Counter [((1, 40), 3); ((2, 20), 2)], Panic) /\
  (** the third new key makes the table grow *)
  ct_extend_u keq khp krp kdp Ec 2 [(6, 0); (8, 0); (9, 0); (6, 0); (10, 0)] cq =
    (Counter [((9, 0), 1); ((8, 0), 1); ((6, 0), 2); ((1, 40), 3); ((2, 20), 2)], Panic) /\
  snd (ct_extend_u keq khp krp (fun a => fst a =? 5) Ec 2 [(6, 0); (8, 0); (9, 0); (6, 0); (10, 0)] cq) = Abort.
Proof.
  split; [exact krp_ok|].
  split; [split; [split; repeat constructor|]; apply Nat.leb_le; reflexivity|]. repeat split; reflexivity.
Qed.

(** a right operand and three of the orders its entries may be met in *)
Definition cr : counter key := Counter [((5, 40), 1); ((2, 0), 1); ((7, 0), 4); ((1, 0), 8)].
Definition cr' : list (key * nat) := [((2, 0), 1); ((5, 40), 1); ((7, 0), 4); ((1, 0), 8)].
Definition cs' : list (key * nat) := [((2, 0), 1); ((7, 0), 4); ((5, 40), 1); ((1, 0), 8)].
Definition cu' : list (key * nat) := [((2, 0), 1); ((1, 0), 8); ((7, 0), 4); ((5, 40), 1)].

Example c86_ex_operators : ct_valid keq Ec cq /\ ct_valid keq Ec cr /\
  ct_into_iter cr cr' /\ ct_into_iter cr cs' /\ ct_into_iter cr cu' /\
  (** the destructor of the redundant key 5 *)
  ct_add_assign_u keq khp krp kdp Ec cr' cq = (Counter [((1, 40), 3); ((2, 20), 3); ((5, 50), 9)], Panic) /\
  ct_sub_assign_u keq khp krp kdp Ec cr' cq = (Counter [((1, 40), 3); ((2, 20), 1); ((5, 50), 8)], Panic) /\
  (** the lookup of key 7, the key 5 still to come *)
  ct_add_assign_u keq khp krp kdp Ec cs' cq = (Counter [((1, 40), 3); ((2, 20), 3); ((5, 50), 9)], Abort) /\
  ct_sub_assign_u keq khp krp kdp Ec cs' cq = (Counter [((1, 40), 3); ((2, 20), 1); ((5, 50), 9)], Abort) /\
  (** the stored key 1 is removed *)
  ct_sub_assign_u keq khp krp kdp Ec cu' cq = (Counter [((2, 20), 1); ((5, 50), 9)], Abort) /\
  ct_sub_assign_ref_u keq khp krp kdp kcl Ec cu' cq = (Counter [((2, 20), 1); ((5, 50), 9)], Panic) /\
  ct_add_assign_ref_u keq khp krp kdp kcl Ec cs' cq = (Counter [((1, 40), 3); ((2, 20), 3); ((5, 50), 9)], Panic).
Proof.
  split; [split; [split; repeat constructor|]; apply Nat.leb_le; reflexivity|].
  split; [split; [split; repeat constructor|]; apply Nat.leb_le; reflexivity|].
  split; [apply perm_swap|].
  split; [eapply perm_trans; [apply perm_swap|]; apply perm_skip, perm_swap|].
  split; [|repeat split; reflexivity].
  eapply perm_trans; [apply perm_swap|]. apply perm_skip.
  apply Permutation_sym. eapply perm_trans; [|apply Permutation_sym, (Permutation_app_comm [((5, 40), 1)] [_; _])].
  cbn. apply perm_swap.
Qed.

(** ** C91 *)
(** what is lost is lost whole: every other key keeps its count, and the rest is
    a counter like any other *)
Theorem c91_lost_entries : forall K (eqb : K -> K -> bool) E c kept gone,
  eq_laws eqb -> ct_valid eqb E c -> Permutation (gone ++ kept) (ct_map c) ->
  ct_valid eqb E (Counter kept) /\ ct_len (Counter kept) + length gone = ct_len c /\
  (forall x, ct_get eqb (Counter kept) x =
     if existsb (fun e => eqb x (fst e)) gone then None else ct_get eqb c x).
Proof.
  intros K eqb E c kept gone L V P. split; [exact (lost_valid L _ _ V P)|]. split.
  - pose proof (Permutation_length P) as H. rewrite app_length in H. unfold ct_len. cbn [ct_map]. lia.
  - intros x. exact (lost_get L _ _ x V P).
Qed.
Print Assumptions c91_lost_entries.

(** a failed [push] may lose the counts of other keys *)
Theorem c91_failed_push_keeps_the_counts_refuted : ~ (forall K (eqb : K -> K -> bool) hp rp dp E k c c' x,
  eq_laws eqb -> ct_rehashes rp -> 1 <= usize_max E -> ct_valid eqb E c ->
  ct_push_u eqb hp rp dp E k c = (c', Panic) -> ct_get eqb c' x = ct_get eqb c x).
Proof.
  intros H. set (c := Counter [((1, 1), 1); ((2, 2), 2); ((3, 3), 3); ((5, 5), 9); ((6, 6), 1); ((8, 8), 2)]).
  specialize (H key keq khp krp kdp Ec (9, 0) c (fst (ct_push_u keq khp krp kdp Ec (9, 0) c)) (5, 5) keq_laws krp_ok).
  assert (V : ct_valid keq Ec c) by (split; [split; repeat constructor|]; apply Nat.leb_le; reflexivity).
  assert (U : 1 <= usize_max Ec) by (apply Nat.leb_le; reflexivity).
  specialize (H U V eq_refl). discriminate.
Qed.
Print Assumptions c91_failed_push_keeps_the_counts_refuted.

(** it does not when the key is counted already, nor when making room loses
    nothing; and no other count ever appears or changes *)
Theorem c91_failed_push_keeps_the_counts_partial : forall K (eqb : K -> K -> bool) hp rp dp E k c c' r,
  eq_laws eqb -> ct_rehashes rp -> 1 <= usize_max E -> ct_valid eqb E c ->
  ct_push_u eqb hp rp dp E k c = (c', r) -> r <> Ret tt ->
  (forall x n, ct_get eqb c' x = Some n -> ct_get eqb c x = Some n) /\
  (ct_contains_key eqb c k = true \/ (forall m gone, rp (ct_map c) 1 = Some (m, gone) -> gone = []) ->
   forall x, ct_get eqb c' x = ct_get eqb c x).
Proof.
  intros K eqb hp rp dp E k c c' r L RP U V H N.
  destruct (c86_push _ _ _ _ _ _ _ _ _ _ L RP U V H) as (V' & _ & [[A _]|[_ ->]]); [contradiction|].
  unfold remains. destruct (hp (ct_map c) k || ct_contains_key eqb c k || (ct_len c =? alloc_max E)) eqn:Q; [cbn; auto|].
  destruct (rp (ct_map c) 1) as [[m gone]|] eqn:X; cbn [unless]; [|auto].
  destruct (c91_lost_entries _ eqb E c m gone L V (RP _ _ _ _ X)) as (_ & _ & G). split.
  - intros x n. rewrite G. destruct (existsb _ _); [discriminate|auto].
  - intros [C|C] x.
    + rewrite C, orb_true_r in Q. discriminate.
    + rewrite G, (C _ _ eq_refl). reflexivity.
Qed.
Print Assumptions c91_failed_push_keeps_the_counts_partial.

Example c91_ex : let c := Counter [((1, 1), 1); ((2, 2), 2); ((3, 3), 3); ((5, 5), 9); ((6, 6), 1); ((8, 8), 2)] in
  ct_valid keq Ec c /\
  ct_push_u keq khp krp kdp Ec (9, 0) c = (Counter [((1, 1), 1); ((2, 2), 2); ((3, 3), 3); ((6, 6), 1); ((8, 8), 2)], Panic) /\
  snd (ct_push_u keq khp krp (fun a => fst a =? 5) Ec (9, 0) c) = Abort /\
  ct_push_u keq khp krp kdp Ec (5, 40) c = (c, Panic) /\
  (** subtracting an absent key makes room as well *)
  ct_sub_assign_u keq khp krp kdp Ec [((8, 0), 1); ((9, 0), 5); ((1, 0), 1)] c =
    (Counter [((1, 1), 1); ((2, 2), 2); ((3, 3), 3); ((6, 6), 1); ((8, 8), 1)], Panic) /\
  (** and so does adding one *)
  ct_add_assign_u keq khp krp kdp Ec [((8, 0), 1); ((9, 0), 5); ((1, 0), 1)] c =
    (Counter [((1, 1), 1); ((2, 2), 2); ((3, 3), 3); ((6, 6), 1); ((8, 8), 3)], Panic).
Proof.
  split; [split; [split; repeat constructor|]; apply Nat.leb_le; reflexivity|]. repeat split; reflexivity.
Qed.
