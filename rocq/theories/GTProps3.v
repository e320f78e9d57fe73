(** Property theorems C126: an [Eq] and a [Hash] without laws cannot break the hash table of today's
    std. *)
From Coq Require Import Permutation NArith.
From Verif Require Import Base HMModel HTModel CTProps HTProps GTModel GTSpec GTSpec2 GTRun GTRun3 GTProofs GTProofs2 GTProofs6 GTProps.

(** Whatever [Eq] and [Hash] answer, differently at every call: no entry is lost, doubled or made
    up.  Each call finds nothing or an entry that [Eq] said to be the one; a call that stores
    changes the value of such an entry or adds one entry, a removal removes one such entry or
    nothing, growing and cleaning up keep all, and only lack of memory panics. *)
Theorem c126_no_entry_is_lost : forall K V hash W E cap t0 (cs : list (mood K V)),
  power_of_two W -> g_with_capacity V hash W E cap = Ret t0 ->
  story E (map (fun c => (m_eq c, m_call c)) cs) [] (ht_entries (fst (g_runs W E cs t0))) (snd (g_runs W E cs t0)).
Proof.
  intros K V hash W E cap t0 cs W2 C. destruct (new_any E W2 hash cap C) as [S En].
  destruct (g_runs W E cs t0) as [t rs] eqn:R. destruct (runs_any E W2 cs S R) as [_ St]. now rewrite En in St.
Qed.
Print Assumptions c126_no_entry_is_lost.

(** And an empty slot is always left, so that every lookup ends, whatever [Eq] and [Hash] answer
    from then on: more steps than there are slots change nothing. *)
Theorem c126_lookups_end : forall K V hash W E cap t0 (cs : list (mood K V)),
  power_of_two W -> g_with_capacity V hash W E cap = Ret t0 ->
  let t := fst (g_runs W E cs t0) in
  In Empty t /\
  forall (eqb' : K -> K -> bool) hash' k steps, length t <= steps ->
    g_seek eqb' hash' W k t (g_start (hash' k) (length t)) 0 steps = g_find eqb' hash' W k t.
Proof.
  intros K V hash W E cap t0 cs W2 C t. destruct (new_any E W2 hash cap C) as [S _].
  destruct (g_runs W E cs t0) as [t1 rs] eqn:R. destruct (runs_any E W2 cs S R) as [S1 _]. cbn in t. subst t. split.
  - destruct (safe_empty S1) as (p & Hp & Em). unfold g_is_empty, g_at in Em. destruct (nth p t1 Empty) eqn:N; try discriminate.
    rewrite <- N. now apply nth_In.
  - intros eqb' hash' k steps Le. now apply seek_any.
Qed.
Print Assumptions c126_lookups_end.

(** [Eq] that says no, yes, or the truth; hash values that change *)
Definition never (a b : key) : bool := false.
Definition always (a b : key) : bool := true.
Definition c126_calls : list (mood key nat) :=
  [Mood keq by_fnv (TInsert (1, 0) 10); Mood never by_fnv (TInsert (1, 0) 11); Mood keq by_tag (TInsert (1, 9) 12);
   Mood always all_collide (TGet nat (7, 7)); Mood always by_fnv (TUpsert (1, 3) 0 S); Mood keq by_fnv (TInsert (2, 0) 20);
   Mood never all_collide (TReserve 9); Mood always by_tag (TRemove nat (8, 0)); Mood keq by_fnv (TGet nat (2, 1));
   Mood keq all_collide TLen; Mood never by_tag (TRetain (fun _ n => n <? 20)); Mood keq all_collide TIter].
(** the table holds two entries for one key *)
Example c126_ex : match g_with_capacity nat by_fnv 4 Eg 0 with Ret t => snd (g_runs 4 Eg c126_calls t) | _ => [] end =
  [Ret (AOld key None); Ret (AOld key None); Ret (AOld key (Some 11)); Ret (AEntry (Some ((1, 0), 10))); Ret (AVal key 11);
   Ret (AOld key None); Ret AUnit; Ret (AOld key None); Ret (AEntry (Some ((2, 0), 20))); Ret (ANum 3); Ret AUnit;
   Ret (AAll [((1, 0), 11); ((1, 0), 12)])] /\ power_of_two 4.
Proof. split; [vm_compute; reflexivity|]. now exists 2. Qed.
