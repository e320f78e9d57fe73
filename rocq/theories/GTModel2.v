(** Counters and disjoint sets on the hash table of [GTModel]: the methods of
    [HTModel], with hashbrown's table in place of the table that looks at one
    slot at a time. *)
From Coq Require Import NArith.
From Verif Require Import Base HMModel DSModel HTModel GTModel.
Local Open Scope outcome_scope.
Set Implicit Arguments.

Section More.
Variables K V : Type.
Variable eqb : K -> K -> bool.
Variable hash : K -> N.
Variable W : nat.

(** std [HashMap::contains_key] (counter.rs:344-346, disjoint_set.rs:202). *)
Definition g_contains (k : K) (t : table K V) : bool :=
  match g_get eqb hash W k t with Some _ => true | None => false end.
End More.

Section Counter.
Variable K : Type.
Variable eqb : K -> K -> bool.
Variable cl : K -> K.
Variable hash : K -> N.
Variable W : nat.
Variable E : machine.
Notation tcounter := (table K nat).

(** counter.rs:90-94 [with_capacity], 114-118 [with_capacity_and_hasher]. *)
Definition gc_with_capacity (cap : nat) : outcome tcounter := @g_with_capacity K nat hash W E cap.

(** [*self.counter.entry(key).or_insert(0) += val], the statement of
    counter.rs:219, 367, 380 and 407. *)
Definition gc_bump (key : K) (val : nat) (t : tcounter) : tcounter * outcome unit :=
  match g_entry eqb hash W E key t with
  | (t', Ret (Occupied old)) =>
      match uadd E old val with
      | Ret new => (g_set eqb hash W key new t', Ret tt)
      | _ => (t', Panic)
      end
  | (t', Ret Vacant) =>
      match uadd E 0 val with
      | Ret new => (g_put hash W key new t', Ret tt)
      | _ => (g_put hash W key 0 t', Panic)
      end
  | (t', _) => (t', Panic)
  end.

(** counter.rs:218-220 [push]. *)
Definition gc_push (val : K) (t : tcounter) : tcounter * outcome unit := gc_bump val 1 t.

(** counter.rs:313-319 [Extend<T>::extend]. *)
Definition gc_extend (hint : nat) (xs : list K) (t : tcounter) : tcounter * outcome unit :=
  match g_reserve hash W E hint t with
  | (t', Ret _) => for_each gc_push xs t'
  | (t', _) => (t', Panic)
  end.

(** counter.rs:328-334 [Extend<&T>::extend] (the items are [Copy]). *)
Definition gc_extend_ref (hint : nat) (xs : list K) (t : tcounter) : tcounter * outcome unit :=
  match g_reserve hash W E hint t with
  | (t', Ret _) => for_each gc_push (map (fun key => key) xs) t'
  | (t', _) => (t', Panic)
  end.

(** counter.rs:365-369 [AddAssign<Counter>]; [rhs]: the entries of the right
    operand in the order of the iteration (likewise below). *)
Definition gc_add_assign (rhs : list (K * nat)) (t : tcounter) : tcounter * outcome unit :=
  for_each (fun e => gc_bump (fst e) (snd e)) rhs t.

(** counter.rs:378-382 [AddAssign<&Counter>]. *)
Definition gc_add_assign_ref (rhs : list (K * nat)) (t : tcounter) : tcounter * outcome unit :=
  for_each (fun e => gc_bump (cl (fst e)) (snd e)) rhs t.

(** The [match] on the entry of counter.rs:421-433, 446-458 and 485-497. *)
Definition gc_lower (key : K) (val : nat) (t : tcounter) : tcounter * outcome unit :=
  match g_entry eqb hash W E key t with
  | (t', Ret (Occupied cur)) =>
      if cur <=? val then (g_remove eqb hash W key t', Ret tt)
      else match usub E cur val with
           | Ret new_val => (g_set eqb hash W key new_val t', Ret tt)
           | _ => (t', Panic)
           end
  | (t', Ret Vacant) => (t', Ret tt)
  | (t', _) => (t', Panic)
  end.

(** counter.rs:419-435 [SubAssign<Counter>]. *)
Definition gc_sub_assign (rhs : list (K * nat)) (t : tcounter) : tcounter * outcome unit :=
  for_each (fun e => gc_lower (fst e) (snd e)) rhs t.

(** counter.rs:444-460 [SubAssign<&Counter>]. *)
Definition gc_sub_assign_ref (rhs : list (K * nat)) (t : tcounter) : tcounter * outcome unit :=
  for_each (fun e => gc_lower (cl (fst e)) (snd e)) rhs t.

(** counter.rs:354-356, std [HashMap::get_mut]; the caller applies [f]. *)
Definition gc_get_mut (k : K) (f : nat -> nat) (t : tcounter) : tcounter * bool :=
  match g_get eqb hash W k t with
  | Some n => (g_set eqb hash W k (f n) t, true)
  | None => (t, false)
  end.
End Counter.

Section Sets.
Variable K : Type.
Variable eqb : K -> K -> bool.
Variable hash : K -> N.
Variable W : nat.
Variable E : machine.

Notation tdset := (tdset K).

(** disjoint_set.rs:123-128 [with_capacity], 148-153
    [with_capacity_and_hasher]. *)
Definition gd_with_capacity (cap : nat) : outcome tdset :=
  let* t := @g_with_capacity K nat hash W E cap in
  let* _ := vec_reserve E cap (@nil data) in
  Ret (TDSet t []).

(** disjoint_set.rs:242-254 [make_or_get_set]. *)
Definition gd_make_or_get (val : K) (s : tdset) : tdset * outcome nat :=
  let next_id := ht_len (td_ids s) in
  match g_entry eqb hash W E val (td_ids s) with
  | (t, Ret Vacant) =>
      let ids := g_put hash W val next_id t in
      match vec_push E (td_data s) (data_new next_id) with
      | Ret v => (TDSet ids v, Ret next_id)
      | _ => (TDSet ids (td_data s), Panic)
      end
  | (t, Ret (Occupied id)) => (TDSet t (td_data s), Ret id)
  | (t, _) => (TDSet t (td_data s), Panic)
  end.

(** disjoint_set.rs:162-164 [make_set]. *)
Definition gd_make_set (val : K) (s : tdset) : tdset * outcome unit :=
  match gd_make_or_get val s with (s', o) => (s', omap (fun _ => tt) o) end.

(** disjoint_set.rs:174-194 [union]; lines 183-193 are [DSModel.ds_link]. *)
Definition gd_union (a b : K) (s : tdset) : tdset * outcome unit :=
  match gd_make_or_get a s with
  | (s1, Ret ia) =>
      match gd_make_or_get b s1 with
      | (s2, Ret ib) =>
          match td_find_in ia s2 with
          | (s3, Ret a_root) =>
              match td_find_in ib s3 with
              | (s4, Ret b_root) =>
                  if a_root =? b_root then (s4, Ret tt)
                  else match ds_link E (td_data s4) a_root b_root with
                       | (v, o) => (TDSet (td_ids s4) v, o)
                       end
              | (s4, o) => (s4, omap (fun _ => tt) o)
              end
          | (s3, o) => (s3, omap (fun _ => tt) o)
          end
      | (s2, o) => (s2, omap (fun _ => tt) o)
      end
  | (s1, o) => (s1, omap (fun _ => tt) o)
  end.

(** disjoint_set.rs:210-222 [in_union]. *)
Definition gd_in_union (a b : K) (s : tdset) : tdset * outcome bool :=
  match g_get eqb hash W a (td_ids s) with
  | None => (s, Ret false)
  | Some ia =>
      match g_get eqb hash W b (td_ids s) with
      | None => (s, Ret false)
      | Some ib =>
          match td_find_in ia s with
          | (s1, Ret ra) =>
              match td_find_in ib s1 with
              | (s2, Ret rb) => (s2, Ret (ra =? rb))
              | (s2, o) => (s2, omap (fun _ => false) o)
              end
          | (s1, o) => (s1, omap (fun _ => false) o)
          end
      end
  end.

(** disjoint_set.rs:237-240 [reserve]: the vector first. *)
Definition gd_reserve (additional : nat) (s : tdset) : tdset * outcome unit :=
  match vec_reserve E additional (td_data s) with
  | Ret _ =>
      match g_reserve hash W E additional (td_ids s) with
      | (t, o) => (TDSet t (td_data s), o)
      end
  | _ => (s, Panic)
  end.

(** disjoint_set.rs:339-345 [Extend<T>::extend] and 359-365
    [Extend<&T>::extend] (whose items are [Copy]). *)
Definition gd_extend (hint : nat) (xs : list K) (s : tdset) : tdset * outcome unit :=
  match gd_reserve hint s with
  | (s1, Ret _) => for_each gd_make_set xs s1
  | (s1, _) => (s1, Panic)
  end.

(** disjoint_set.rs:232-235 [clear]. *)
Definition gd_clear (s : tdset) : tdset := TDSet (g_clear (td_ids s)) [].

End Sets.
