(** More of src/circular_buffer: [Drain] and [IntoIter] (iter.rs) in the hands of
    arbitrary user code, and the provided methods of [Iterator].

    Simplifications: what the user code drops of its own while it unwinds is part of
    it; a result that is lost because dropping the iterator panics is not listed. *)
From Verif Require Import Base CBModel CBSpec5.
Set Implicit Arguments.

Section Model.
Variable T : Type.
Variable E : machine.
Variable dp : T -> bool.

(** iter.rs:26-32 [Drain], and iter.rs:47-53 [IntoIter], driven by [u]: what is left
    in the buffer, what [next] returned, what was dropped, how [u] ended.  [Drain]
    has no destructor: dropping or forgetting it is no step. *)
Fixpoint drive {R} (u : use T R) (c : cb T) : cb T * list (option T) * list T * outcome R :=
  match u with
  | Done o => (c, [], [], o)
  | Discard v k => match drive (k (dp v)) c with (c', a, d, o) => (c', a, v :: d, o) end
  | Next k =>
      match pop_front E dp c with
      | (c1, d1, Ret x) => match drive (k x) c1 with (c2, a, d, o) => (c2, x :: a, d1 ++ d, o) end
      | (c1, d1, Panic) => (c1, [], d1, Panic)
      | (c1, d1, Abort) => (c1, [], d1, Abort)
      | (c1, d1, UB) => (c1, [], d1, UB)
      | (c1, d1, NoFuel) => (c1, [], d1, NoFuel)
      end
  end.

(** circular.rs:842-849 and iter.rs:35-53 [IntoIter], which owns the buffer: it is
    dropped at the end, also while unwinding, unless it is forgotten *)
Definition own {R} (forgotten : bool) (u : use T R) (c : cb T) : cb T * list (option T) * list T * outcome R :=
  match drive u c with
  | (c1, a, d, Ret r) =>
      if forgotten then (c1, a, d, Ret r)
      else match drop_cb E dp c1 with (c2, d2, o2) => (c2, a, d ++ d2, omap (fun _ => r) o2) end
  | (c1, a, d, Panic) =>
      if forgotten then (c1, a, d, Panic)
      else match drop_cb E dp c1 with
           | (c2, d2, Ret _) => (c2, a, d ++ d2, Panic)
           | (c2, d2, Panic) => (c2, a, d ++ d2, Abort)
           | (c2, d2, Abort) => (c2, a, d ++ d2, Abort)
           | (c2, d2, UB) => (c2, a, d ++ d2, UB)
           | (c2, d2, NoFuel) => (c2, a, d ++ d2, NoFuel)
           end
  | r => r
  end.

(** ** Provided methods of std's [Iterator] on iter.rs:26-32, 47-53 *)

(** [nth]: the elements before are dropped one by one (used at circular.rs:173 by
    way of [skip], iter.rs:26-32) *)
Fixpoint it_nth (n : nat) : use T (option T) :=
  Next (fun x =>
    match x with
    | None => Done (Ret None)
    | Some v =>
        match n with
        | 0 => Done (Ret (Some v))
        | S m => Discard v (fun bad => if bad then Done Panic else it_nth m)
        end
    end).

(** [count] (iter.rs:26-32) *)
Fixpoint it_count (fuel n : nat) : use T nat :=
  match fuel with
  | 0 => Done NoFuel
  | S f => Next (fun x =>
      match x with
      | None => Done (Ret n)
      | Some v => Discard v (fun bad => if bad then Done Panic else it_count f (n + 1))
      end)
  end.

(** [last] (iter.rs:26-32): the last element so far is dropped when the next one
    takes its place; if that panics, so is the next one *)
Fixpoint it_last (fuel : nat) (last : option T) : use T (option T) :=
  match fuel with
  | 0 => Done NoFuel
  | S f => Next (fun x =>
      match x with
      | None => Done (Ret last)
      | Some v =>
          match last with
          | None => it_last f (Some v)
          | Some w => Discard w (fun bad =>
              if bad then Discard v (fun bad2 => Done (if bad2 then Abort else Panic)) else it_last f (Some v))
          end
      end)
  end.

(** [find] (iter.rs:26-32): elements that do not meet the condition are dropped *)
Fixpoint it_find (p : T -> bool) (fuel : nat) : use T (option T) :=
  match fuel with
  | 0 => Done NoFuel
  | S f => Next (fun x =>
      match x with
      | None => Done (Ret None)
      | Some v => if p v then Done (Ret (Some v)) else Discard v (fun bad => if bad then Done Panic else it_find p f)
      end)
  end.

(** [collect] into a [Vec] (iter.rs:26-32), or the elements so far *)
Fixpoint it_collect (fuel : nat) (vs : list T) : use T (list T) :=
  match fuel with
  | 0 => Done NoFuel
  | S f => Next (fun x => match x with None => Done (Ret vs) | Some v => it_collect f (vs ++ [v]) end)
  end.
End Model.
