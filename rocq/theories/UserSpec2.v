(** Specification shared by the containers built on a hash map: how handing
    over one owned key ends when its [Hash]/[Eq] ([hp]) or its destructor
    ([dp]) may panic. *)
From Verif Require Import Base.
Set Implicit Arguments.

Section Spec.
Variable K : Type.
Variable hp dp : K -> bool.

(** A panic during which [ks] are dropped: a second panic aborts. *)
Definition dropping (ks : list K) : outcome unit :=
  if existsb dp ks then Abort else Panic.

(** Dropping [ks] otherwise: one panic is a panic, two abort. *)
Definition drops (ks : list K) : outcome unit :=
  match length (filter dp ks) with
  | 0 => Ret tt
  | 1 => Panic
  | _ => Abort
  end.

(** Adding the key [k], which is already [present] or not, to a map that is
    [full] or not: a redundant key is dropped, a key that cannot be looked up
    or stored is dropped by the panic. *)
Definition adding (present full : bool) (k : K) : outcome unit :=
  if hp k then dropping [k]
  else if present then drops [k]
  else if full then dropping [k] else Ret tt.

(** Adding [v] to the count of [k]; [over]: the sum is too large; [lost]: making
    room panics, and these keys are dropped. *)
Definition counting (present full : bool) (lost : option (list K)) (over : bool) (k : K) : outcome unit :=
  match adding present full k with
  | Ret _ =>
      match present, lost with
      | false, Some ks => dropping (k :: ks)
      | _, _ => if over then Panic else Ret tt
      end
  | o => o
  end.

(** Taking [v] off the count of [k], whose entry is [stored]: a removed key is
    dropped together with [k]. *)
Definition taking (stored : option (K * nat)) (full : bool) (lost : option (list K)) (k : K) (v : nat) : outcome unit :=
  if hp k then dropping [k]
  else match stored with
  | Some (k0, n) => if n <=? v then drops [k; k0] else drops [k]
  | None =>
      if full then dropping [k]
      else match lost with Some ks => dropping (k :: ks) | None => drops [k] end
  end.

(** A loop over owned keys stopped by [o], the keys [rest] still to come: these
    are dropped as well. *)
Definition stopping (o : outcome unit) (rest : list K) : outcome unit :=
  match o with Abort => Abort | _ => dropping rest end.

End Spec.
