(** Writing to a place that answers as it likes. *)
From Coq Require Import String.
From Verif Require Import Base FMSpec FMModel.
Set Implicit Arguments.
Local Open Scope string_scope.

(** A formatting of the crate (interval.rs 806-817, circular.rs 776-780, the derived
    [Debug]) writing to [place], whose answers may depend on everything written
    before.  [Ret true] is [Ok], [Ret false] is [Err]; with it, all writes made. *)
Fixpoint writes (place : list (string * answer) -> string -> answer) (before : list (string * answer)) (p : prog)
  : outcome bool * list (string * answer) :=
  match p with
  | Fin ok => (Ret ok, [])
  | Crash => (Panic, [])
  | Write s next =>
      match place before s with
      | Took => match writes place (before ++ [(s, Took)])%list (next true) with (r, log) => (r, (s, Took) :: log) end
      | Refused n => match writes place (before ++ [(s, Refused n)])%list (next false) with (r, log) => (r, (s, Refused n) :: log) end
      | Crashed n => (Panic, [(s, Crashed n)])
      end
  end.

(** A formatting that writes [t] in some pieces and stops with an error at the first
    error (as [Display] and [Debug] of the integers, of strings, and of most types);
    with [faults], it may also stop in between, with an error or a panic of its own. *)
Inductive prints (faults : bool) : prog -> string -> Prop :=
| pr_done : prints faults (Fin true) ""
| pr_error t : faults = true -> prints faults (Fin false) t
| pr_panic t : faults = true -> prints faults Crash t
| pr_write s next t : next false = Fin false -> prints faults (next true) t -> prints faults (Write s next) (s ++ t).

(** One formatting after the other, as long as they succeed *)
Fixpoint in_turn (place : list (string * answer) -> string -> answer) (before : list (string * answer)) (ps : list prog)
  : outcome bool * list (string * answer) :=
  match ps with
  | [] => (Ret true, [])
  | p :: r =>
      match writes place before p with
      | (Ret true, log) => match in_turn place (before ++ log)%list r with (o, log') => (o, (log ++ log')%list) end
      | x => x
      end
  end.
