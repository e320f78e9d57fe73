(** Places to write to, and what has become of a text written to one. *)
From Coq Require Import String.
From Verif Require Import Base.
From Verif Require TextSpec.
Set Implicit Arguments.
Local Open Scope string_scope.

(** the answer to a write: all of it taken; [n] characters taken and an error
    returned; [n] characters taken and a panic *)
Inductive answer := Took | Refused (n : nat) | Crashed (n : nat).

(** the characters taken *)
Definition taken (e : string * answer) : string :=
  match snd e with Took => fst e | Refused n | Crashed n => substring 0 n (fst e) end.
Definition text_of (log : list (string * answer)) : string := String.concat "" (map taken log).

(** all writes were taken, and they make up [t] *)
Definition complete (t : string) (log : list (string * answer)) : Prop :=
  Forall (fun e => snd e = Took) log /\ text_of log = t.

(** the last write was answered by [a], all before were taken, and together they are
    the beginning of [t] *)
Definition cut_off (a : answer) (t : string) (log : list (string * answer)) : Prop :=
  exists log1 s rest, log = (log1 ++ [(s, a)])%list /\ Forall (fun e => snd e = Took) log1 /\ text_of log1 ++ s ++ rest = t.

(** all writes but perhaps the last were taken, and together they are the beginning
    of [t] *)
Definition begun (t : string) (log : list (string * answer)) : Prop :=
  exists log1 log2 rest, log = (log1 ++ log2)%list /\ Forall (fun e => snd e = Took) log1 /\ length log2 <= 1 /\
    String.concat "" (map fst log) ++ rest = t.

(** a value's tree on one line, or with one item per line *)
Definition laid_out (several : bool) (d : TextSpec.doc) : string :=
  if several then TextSpec.page (TextSpec.lines d) else TextSpec.flat d.

(** what a formatting of the text [t] may return, with the writes made: [Ok] if all
    of it was written; an error or a panic if the place it writes to had one, or with
    [faults] out of its own *)
Definition fate (faults : bool) (t : string) (x : outcome bool * list (string * answer)) : Prop :=
  match fst x with
  | Ret true => complete t (snd x)
  | Ret false => (exists n, cut_off (Refused n) t (snd x)) \/ faults = true /\ begun t (snd x)
  | Panic => (exists n, cut_off (Crashed n) t (snd x)) \/ faults = true /\ begun t (snd x)
  | _ => False
  end.
