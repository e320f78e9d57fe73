(** Specification of printed values, independent of the model: a value is a
    tree, printed on one line ([flat]) or with one item per line ([lines]). *)
From Coq Require Import String Ascii List.
Import ListNotations.
Set Implicit Arguments.
Local Open Scope string_scope.

Definition newline : ascii := "010".
Definition nl : string := String newline EmptyString.

Inductive doc :=
| Atom (t : string)
| Record (name : string) (fields : list (string * doc))
| Variant (name : string) (items : list doc)
| Array (items : list doc)
| Dict (entries : list (doc * doc)).

(** on one line, items separated by ", "; records have at least one field *)
Fixpoint flat (d : doc) : string :=
  match d with
  | Atom t => t
  | Record n fs => n ++ " { " ++ String.concat ", " (map (fun f => match f with (x, y) => x ++ ": " ++ flat y end) fs) ++ " }"
  | Variant n ds => n ++ "(" ++ String.concat ", " (map flat ds) ++ ")"
  | Array ds => "[" ++ String.concat ", " (map flat ds) ++ "]"
  | Dict es => "{" ++ String.concat ", " (map (fun e => match e with (x, y) => flat x ++ ": " ++ flat y end) es) ++ "}"
  end.

(** the lines of a text *)
Fixpoint rows (s : string) : list string :=
  match s with
  | EmptyString => [EmptyString]
  | String c r => if Ascii.eqb c newline then EmptyString :: rows r
                  else match rows r with l :: q => String c l :: q | [] => [String c EmptyString] end
  end.
(** the text made of some lines *)
Definition page (ls : list string) : string := String.concat nl ls.

(** the first line of [b] continues the last line of [a] *)
Fixpoint glue (a b : list string) : list string :=
  match a with
  | [] => b
  | [l] => match b with [] => [l] | m :: r => (l ++ m) :: r end
  | l :: r => l :: glue r b
  end.
(** an item: four spaces in front of each line, a comma after the last one *)
Definition item (ls : list string) : list string := map (append "    ") (glue ls [","]).
(** an empty collection takes one line *)
Definition enclosed (a : string) (items : list (list string)) (b : string) : list string :=
  match items with [] => [a ++ b] | _ => a :: concat (map item items) ++ [b] end.

(** one item per line *)
Fixpoint lines (d : doc) : list string :=
  match d with
  | Atom t => rows t
  | Record n fs => enclosed (n ++ " {") (map (fun f => match f with (x, y) => glue [x ++ ": "] (lines y) end) fs) "}"
  | Variant n ds => enclosed (n ++ "(") (map lines ds) ")"
  | Array ds => enclosed "[" (map lines ds) "]"
  | Dict es => enclosed "{" (map (fun e => match e with (x, y) => glue (glue (lines x) [": "]) (lines y) end) es) "}"
  end.

(** a text without line break *)
Fixpoint one_line (s : string) : Prop :=
  match s with EmptyString => True | String c r => c <> newline /\ one_line r end.
