(** [Display] of src/interval and all [Debug] forms of the crate once more, as what
    they do to the place they write to.  That place (a [fmt::Write]) is user code:
    it may refuse a write, having taken part of it, or panic.  So are [Display] and
    [Debug] of the elements: they may fail or panic, and go on after an error.

    Simplifications: [write_char] is a write of one character; the order in which
    std splits its own texts into writes is that of 2018, except that empty ones may
    be left out as later versions do ([empties]); [{:#?}] has the layout of 2019 and
    later (see PPModel.v); a number, a flag or an element writes its text in
    whatever pieces. *)
From Coq Require Import String Ascii NArith.
From Verif Require Import Base HMModel IVModel CTModel DSModel.
From Verif Require CBModel.
Set Implicit Arguments.
Local Open Scope string_scope.

(** A formatting in progress (std [fmt::Formatter], used at interval.rs 806-817 and
    circular.rs 776-780): it has returned [Ok] or [Err], panics, or writes a text and
    goes on, knowing whether that succeeded *)
Inductive prog :=
| Fin (ok : bool)
| Crash
| Write (s : string) (next : bool -> prog).

(** [p?; q] (std [fmt::write] and the builders behind [derive(Debug)], bounds.rs 11) *)
Fixpoint andthen (p q : prog) : prog :=
  match p with
  | Fin true => q
  | Fin false => Fin false
  | Crash => Crash
  | Write s next => Write s (fun ok => andthen (next ok) q)
  end.
Infix ";?" := andthen (at level 60, right associativity).

(** [f.write_str(s)] (std, from interval.rs 809, 813 and circular.rs 778) *)
Definition write_str (s : string) : prog := Write s (fun ok => Fin ok).

(** Format options of the caller, such as [{:>8.2}] (std [fmt::Formatter], passed to
    interval.rs 807 and circular.rs 777) *)
Record opts := Opts { o_fill : ascii; o_width : option nat; o_precision : option nat; o_plus : bool; o_zero : bool; o_alternate : bool }.
(** those of a plain [{}] (interval.rs 813, circular.rs 778) *)
Definition plain_opts : opts := Opts " " None None false false false.

Section Hand.
(** whether empty pieces of a format string are written *)
Variable empties : bool.

(** a piece of a format string (std [fmt::write], from interval.rs 813 and
    circular.rs 778) *)
Definition piece (s : string) : prog :=
  match s with EmptyString => if empties then write_str s else Fin true | _ => write_str s end.

(** interval.rs 806-817 [Display]; [show] is the element's own *)
Definition iv_display_p {T} (show : opts -> T -> prog) (o : opts) (i : interval T) : prog :=
  match imp i with
  | None => piece (String (ascii_of_nat 195) (String (ascii_of_nat 152) EmptyString))
  | Some a =>
      let l := if lclosed (lo a) then "[" else "(" in
      let r := if uclosed (up a) then "]" else ")" in
      piece "" ;? write_str l ;? piece "" ;? show plain_opts (lval (lo a)) ;?
      piece "," ;? show plain_opts (uval (up a)) ;? piece "" ;? write_str r
  end.

(** circular.rs 776-780 [Debug]; [num] is [Display] of [usize] *)
Definition cb_debug_p {T} (num : opts -> nat -> prog) (o : opts) (c : CBModel.cb T) : prog :=
  piece "CircularBuffer{ start: " ;? num plain_opts (CBModel.start c) ;?
  piece ", end: " ;? num plain_opts (CBModel.end_ c) ;?
  piece ", buf_len: " ;? num plain_opts (length (CBModel.buffer c)) ;? piece " }".
End Hand.

(** a text as its lines, each with the character that ends it (std
    [split_inclusive], for bounds.rs 11 and the other derived [Debug]) *)
Fixpoint split_lines (s : string) : list string :=
  match s with
  | EmptyString => []
  | String c r =>
      if Ascii.eqb c "010" then String c EmptyString :: split_lines r
      else match split_lines r with
           | [] => [String c EmptyString]
           | x :: xs => String c x :: xs
           end
  end.
(** whether it ends with that character (std, for bounds.rs 11) *)
Fixpoint ends_line (s : string) : bool :=
  match s with
  | EmptyString => false
  | String c EmptyString => Ascii.eqb c "010"
  | String _ r => ends_line r
  end.

(** std [PadAdapter::write_str] (for bounds.rs 11 and the other derived [Debug]):
    [on] tells whether a line begins; [k] goes on with that and with the result *)
Fixpoint pad_chunks (on : bool) (cs : list string) (k : bool -> bool -> prog) : prog :=
  match cs with
  | [] => k on true
  | c :: r =>
      let rest := Write c (fun ok => if ok then pad_chunks (ends_line c) r k else k (ends_line c) false) in
      if on then Write "    " (fun ok => if ok then rest else k on false) else rest
  end.
(** writing through a [PadAdapter] (std, for bounds.rs 11 and the other derived
    [Debug]) *)
Fixpoint pad_prog (on : bool) (p : prog) : prog :=
  match p with
  | Fin ok => Fin ok
  | Crash => Crash
  | Write s next => pad_chunks on (split_lines s) (fun on' ok => pad_prog on' (next ok))
  end.

Section Derived.
(** [{:#?}] instead of [{:?}] *)
Variable alt : bool.

(** an item of a builder on several lines (std, for bounds.rs 11) *)
Definition item_pp (p : prog) : prog := pad_prog true (p ;? write_str ("," ++ String "010" EmptyString)).

(** std [DebugStruct::field] (for bounds.rs 11), [first] or not *)
Definition field_p (first : bool) (name : string) (v : prog) : prog :=
  if alt then
    (if first then write_str (" {" ++ String "010" EmptyString) else Fin true) ;?
    item_pp (write_str name ;? write_str ": " ;? v)
  else write_str (if first then " { " else ", ") ;? write_str name ;? write_str ": " ;? v.
(** the fields after the first (std [DebugStruct], for bounds.rs 11) *)
Fixpoint fields_p (first : bool) (fs : list (string * prog)) : prog :=
  match fs with
  | [] => Fin true
  | (name, v) :: r => field_p first name v ;? fields_p false r
  end.
(** std [DebugStruct] with at least one field (for bounds.rs 11) *)
Definition struct_p (name : string) (fs : list (string * prog)) : prog :=
  write_str name ;? fields_p true fs ;? write_str (if alt then "}" else " }").

(** std [DebugTuple] with one field (for interval.rs 75) *)
Definition tuple_p (name : string) (v : prog) : prog :=
  write_str name ;?
  (if alt then write_str ("(" ++ String "010" EmptyString) ;? item_pp v else write_str "(" ;? v) ;?
  write_str ")".

(** std [DebugInner::entry], [DebugMap::entry] (for counter.rs 45 and
    disjoint_set.rs 106, 107) *)
Fixpoint entries_p (first : bool) (vs : list prog) : prog :=
  match vs with
  | [] => Fin true
  | v :: r =>
      (if alt then (if first then write_str (String "010" EmptyString) else Fin true) ;? item_pp v
       else (if first then Fin true else write_str ", ") ;? v) ;?
      entries_p false r
  end.
(** std [DebugList] (for disjoint_set.rs 107) *)
Definition list_p (vs : list prog) : prog := write_str "[" ;? entries_p true vs ;? write_str "]".
(** std [DebugMap] (for counter.rs 45 and disjoint_set.rs 106) *)
Definition map_p (vs : list (prog * prog)) : prog :=
  write_str "{" ;? entries_p true (map (fun e => fst e ;? write_str ": " ;? snd e) vs) ;? write_str "}".

(** [Debug] of [bool], [usize] and [u32] with the options of the caller *)
Variable flag : bool -> prog.
Variable num : nat -> prog.
Variable num32 : N -> prog.

Section Elements.
Variable T : Type.
(** the element's own [Debug] with the options of the caller *)
Variable dbg : T -> prog.

(** bounds.rs 11-15, derived [Debug] *)
Definition bound_p (b : bound T) : prog := struct_p "Bound" [("val", dbg (bval b)); ("is_closed", flag (bclosed b))].
(** bounds.rs 149-152, derived [Debug] *)
Definition lower_p (l : lower T) : prog := struct_p "LowerBound" [("bound", bound_p (lbound l))].
(** bounds.rs 488-491, derived [Debug] *)
Definition upper_p (u : upper T) : prog := struct_p "UpperBound" [("bound", bound_p (ubound u))].
(** interval.rs 12-16, derived [Debug] *)
Definition nonempty_p (a : nonempty T) : prog := struct_p "NonEmptyInterval" [("lo", lower_p (lo a)); ("up", upper_p (up a))].
(** interval.rs 73-76, derived [Debug] *)
Definition iv_debug_p (i : interval T) : prog :=
  struct_p "Interval" [("imp", match imp i with Some a => tuple_p "Some" (nonempty_p a) | None => write_str "None" end)].

(** std: [Debug for HashMap], for the entries in the order [l] (counter.rs 45,
    disjoint_set.rs 106) *)
Definition hm_p (l : hmap T nat) : prog := map_p (map (fun e => (dbg (fst e), num (snd e))) l).
(** counter.rs 38-46, derived [Debug], the map being met in the order [l] *)
Definition ct_debug_p (l : hmap T nat) : prog := struct_p "Counter" [("counter", hm_p l)].
(** disjoint_set.rs 10-14, derived [Debug] *)
Definition data_p (d : data) : prog := struct_p "Data" [("parent", num (parent d)); ("rank", num32 (rank d))].
(** disjoint_set.rs 104-108, derived [Debug], [ids] being met in the order [l] *)
Definition ds_debug_p (l : hmap T nat) (v : list data) : prog :=
  struct_p "DisjointSet" [("ids", hm_p l); ("data_by_id", list_p (map data_p v))].
End Elements.
End Derived.
