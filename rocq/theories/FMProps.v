(** Property theorems C106: writing values of the crate to a place that may refuse. *)
From Coq Require Import String Ascii NArith ZArith Permutation DecimalString Lia.
From Verif Require Import Base HMModel IVModel CTModel DSModel FMSpec FMModel FMRun FMProofs FMProofs2.
From Verif Require Import DBModel PPModel TextSpec PPRun PPProps.
From Verif Require CBModel CBModel2 IVModel2.
Set Implicit Arguments.
Local Open Scope string_scope.

(** ** C106: what printing means *)
Lemma begins_complete t log : complete t log -> text_of log ++ "" = t.
Proof. intros [_ E]. now rewrite app_nil_s. Qed.
Lemma text_app a b : text_of (a ++ b)%list = text_of a ++ text_of b.
Proof. unfold text_of. rewrite map_app. apply concat_app_s. Qed.
Lemma some_of n s : exists r, substring 0 n s ++ r = s.
Proof.
  revert s. induction n as [|n IH]; intros s; [exists s; destruct s; reflexivity|].
  destruct s as [|c s]; [exists ""; reflexivity|]. destruct (IH s) as [r E]. exists r. cbn. now rewrite E.
Qed.
Lemma taken_part e : exists r, taken e ++ r = fst e.
Proof. destruct e as [s [|n|n]]; cbn; [exists ""; apply app_nil_s|apply some_of|apply some_of]. Qed.
Lemma cut_part a t log : cut_off a t log -> exists r, text_of log ++ r = t.
Proof.
  intros (l1 & s & rest & -> & _ & <-). destruct (taken_part (s, a)) as [r E]. exists (r ++ rest).
  rewrite text_app, text_cons. cbn [fst] in E. cbn [text_of map String.concat].
  rewrite app_nil_s, PPProofs.app_assoc_s, <- (PPProofs.app_assoc_s _ r), E. reflexivity.
Qed.
Lemma begun_part t log : begun t log -> exists r, text_of log ++ r = t.
Proof.
  intros (l1 & l2 & rest & -> & F & L & <-).
  assert (E1 : text_of l1 = String.concat "" (map fst l1)).
  { unfold text_of. f_equal. apply map_ext_in. intros e I. rewrite Forall_forall in F. unfold taken. now rewrite F. }
  destruct l2 as [|e [|? ?]]; cbn in L; try lia.
  - exists rest. rewrite app_nil_r. now rewrite E1.
  - destruct (taken_part e) as [r E]. exists (r ++ rest).
    rewrite text_app, text_cons, E1, map_app, concat_app_s. cbn [map String.concat text_of].
    rewrite <- E, app_nil_s, !PPProofs.app_assoc_s. reflexivity.
Qed.

Lemma writes_answers place p : forall before, Forall (fun e => exists b, snd e = place b (fst e)) (snd (writes place before p)).
Proof.
  induction p as [ok| |s next IH]; intros before; cbn; try constructor.
  destruct (place before s) as [|n|n] eqn:E.
  - specialize (IH true (before ++ [(s, Took)])%list). destruct (writes place _ (next true)). constructor; [eauto|exact IH].
  - specialize (IH false (before ++ [(s, Refused n)])%list). destruct (writes place _ (next false)). constructor; [eauto|exact IH].
  - constructor; [eauto|constructor].
Qed.

(** [Ok] is returned exactly when all writes were taken, and then the text is complete;
    otherwise it is cut off at the first write that failed, and nothing is written
    after that.  In any case a beginning of the text has arrived. *)
Theorem c106_complete_or_cut_off : forall faults p t place before, prints faults p t ->
  let x := writes place before p in
  fate faults t x /\ (exists rest, text_of (snd x) ++ rest = t) /\
  ((forall b s, place b s = Took) -> faults = false -> fst x = Ret true /\ text_of (snd x) = t).
Proof.
  intros faults p t place before P x. assert (F : fate faults t x) by exact (prints_fate P place before).
  split; [exact F|]. split.
  - unfold fate in F. destruct (fst x) as [[]| | | |]; try contradiction.
    + exists "". apply begins_complete, F.
    + destruct F as [(n & C)|(_ & B)]; [exact (cut_part C)|exact (begun_part B)].
    + destruct F as [(n & C)|(_ & B)]; [exact (cut_part C)|exact (begun_part B)].
  - intros A ->. pose proof (writes_answers place p before) as W. fold x in W.
    assert (N : forall a, a <> Took -> ~ cut_off a t (snd x)).
    { intros a Na (l1 & s & rest & E & _). rewrite E in W. rewrite Forall_forall in W.
      destruct (W (s, a)) as [b Hb]; [apply in_or_app; right; left; reflexivity|]. cbn in Hb. rewrite A in Hb. contradiction. }
    unfold fate in F. destruct (fst x) as [[]| | | |]; try contradiction.
    + split; [reflexivity|apply F].
    + destruct F as [(n & C)|(B & _)]; [|discriminate]. now apply N in C.
    + destruct F as [(n & C)|(B & _)]; [|discriminate]. now apply N in C.
Qed.
Print Assumptions c106_complete_or_cut_off.

(** ** Display of intervals *)

(** if the elements print their texts, an interval prints its text *)
Theorem c106_intervals_are_displayed : forall T (show : opts -> T -> prog) (el : T -> string) faults empties o i,
  (forall x, prints faults (show (Opts " " None None false false false) x) (el x)) ->
  prints faults (iv_display_p empties show o i) (iv_display el i).
Proof.
  intros T show el faults empties o i H. unfold iv_display_p, iv_display. destruct (imp i) as [a|]; [|apply prints_piece].
  set (l := if lclosed (lo a) then "[" else "("). set (r := if uclosed (up a) then "]" else ")").
  replace (String (if lclosed (lo a) then "["%char else "("%char)
    (el (lval (lo a)) ++ "," ++ el (uval (up a)) ++ String (if uclosed (up a) then "]"%char else ")"%char) ""))
    with ("" ++ l ++ "" ++ el (lval (lo a)) ++ "," ++ el (uval (up a)) ++ "" ++ r).
  - apply prints_then; [apply prints_piece|]. apply prints_then; [apply prints_str|].
    apply prints_then; [apply prints_piece|]. apply prints_then; [apply H|].
    apply prints_then; [apply prints_piece|]. apply prints_then; [apply H|].
    apply prints_then; [apply prints_piece|apply prints_str].
  - unfold l, r. destruct (lclosed (lo a)), (uclosed (up a)); reflexivity.
Qed.
Print Assumptions c106_intervals_are_displayed.

(** the elements may do what they like: the bracket, the bounds, the comma are written
    in this order, as long as all goes well; the options of the caller never matter,
    and the elements see none *)
Theorem c106_display_step_by_step : forall T (show : opts -> T -> prog) (empties : bool) o i place before,
  let gap := if empties then [write_str ""] else [] in
  writes place before (iv_display_p empties show o i) =
  in_turn place before
    match iv_lower i, iv_upper i with
    | Some l, Some u =>
        (gap ++ [write_str (if lclosed l then "[" else "(")] ++ gap ++ [show (Opts " " None None false false false) (lval l)] ++
         [write_str ","] ++ [show (Opts " " None None false false false) (uval u)] ++ gap ++ [write_str (if uclosed u then "]" else ")")])%list
    | _, _ => [write_str (String "195" (String "152" ""))]
    end.
Proof.
  intros T show empties o i place before gap.
  unfold iv_lower, iv_upper. unfold iv_display_p. destruct (imp i) as [a|]; [|apply in_turn_last].
  cbn [option_map]. unfold gap. destruct empties; cbn [app piece andthen].
  - repeat (apply in_turn_then; intros). apply in_turn_last.
  - repeat (apply in_turn_then; intros). apply in_turn_last.
Qed.
Print Assumptions c106_display_step_by_step.

(** ** Debug of circular buffers *)
Theorem c106_buffers_are_printed : forall T (num : opts -> nat -> prog) faults empties o (c : CBModel.cb T),
  (forall n, prints faults (num (Opts " " None None false false false) n) (flat (number n))) ->
  prints faults (cb_debug_p empties num o c) (CBModel2.debug_fmt c).
Proof.
  intros T num faults empties o c H. unfold cb_debug_p, CBModel2.debug_fmt.
  repeat (apply prints_then; [apply prints_piece || apply H|]). apply prints_piece.
Qed.
Print Assumptions c106_buffers_are_printed.

(** ** Derived Debug, on one line or several *)
Section Derived.
Variables alt faults : bool.
Variable flag : bool -> prog.
Variable num : nat -> prog.
Variable num32 : N -> prog.
Definition leaves : Prop :=
  (forall b : bool, prints faults (flag b) (if b then "true" else "false")) /\
  (forall n, prints faults (num n) (flat (number n))) /\ (forall n, prints faults (num32 n) (flat (number_N n))).
End Derived.

Theorem c106_intervals_are_printed : forall alt faults flag num num32 T (dbg : T -> prog) el i l u,
  leaves faults flag num num32 -> (forall x, prints faults (dbg x) (el x)) ->
  prints faults (iv_debug_p alt flag dbg i) (laid_out alt (iv_doc el i)) /\
  prints faults (iv_debug_p alt flag dbg i) (if alt then iv_pp el i else IVModel2.iv_debug el i) /\
  prints faults (lower_p alt flag dbg l) (laid_out alt (lower_doc el l)) /\
  prints faults (upper_p alt flag dbg u) (laid_out alt (upper_doc el u)).
Proof.
  intros alt faults flag num num32 T dbg el i l u (Fl & _ & _) D.
  assert (P : prints faults (iv_debug_p alt flag dbg i) (laid_out alt (iv_doc el i))) by now apply gives_interval.
  split; [exact P|]. split.
  - unfold laid_out in P. destruct alt; [rewrite (proj1 (c88_intervals_on_several_lines el i l u))|rewrite (proj1 (c88_intervals_on_one_line el i l u))]; exact P.
  - split; [now apply gives_lower|now apply gives_upper].
Qed.
Print Assumptions c106_intervals_are_printed.

(** the maps may be met in any order *)
Theorem c106_maps_are_printed : forall alt faults flag num num32 T (dbg : T -> prog) el (c : counter T) (s : dset T) l m,
  leaves faults flag num num32 -> (forall x, prints faults (dbg x) (el x)) ->
  Permutation l (ct_map c) -> Permutation m (ds_ids s) ->
  (exists t, prints faults (ct_debug_p alt num dbg l) t /\ t = laid_out alt (ct_doc el l) /\
    if alt then ct_pp el c t else ct_debug el c t) /\
  (exists t, prints faults (ds_debug_p alt num num32 dbg m (ds_data s)) t /\ t = laid_out alt (ds_doc el m (ds_data s)) /\
    if alt then ds_pp el s t else ds_debug el s t).
Proof.
  intros alt faults flag num num32 T dbg el c s l m (_ & Nu & Nu32) D Pl Pm. split.
  - eexists. split; [apply gives_counter; [exact Nu|exact D]|]. split; [reflexivity|].
    unfold laid_out. destruct alt;
      [apply (c88_maps_on_several_lines el c s)|apply (c88_maps_on_one_line el c s)]; exists l; auto.
  - eexists. split; [apply gives_set; [exact Nu|exact Nu32|exact D]|]. split; [reflexivity|].
    unfold laid_out. destruct alt;
      [apply (c88_maps_on_several_lines el c s)|apply (c88_maps_on_one_line el c s)]; exists m; auto.
Qed.
Print Assumptions c106_maps_are_printed.

(** ** Examples *)

(** a buffer with room for [room] characters, which takes what fits *)
Definition limited (room : nat) (log : list (string * answer)) (s : string) : answer :=
  let left := room - String.length (text_of log) in
  if (String.length s <=? left)%nat then Took else Refused left.
Definition digits_of (n : nat) : string := NilZero.string_of_uint (Nat.to_uint n).
Definition show_nat (o : opts) (n : nat) : prog :=
  match o_width o with
  | Some w => write_str (String.concat "" (repeat " " (w - String.length (digits_of n))) ++ digits_of n)
  | None => write_str (digits_of n)
  end.
Definition wide : opts := Opts " " (Some 8) None false false false.
(** an element that panics half-way, and one that fails *)
Definition bad_nat (o : opts) (n : nat) : prog := write_str "n" ;? (if (n =? 7)%nat then Crash else if (n =? 8)%nat then Fin false else write_str "!").

(** the closed interval from [a] to [b] *)
Definition span (a b : nat) : interval nat := Interval (Some (NonEmpty (Lower (Bound a true)) (Upper (Bound b true)))).

Lemma show_nat_prints n : prints false (show_nat plain_opts n) (digits_of n).
Proof. apply prints_str. Qed.

Example c106_ex :
  let i := span 12 345 in
  iv_closed Nat.compare 12 345 = Ret i /\
  (* into a large buffer, with the options of the caller *)
  (let x := writes (limited 100) [] (iv_display_p false show_nat wide i) in
   fst x = Ret true /\ map fst (snd x) = ["["; "12"; ","; "345"; "]"] /\ text_of (snd x) = "[12,345]") /\
  (* an element alone heeds them *)
  text_of (snd (writes (limited 100) [] (show_nat wide 12))) = "      12" /\
  (* into one for six characters *)
  writes (limited 6) [] (iv_display_p false show_nat wide i) =
    (Ret false, [("[", Took); ("12", Took); (",", Took); ("345", Refused 2)]) /\
  cut_off (Refused 2) (iv_display digits_of i) (snd (writes (limited 6) [] (iv_display_p false show_nat wide i))) /\
  (* elements at fault *)
  writes (limited 100) [] (iv_display_p false bad_nat plain_opts (span 3 7)) =
    (Panic, [("[", Took); ("n", Took); ("!", Took); (",", Took); ("n", Took)]) /\
  writes (limited 100) [] (iv_display_p false bad_nat plain_opts (span 8 9)) = (Ret false, [("[", Took); ("n", Took)]) /\
  (* the older form *)
  map fst (snd (writes (limited 100) [] (iv_display_p true show_nat wide i))) = [""; "["; ""; "12"; ","; "345"; ""; "]"].
Proof.
  cbv zeta. repeat split; try (vm_compute; reflexivity).
  exists [("[", Took); ("12", Took); (",", Took)], "345", "]". split; [vm_compute; reflexivity|].
  split; [repeat constructor|vm_compute; reflexivity].
Qed.

Definition show_flag (b : bool) : prog := write_str (if b then "true" else "false").
Definition show_num (n : nat) : prog := write_str (digits_of n).
Definition show_num32 (n : N) : prog := write_str (NilZero.string_of_uint (N.to_uint n)).
Example c106_ex_leaves : leaves false show_flag show_num show_num32.
Proof. repeat split; intros; apply prints_str. Qed.

(** the empty interval and a counter of intervals on several lines, cut off *)
Example c106_ex_several_lines :
  map fst (snd (writes (limited 100) [] (iv_debug_p true show_flag show_num (iv_empty nat)))) =
    ["Interval"; " {" ++ nl; "    "; "imp"; ": "; "None"; "," ++ nl; "}"] /\
  (let p := ct_debug_p true show_num (iv_debug_p true show_flag show_num) [(iv_empty nat, 2)] in
   let t := "Counter {" ++ nl ++ "    counter: {" ++ nl ++ "        Interval {" ++ nl ++ "            imp: None," ++ nl ++
     "        }: 2," ++ nl ++ "    }," ++ nl ++ "}" in
   prints false p t /\
   fst (writes (limited 1000) [] p) = Ret true /\ text_of (snd (writes (limited 1000) [] p)) = t /\
   fst (writes (limited 45) [] p) = Ret false /\ text_of (snd (writes (limited 45) [] p)) = substring 0 45 t) /\
  fst (writes (fun log s => if String.eqb s "rank" then Crashed 3 else Took) []
    (ds_debug_p false show_num show_num32 show_num [(5, 0)] [Data 0 1%N])) = Panic /\
  text_of (snd (writes (fun log s => if String.eqb s "rank" then Crashed 3 else Took) []
    (ds_debug_p false show_num show_num32 show_num [(5, 0)] [Data 0 1%N]))) =
    "DisjointSet { ids: {5: 0}, data_by_id: [Data { parent: 0, ran".
Proof.
  split; [vm_compute; reflexivity|]. split; [|split; vm_compute; reflexivity]. cbv zeta.
  split; [|repeat split; vm_compute; reflexivity].
  destruct c106_ex_leaves as (A & B & C).
  pose proof (proj1 (@gives_counter true false show_num B _ (iv_debug_p true show_flag show_num)
    (fun i => laid_out true (iv_doc digits_of i)) (fun i => proj1 (@gives_interval true false show_flag A _ show_num digits_of (fun n => prints_str _ _) i))
    [(iv_empty nat, 2)])) as P.
  exact P.
Qed.

(** a circular buffer: its elements are not printed at all *)
Example c106_ex_buffer :
  let c := CBModel.CB [CBModel.Init true; CBModel.Uninit; CBModel.Uninit] 0 1 in
  map fst (snd (writes (limited 100) [] (cb_debug_p false show_nat wide c))) =
    ["CircularBuffer{ start: "; "0"; ", end: "; "1"; ", buf_len: "; "3"; " }"] /\
  fst (writes (limited 30) [] (cb_debug_p false show_nat wide c)) = Ret false.
Proof. split; vm_compute; reflexivity. Qed.
