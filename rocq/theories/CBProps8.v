(** Property theorem C107: draining and owning iterators in the hands of arbitrary
    user code. *)
From Coq Require Import Lia.
From Verif Require Import Base CBSpec CBModel CBRun CBProofs CBProofs2 CBProofs3 CBSpec5 CBModel6 CBProofs13 CBProps.
Local Open Scope list_scope.

(** ** C107 *)
(** Whatever is done with a [drain()]: [next] delivers the elements in order, each
    once, and after the last one [None] for ever; the program sees nothing else (what
    it drops and how it ends follow from these answers); what was not delivered stays
    in the buffer, also if the program panics or forgets the iterator. *)
Theorem c107_drain_delivers_in_order : forall T E (dp : T -> bool) R (u : use T R) c k l,
  indexable T E -> reachable E c -> shows E c k l ->
  exists c' n answers d o, drive E dp u c = (c', answers, d, o) /\
    delivered l n answers /\ replay dp u answers = Some (d, o) /\
    reachable E c' /\ shows E c' k (skipn n l).
Proof.
  intros T E dp R u c k l HE Rc S.
  pose proof (drive_feed HE dp u (shows_matches HE Rc S)) as H. cbn [items cap] in H.
  destruct (feed dp u l) as [[[l' a] d] o] eqn:F. destruct H as (c' & H & M).
  destruct (feed_facts _ _ _ F) as (Rp & n & D & ->).
  exists c', n, a, d, o. repeat split; auto; try (exact (proj1 D)); try exact (proj2 D).
  - eapply drive_reachable; [exact Rc|exact H].
  - exact (proj1 (matches_shows M)).
  - exact (proj2 (matches_shows M)).
Qed.
Print Assumptions c107_drain_delivers_in_order.

(** the same for [into_iter()]; its end drops what was not delivered, from the back,
    up to the first destructor that panics; forgetting it drops nothing *)
Theorem c107_into_iter_delivers_in_order : forall T E (dp : T -> bool) R forgotten (u : use T R) c k l,
  indexable T E -> reachable E c -> shows E c k l ->
  exists c' n answers d o d2 o2, own E dp forgotten u c = (c', answers, d ++ d2, o2) /\
    delivered l n answers /\ replay dp u answers = Some (d, o) /\
    if forgotten then d2 = [] /\ o2 = o
    else match o with
         | Ret _ | Panic =>
             match drop_each dp (rev (skipn n l)) with
             | (_, dropped, Ret _) => d2 = dropped /\ o2 = o
             | (_, dropped, _) => d2 = dropped /\ o2 = match o with Ret _ => Panic | _ => Abort end
             end
         | _ => d2 = [] /\ o2 = o
         end.
Proof.
  intros T E dp R forgotten u c k l HE Rc S.
  pose proof (drive_feed HE dp u (shows_matches HE Rc S)) as H. cbn [items cap] in H.
  destruct (feed dp u l) as [[[l' a] d] o] eqn:F. destruct H as (c1 & H & M).
  destruct (feed_facts _ _ _ F) as (Rp & n & D & ->). unfold own. rewrite H.
  pose proof (clear_ok dp M) as C. unfold s_clear in C. cbn [items cap] in C.
  pose proof (drop_each_exact dp (rev (skipn n l))) as X.
  destruct (drop_each dp (rev (skipn n l))) as [[r dr] oc] eqn:Q. destruct C as (c2 & C & _).
  unfold drop_cb. rewrite C.
  destruct forgotten.
  - exists c1, n, a, d, o, [], o. rewrite app_nil_r. destruct o; auto.
  - destruct o as [x| | | |].
    + exists c2, n, a, d, (Ret x), dr, (omap (fun _ => x) oc).
      split; [reflexivity|]. split; [exact D|]. split; [exact Rp|].
      destruct oc as [[]| | | |]; try contradiction; rewrite Q; cbn; auto.
    + destruct oc as [[]| | | |]; try contradiction.
      * exists c2, n, a, d, Panic, dr, Panic. rewrite Q. auto.
      * exists c2, n, a, d, Panic, dr, Abort. rewrite Q. auto.
    + exists c1, n, a, d, Abort, [], Abort. rewrite app_nil_r. auto.
    + exists c1, n, a, d, UB, [], UB. rewrite app_nil_r. auto.
    + exists c1, n, a, d, NoFuel, [], NoFuel. rewrite app_nil_r. auto.
Qed.
Print Assumptions c107_into_iter_delivers_in_order.

(** ** Provided methods of [Iterator] *)

(** [drain().nth(n)] drops the elements before the one it returns; a panic on the way
    leaves the others where they are *)
Theorem c107_nth : forall T E (dp : T -> bool) n c k l, indexable T E -> reachable E c -> shows E c k l ->
  exists c' a, shows E c' k (match drop_each dp (firstn n l) with
                             | (_, _, Ret _) => skipn (S n) l
                             | (r, _, _) => r ++ skipn n l
                             end) /\
    drive E dp (it_nth T n) c =
    match drop_each dp (firstn n l) with
    | (_, dr, Ret _) => (c', a, dr, Ret (nth_error l n))
    | (_, dr, _) => (c', a, dr, Panic)
    end.
Proof.
  intros T E dp n c k l HE Rc S. pose proof (drive_feed HE dp (it_nth T n) (shows_matches HE Rc S)) as H. cbn [items cap] in H.
  destruct (feed_nth dp n l) as (a & F). rewrite F in H.
  destruct (drop_each dp (firstn n l)) as [[r dr] [| | | |]]; destruct H as (c' & H & M); exists c', a; (split; [exact (matches_shows M)|exact H]).
Qed.
Print Assumptions c107_nth.

(** [count] and [collect] take everything; [count] drops it, a panic leaves the rest *)
Theorem c107_count_and_collect : forall T E (dp : T -> bool) fuel c k l, indexable T E -> reachable E c -> shows E c k l ->
  length l < fuel ->
  (exists c' a r dr o, drop_each dp l = (r, dr, o) /\
    drive E dp (it_count T fuel 0) c = (c', a, dr, omap (fun _ => length l) o) /\ shows E c' k r) /\
  (exists c' a, drive E dp (it_collect fuel []) c = (c', a, [], Ret l) /\ shows E c' k []).
Proof.
  intros T E dp fuel c k l HE Rc S L. split.
  - pose proof (drive_feed HE dp (it_count T fuel 0) (shows_matches HE Rc S)) as H. cbn [items cap] in H.
    destruct (feed_count dp 0 l L) as (a & F). rewrite F in H.
    destruct (drop_each dp l) as [[r dr] o]. destruct H as (c' & H & M). exists c', a, r, dr, o.
    split; [reflexivity|]. split; [exact H|exact (matches_shows M)].
  - pose proof (drive_feed HE dp (it_collect fuel []) (shows_matches HE Rc S)) as H. cbn [items cap] in H.
    destruct (feed_collect dp [] l L) as (a & F). rewrite F in H.
    destruct H as (c' & H & M). exists c', a. split; [exact H|exact (matches_shows M)].
Qed.
Print Assumptions c107_count_and_collect.

(** [last] drops all but the last one; if a destructor panics, the next element is
    dropped as well (a second panic aborts) and the rest stays *)
Theorem c107_last : forall T E (dp : T -> bool) fuel c k w l, indexable T E -> reachable E c -> shows E c k (w :: l) ->
  S (length l) < fuel ->
  (existsb dp (removelast (w :: l)) = false /\ exists c' a,
     drive E dp (it_last fuel None) c = (c', a, removelast (w :: l), Ret (Some (List.last (w :: l) w))) /\ shows E c' k []) \/
  (exists before x y rest c' a, w :: l = before ++ x :: y :: rest /\ existsb dp before = false /\ dp x = true /\
     drive E dp (it_last fuel None) c = (c', a, before ++ [x; y], if dp y then Abort else Panic) /\ shows E c' k rest).
Proof.
  intros T E dp fuel c k w l HE Rc S L. pose proof (drive_feed HE dp (it_last fuel None) (shows_matches HE Rc S)) as H.
  cbn [items cap] in H. destruct fuel as [|f]; [lia|]. cbn [it_last feed hd_error tl] in H.
  destruct (@feed_last T dp f w l) as [(B & a & F)|(a0 & x & y & b & a & Hl & B & D & F)]; [lia| |]; rewrite F in H.
  - left. split; [exact B|]. destruct H as (c' & H & M). exists c', (Some w :: a). split; [exact H|exact (matches_shows M)].
  - right. destruct H as (c' & H & M). exists a0, x, y, b, c', (Some w :: a). repeat split; auto; exact (proj1 (matches_shows M)) || exact (proj2 (matches_shows M)).
Qed.
Print Assumptions c107_last.

(** [find] drops the elements before the first that meets the condition *)
Theorem c107_find : forall T E (dp : T -> bool) p fuel c k l, indexable T E -> reachable E c -> shows E c k l ->
  length l < fuel ->
  (exists before x after c' a, l = before ++ x :: after /\ existsb p before = false /\ existsb dp before = false /\ p x = true /\
     drive E dp (it_find p fuel) c = (c', a, before, Ret (Some x)) /\ shows E c' k after) \/
  (existsb p l = false /\ existsb dp l = false /\ exists c' a,
     drive E dp (it_find p fuel) c = (c', a, l, Ret None) /\ shows E c' k []) \/
  (exists before x after c' a, l = before ++ x :: after /\ existsb p (before ++ [x]) = false /\ existsb dp before = false /\ dp x = true /\
     drive E dp (it_find p fuel) c = (c', a, before ++ [x], Panic) /\ shows E c' k after).
Proof.
  intros T E dp p fuel c k l HE Rc S L. pose proof (drive_feed HE dp (it_find p fuel) (shows_matches HE Rc S)) as H.
  cbn [items cap] in H.
  destruct (feed_find dp p l L) as [(pre & x & post & a & Hl & A & B & C & F)|[(A & B & a & F)|(pre & x & post & a & Hl & A & B & C & F)]];
    rewrite F in H; destruct H as (c' & H & M); pose proof (matches_shows M) as Sh; cbn [items cap] in Sh.
  - left. exists pre, x, post, c', a. auto 8.
  - right; left. split; [exact A|]. split; [exact B|]. exists c', a. auto.
  - right; right. exists pre, x, post, c', a. auto 8.
Qed.
Print Assumptions c107_find.

(** ** Examples *)
(** takes two, drops the second catching its panic, asks on after the end, panics *)
Definition c107_user : use nat nat :=
  Next (fun x => Next (fun y =>
    match y with
    | Some v => Discard v (fun bad => if bad then Next (fun z => Next (fun q => match q with None => Next (fun _ => Done Panic) | _ => Done (Ret 9) end)) else Done (Ret 1))
    | None => Done (Ret 0)
    end)).
Definition bad_4 (n : nat) : bool := n =? 4.
Definition bad_6 (n : nat) : bool := n =? 6.
Example c107_ex : shows E0 demo 3 [3; 4; 6] /\
  (let '(c, a, d, o) := drive E0 bad_4 c107_user demo in
   shows E0 c 3 [] /\ a = [Some 3; Some 4; Some 6; None; None] /\ d = [4] /\ o = Panic) /\
  (let '(c, a, d, o) := drive E0 never c107_user demo in shows E0 c 3 [6] /\ a = [Some 3; Some 4] /\ d = [4] /\ o = Ret 1) /\
  (let '(c, a, d, o) := own E0 bad_6 false c107_user demo in a = [Some 3; Some 4] /\ d = [4; 6] /\ o = Panic) /\
  (let '(c, a, d, o) := own E0 bad_6 true c107_user demo in a = [Some 3; Some 4] /\ d = [4] /\ o = Ret 1) /\
  (let '(c, a, d, o) := own E0 bad_6 false (Next (fun _ => Done (R := nat) Panic)) demo in d = [6] /\ o = Abort).
Proof. vm_compute. repeat split. Qed.
Example c107_ex_methods :
  (let '(c, a, d, o) := drive E0 bad_4 (it_nth nat 2) demo in shows E0 c 3 [6] /\ d = [3; 4] /\ o = Panic) /\
  (let '(c, a, d, o) := drive E0 bad_6 (it_nth nat 1) demo in shows E0 c 3 [6] /\ d = [3] /\ o = Ret (Some 4)) /\
  (let '(c, a, d, o) := drive E0 never (it_count nat 9 0) demo in shows E0 c 3 [] /\ d = [3; 4; 6] /\ o = Ret 3) /\
  (let '(c, a, d, o) := drive E0 never (it_last 9 None) demo in shows E0 c 3 [] /\ d = [3; 4] /\ o = Ret (Some 6)) /\
  (let '(c, a, d, o) := drive E0 (fun n => n =? 3) (it_last 9 None) demo in shows E0 c 3 [6] /\ d = [3; 4] /\ o = Panic) /\
  (let '(c, a, d, o) := drive E0 never (it_find (fun n => 3 <? n) 9) demo in shows E0 c 3 [6] /\ d = [3] /\ o = Ret (Some 4)) /\
  (let '(c, a, d, o) := drive E0 never (it_collect 9 []) demo in shows E0 c 3 [] /\ d = [] /\ o = Ret [3; 4; 6]).
Proof. vm_compute. repeat split. Qed.
