(** The crate's own unit tests and documentation examples, evaluated in the
    model.  These are tests of the model (they say nothing for all inputs);
    they guard against misreadings of the source. *)
From Coq Require Import ZArith Ascii String Permutation.
From Verif Require Import Base CBSpec CBSpec2 CBModel CBModel2 CBRun IVModel IVSpec IVRun HMModel CTModel DSModel DSSpec DSRun.
Import ListNotations.
Local Open Scope list_scope.

(** ** src/circular_buffer/circular.rs *)

(** a 64-bit machine would need too large [nat]s; these limits are never reached *)
Definition VE : machine := Machine 200 100 true.

(** what each call returns, or [None] for a call that does not return, from
    a buffer of capacity [k] on *)
Definition session {T} (k : nat) (ops : list (CBSpec.op T)) : list (option (CBSpec.out T)) :=
  match new T VE k with
  | Ret c => map (fun r => match snd r with Ret v => Some v | _ => None end) (snd (cb_run VE (fun _ => false) ops c))
  | _ => []
  end.

(** circular.rs:928-931 [test_create] *)
Example cb_test_create : new nat VE 5 = Ret (CB (repeat Uninit 6) 0 0).
Proof. reflexivity. Qed.

(** circular.rs:933-949 [test_len] *)
Example cb_test_len : session 3
  [CBSpec.OLen; OPushBack 1; OPushBack 2; CBSpec.OLen; OPushBack 3; OPushBack 4; CBSpec.OLen; OPopBack; CBSpec.OLen; OPopBack; OPopBack; OPopBack; CBSpec.OLen]
  = map Some [CBSpec.RNat 0; CBSpec.RUnit; CBSpec.RUnit; CBSpec.RNat 2; CBSpec.RUnit; CBSpec.RUnit; CBSpec.RNat 3; ROpt (Some 4); CBSpec.RNat 2; ROpt (Some 3); ROpt (Some 2);
     ROpt None; CBSpec.RNat 0].
Proof. reflexivity. Qed.

(** circular.rs:951-975 [test_full_empty] *)
Example cb_test_full_empty : session 3
  [CBSpec.OIsEmpty; OIsFull; OPushBack 1; OPushBack 2; CBSpec.OIsEmpty; OIsFull; OPushBack 3; CBSpec.OIsEmpty; OIsFull; OPushBack 4;
   CBSpec.OIsEmpty; OIsFull; OPopBack; CBSpec.OIsEmpty; OIsFull; OPopBack; OPopBack; OPopBack; CBSpec.OIsEmpty; OIsFull]
  = map Some [CBSpec.RBool true; CBSpec.RBool false; CBSpec.RUnit; CBSpec.RUnit; CBSpec.RBool false; CBSpec.RBool false; CBSpec.RUnit; CBSpec.RBool false; CBSpec.RBool true; CBSpec.RUnit;
     CBSpec.RBool false; CBSpec.RBool true; ROpt (Some 4); CBSpec.RBool false; CBSpec.RBool false; ROpt (Some 3); ROpt (Some 2); ROpt None;
     CBSpec.RBool true; CBSpec.RBool false].
Proof. reflexivity. Qed.

(** circular.rs:977-988 [test_back_push_pop] *)
Example cb_test_back_push_pop : session 3
  [OPushBack 1; OPushBack 2; OPushBack 3; OPushBack 4; OPopBack; OPopBack; OPopBack; OPopBack]
  = map Some [CBSpec.RUnit; CBSpec.RUnit; CBSpec.RUnit; CBSpec.RUnit; ROpt (Some 4); ROpt (Some 3); ROpt (Some 2); ROpt None].
Proof. reflexivity. Qed.

(** circular.rs:990-1001 [test_front_push_pop] *)
Example cb_test_front_push_pop : session 3
  [OPushFront 1; OPushFront 2; OPushFront 3; OPushFront 4; OPopFront; OPopFront; OPopFront; OPopFront]
  = map Some [CBSpec.RUnit; CBSpec.RUnit; CBSpec.RUnit; CBSpec.RUnit; ROpt (Some 4); ROpt (Some 3); ROpt (Some 2); ROpt None].
Proof. reflexivity. Qed.

(** circular.rs:1025-1046 [test_drops]: the value popped is dropped by the
    caller; 1, 2, 5 drops in all at the three checks *)
Example cb_test_drops : match new nat VE 3 with
  | Ret c0 =>
      let (c1, t1) := cb_run VE (fun _ => false) [OPushBack 1; OPushBack 2; OPopBack] c0 in
      let (c2, t2) := cb_run VE (fun _ => false) [OPushBack 3; OPushBack 4; OPushBack 5] c1 in
      (t1, t2, snd (fst (drop_cb VE (fun _ => false) c2)))
  | _ => ([], [], [])
  end = ([([], Ret CBSpec.RUnit); ([], Ret CBSpec.RUnit); ([], Ret (ROpt (Some 2)))],
         [([], Ret CBSpec.RUnit); ([], Ret CBSpec.RUnit); ([1], Ret CBSpec.RUnit)], [5; 4; 3]).
Proof. vm_compute. reflexivity. Qed.

(** circular.rs:1048-1061 [test_capacity] *)
Example cb_test_capacity : session 5
  [OCapacity; OPushBack 1; OPushBack 2; OPushBack 3; CBSpec.OIter; OCapacity; OResize 7; CBSpec.OIter; OResize 2; CBSpec.OIter]
  = map Some [CBSpec.RNat 5; CBSpec.RUnit; CBSpec.RUnit; CBSpec.RUnit; RList [1; 2; 3]; CBSpec.RNat 5; CBSpec.RUnit; RList [1; 2; 3]; CBSpec.RUnit; RList [2; 3]].
Proof. reflexivity. Qed.

(** circular.rs:1063-1072 [test_drain] *)
Example cb_test_drain : session 4 [OPushBack 1; OPushBack 2; OPushBack 3; ODrain 4; CBSpec.OIsEmpty]
  = map Some [CBSpec.RUnit; CBSpec.RUnit; CBSpec.RUnit; RList [1; 2; 3]; CBSpec.RBool true].
Proof. reflexivity. Qed.

(** a buffer of capacity [k] after pushing [xs] *)
Definition pushed {T} (k : nat) (xs : list T) : cb T :=
  match new T VE k with
  | Ret c => fst (cb_run VE (fun _ => false) (map (@OPushBack T) xs) c)
  | _ => CB [] 0 0
  end.

(** circular.rs:1074-1088 [test_append] *)
Example cb_test_append :
  iter (fst (fst (fst (append VE (fun _ => false) (pushed 7 [1; 2; 3], pushed 3 [4; 5; 6]))))) = Ret [1; 2; 3; 4; 5; 6].
Proof. reflexivity. Qed.

(** circular.rs:1090-1098 [test_clear] *)
Example cb_test_clear : session 7 [OPushBack 1; OPushBack 2; OPushBack 3; CBSpec.OClear; CBSpec.OIsEmpty]
  = map Some [CBSpec.RUnit; CBSpec.RUnit; CBSpec.RUnit; CBSpec.RUnit; CBSpec.RBool true].
Proof. reflexivity. Qed.

(** circular.rs:1100-1117 [test_access_elems] *)
Example cb_test_access_elems : session 3
  [OPushBack 1; OPushBack 2; OPushBack 3; OPushBack 4; OFirst; OIndex 1; OLast;
   OFirstMut (fun _ => 5); OIndexMut 1 (fun _ => 6); OLastMut (fun _ => 7); CBSpec.OIter]
  = map Some [CBSpec.RUnit; CBSpec.RUnit; CBSpec.RUnit; CBSpec.RUnit; ROpt (Some 2); RElem 3; ROpt (Some 4); CBSpec.RBool true; CBSpec.RUnit; CBSpec.RBool true;
     RList [5; 6; 7]].
Proof. reflexivity. Qed.

(** circular.rs:1119-1140 [test_slices] *)
Example cb_test_slices :
  slices (pushed 3 [1; 2; 3]) = Ret ([1; 2; 3], []) /\
  omap (fun p => (snd (fst p), snd (snd p))) (slices_mut (pushed 3 [1; 2; 3])) = Ret ([1; 2; 3], []) /\
  slices (pushed 3 [1; 2; 3; 4; 5]) = Ret ([3; 4], [5]) /\
  omap (fun p => (snd (fst p), snd (snd p))) (slices_mut (pushed 3 [1; 2; 3; 4; 5])) = Ret ([3; 4], [5]).
Proof. repeat split. Qed.

(** circular.rs:1142-1154 [test_swap] *)
Example cb_test_swap : session 3
  [OPushBack 1; OPushBack 2; OPushBack 3; OPushBack 4; CBSpec.OIter; OSwap 1 2; CBSpec.OIter; OSwap 0 2; CBSpec.OIter]
  = map Some [CBSpec.RUnit; CBSpec.RUnit; CBSpec.RUnit; CBSpec.RUnit; RList [2; 3; 4]; CBSpec.RUnit; RList [2; 4; 3]; CBSpec.RUnit; RList [3; 4; 2]].
Proof. reflexivity. Qed.

(** circular.rs:1156-1165 [test_linearize] *)
Example cb_test_linearize : snd (linearize VE (pushed 3 [1; 2; 3; 4; 5])) = Ret [3; 4; 5].
Proof. reflexivity. Qed.

(** circular.rs:1167-1177 [test_reverse] *)
Example cb_test_reverse : iter (fst (fst (reverse VE (pushed 3 [1; 2; 3; 4; 5])))) = Ret [5; 4; 3].
Proof. reflexivity. Qed.

(** circular.rs:1179-1188 [test_iters_val] *)
Example cb_test_iters_val : match from_iter VE [1; 2; 3] with
  | Ret c => let c' := fst (fst (extend VE (fun _ => false) [4; 5] c)) in
      [iter c; omap (fun k => [k]) (capacity VE c); iter c'; snd (into_iter_take VE (fun _ => false) 4 c')]
  | _ => []
  end = map Ret [[1; 2; 3]; [3]; [3; 4; 5]; [3; 4; 5]].
Proof. vm_compute. reflexivity. Qed.

(** circular.rs:1190-1199 [test_iters_ref] *)
Example cb_test_iters_ref : match snd (from_iter_refs VE Some [1; 2; 3]) with
  | Ret c => let c' := fst (fst (extend_refs VE (fun _ => false) Some [4; 5] c)) in
      [iter c; omap (fun k => [k]) (capacity VE c); iter c';
       omap (fun ch => from_front (snd (walk (@chain_next nat) (@chain_next_back nat) [Front; Front; Front; Front] ch)))
         (into_iter_ref c')]
  | _ => []
  end = map Ret [[1; 2; 3]; [3]; [3; 4; 5]; [3; 4; 5]].
Proof. vm_compute. reflexivity. Qed.

(** circular.rs:1201-1212 [test_cmp] *)
Example cb_test_cmp : let pc := fun x y => Some (Nat.compare x y) in
  match from_vec VE false [1; 2; 3], from_vec VE false [2; 3; 4], from_vec VE false [2; 3; 4; 5] with
  | Ret c1, Ret c2, Ret c3 =>
      let c1' := fst (fst (push_back VE (fun _ => false) 4 c1)) in
      let c1'' := fst (fst (push_back VE (fun _ => false) 5 c1')) in
      ([cb_partial_cmp pc c1 c2; cb_partial_cmp pc c1'' c2; cb_partial_cmp pc c3 c2], cb_eq Nat.eqb c1' c2)
  | _, _, _ => ([], UB)
  end = ([Ret (Some Lt); Ret (Some Gt); Ret (Some Gt)], Ret true).
Proof. vm_compute. reflexivity. Qed.

(** circular.rs:10-47, the example of the type *)
Example cb_doc : session 3
  [OPushBack 1; OPushBack 2; OPushBack 3; OPopFront; OPushBack 4; OPushBack 5; OPopFront; OResize 4; OCapacity;
   CBSpec.OExtend [6; 7; 8; 9]; ODrain 2; OLinearize]
  = map Some [CBSpec.RUnit; CBSpec.RUnit; CBSpec.RUnit; ROpt (Some 1); CBSpec.RUnit; CBSpec.RUnit; ROpt (Some 3); CBSpec.RUnit; CBSpec.RNat 4; CBSpec.RUnit; RList [6; 7];
     RList [8; 9]].
Proof. reflexivity. Qed.

(** the same from [CircularBuffer::from(vec![...])] on *)
Definition session_from {T} (xs : list T) (ops : list (CBSpec.op T)) : list (option (CBSpec.out T)) :=
  match from_vec VE false xs with
  | Ret c => map (fun r => match snd r with Ret v => Some v | _ => None end) (snd (cb_run VE (fun _ => false) ops c))
  | _ => []
  end.

(** circular.rs:65-68, 83-86 [new], [with_capacity]; 110-116 [len]; 135-141
    [capacity] and 156-162 [resize]; 192-198 [is_empty]; 213-220 [is_full] *)
Example cb_doc_sizes :
  session (T := nat) 5 [OCapacity] = [Some (CBSpec.RNat 5)] /\
  session 5 [CBSpec.OLen; OPushBack 1; CBSpec.OLen] = map Some [CBSpec.RNat 0; CBSpec.RUnit; CBSpec.RNat 1] /\
  session (T := nat) 5 [OCapacity; OResize 7; OCapacity] = map Some [CBSpec.RNat 5; CBSpec.RUnit; CBSpec.RNat 7] /\
  session 5 [CBSpec.OIsEmpty; OPushBack 1; CBSpec.OIsEmpty] = map Some [CBSpec.RBool true; CBSpec.RUnit; CBSpec.RBool false] /\
  session 2 [OIsFull; OPushBack 1; OPushBack 2; OIsFull] = map Some [CBSpec.RBool false; CBSpec.RUnit; CBSpec.RUnit; CBSpec.RBool true].
Proof. repeat split. Qed.

(** circular.rs:238-247 [push_back], 274-283 [push_front], 306-312 [pop_back],
    332-338 [pop_front], 359-363 [clear] *)
Example cb_doc_ends :
  session 3 [OPushBack 1; OPushBack 2; OPushBack 3; CBSpec.OIter; OPushBack 4; CBSpec.OIter]
    = map Some [CBSpec.RUnit; CBSpec.RUnit; CBSpec.RUnit; RList [1; 2; 3]; CBSpec.RUnit; RList [2; 3; 4]] /\
  session 3 [OPushFront 1; OPushFront 2; OPushFront 3; CBSpec.OIter; OPushFront 4; CBSpec.OIter]
    = map Some [CBSpec.RUnit; CBSpec.RUnit; CBSpec.RUnit; RList [3; 2; 1]; CBSpec.RUnit; RList [4; 3; 2]] /\
  session_from [1; 2] [OPopBack; OPopBack; OPopBack] = map Some [ROpt (Some 2); ROpt (Some 1); ROpt None] /\
  session_from [1; 2] [OPopFront; OPopFront; OPopFront] = map Some [ROpt (Some 1); ROpt (Some 2); ROpt None] /\
  session_from [1; 2] [CBSpec.OClear; CBSpec.OIsEmpty] = map Some [CBSpec.RUnit; CBSpec.RBool true].
Proof. repeat split. Qed.

(** circular.rs:381-385 [iter], 402-408 [iter_mut], 449-454 [drain], 471-474 [first],
    495-499 [first_mut], 520-523 [last], 544-548 [last_mut], 635-641 [linearize],
    662-666 [swap], 681-685 [reverse] *)
Example cb_doc_elements :
  session_from [1; 2; 3] [CBSpec.OIter] = [Some (RList [1; 2; 3])] /\
  session_from [1; 2; 3] [CBSpec.OIterMut (map S); CBSpec.OIter] = map Some [CBSpec.RUnit; RList [2; 3; 4]] /\
  session_from [1; 2; 3] [ODrain 4; CBSpec.OIsEmpty] = map Some [RList [1; 2; 3]; CBSpec.RBool true] /\
  session_from [1; 2; 3] [OFirst; OFirstMut S; CBSpec.OIter] = map Some [ROpt (Some 1); CBSpec.RBool true; RList [2; 2; 3]] /\
  session_from [1; 2; 3] [OLast; OLastMut S; CBSpec.OIter] = map Some [ROpt (Some 3); CBSpec.RBool true; RList [1; 2; 4]] /\
  session_from [1; 2; 3] [OPushBack 4; OPushBack 5; OLinearize] = map Some [CBSpec.RUnit; CBSpec.RUnit; RList [3; 4; 5]] /\
  session_from [1; 2; 3] [OSwap 0 1; CBSpec.OIter] = map Some [CBSpec.RUnit; RList [2; 1; 3]] /\
  session_from [1; 2; 3] [OReverse; CBSpec.OIter] = map Some [CBSpec.RUnit; RList [3; 2; 1]].
Proof. repeat split. Qed.

(** circular.rs:427-433 [append], 571-576 [slices], 602-611 [slices_mut] *)
Example cb_doc_two :
  match from_vec VE false [1; 2; 3], from_vec VE false [4; 5; 6; 7] with
  | Ret c1, Ret c2 =>
      let r := fst (fst (append VE (fun _ => false) (c1, c2))) in
      let c5 := fst (cb_run VE (fun _ => false) [OPushBack 4; OPushBack 5] c1) in
      let w := slices_mut_with (fun _ _ => ([4; 5], [6])) c5 in
      (iter (fst r), iter (snd r), slices c5, iter (fst (fst w)))
  | _, _ => (UB, UB, UB, UB)
  end = (Ret [5; 6; 7], Ret [], Ret ([3; 4], [5]), Ret [4; 5; 6]).
Proof. vm_compute. reflexivity. Qed.

(** ** src/counter/counter.rs *)

(** the characters of a string *)
Fixpoint chars (s : string) : list ascii :=
  match s with EmptyString => [] | String a s' => a :: chars s' end.

(** counter.rs:13-37, the example of the type *)
Example ct_doc :
  match ct_from_iter Ascii.eqb VE 8 (chars "Lorem ipsum dolor sit amet enim."),
        ct_from_iter Ascii.eqb VE 5 (chars "Etiam ullamcorper.") with
  | Ret c, Ret d =>
      (ct_get Ascii.eqb c "o"%char, ct_get Ascii.eqb (fst (ct_add_assign Ascii.eqb VE (ct_map d) c)) "o"%char,
       filter (fun e => 5 <=? snd e) (ct_map c))
  | _, _ => (None, None, [])
  end = (Some 3, Some 4, [(" "%char, 5)]).
Proof. vm_compute. reflexivity. Qed.

(** counter.rs:59-66 [new], 80-88 [with_capacity] *)
Example ct_doc_new : ct_len (ct_new nat) = 0 /\ omap (@ct_len nat) (ct_with_capacity nat VE 5) = Ret 0.
Proof. split; reflexivity. Qed.

(** counter.rs:128-143 [from_hashmap] *)
Example ct_doc_from_hashmap : ct_len (ct_from_hashmap [(3, 4); (5, 1)]) = 2.
Proof. reflexivity. Qed.

(** counter.rs:154-188 [into_most_common], [most_common]: whatever the hash
    order and the sort do, the first entry is ('a', 3) *)
Example ct_doc_most_common : forall r,
  (let c := fst (ct_extend Ascii.eqb VE 2 (chars "abcdaa") (ct_new ascii)) in
   ct_into_most_common VE c r \/ ct_most_common id VE c r) -> nth_error r 0 = Some ("a"%char, 3).
Proof.
  intros r H.
  assert (Hc : ct_map (fst (ct_extend Ascii.eqb VE 2 (chars "abcdaa") (ct_new ascii))) =
    [("d", 1); ("c", 1); ("b", 1); ("a", 3)]%char) by (vm_compute; reflexivity).
  assert (H' : sort_by_key_gives (ct_sort_key VE) [("d", 1); ("c", 1); ("b", 1); ("a", 3)]%char r).
  { rewrite <- Hc. destruct H as [(l & Hl & Hp & Hs)|(l & Hl & Hp & Hs)]; (split; [|exact Hs]).
    - eapply Permutation_trans; [exact Hl|exact Hp].
    - eapply Permutation_trans; [|exact Hp]. apply (Permutation_map (fun e => (id (fst e), snd e))) in Hl.
      eapply Permutation_trans; [|exact Hl]. rewrite Hc. apply Permutation_refl. }
  destruct H' as (Hp & Hs & _). destruct r as [|e r]; [now apply Permutation_sym, Permutation_nil in Hp|].
  assert (Hin : In e [("d", 1); ("c", 1); ("b", 1); ("a", 3)]%char) by (eapply Permutation_in; [apply Permutation_sym; exact Hp|now left]).
  assert (Ha : In ("a"%char, 3) (e :: r)) by (eapply Permutation_in; [exact Hp|cbn; tauto]).
  destruct Ha as [->|Ha]; [reflexivity|]. inversion Hs as [|? ? Hf _]; subst. rewrite Forall_forall in Hf.
  destruct (Hf _ Ha) as (x & y & Hx & Hy & Hxy). vm_compute in Hy. inversion Hy; subst y. clear Hy.
  repeat (destruct Hin as [<-|Hin]; [vm_compute in Hx; inversion Hx; subst x; try (apply Nat.leb_le in Hxy; discriminate Hxy); reflexivity|]).
  destruct Hin.
Qed.

(** counter.rs:207-217 [push] *)
Example ct_doc_push : ct_index Ascii.eqb
  (fst (ct_push Ascii.eqb VE "a"%char (fst (ct_push Ascii.eqb VE "a"%char (ct_new ascii))))) "a"%char = Ret 2.
Proof. reflexivity. Qed.

(** counter.rs tests [chars] and [ints] *)
Example ct_test_chars :
  match ct_from_iter Ascii.eqb VE 3 (chars "Lorem ipsum") with Ret c => ct_index Ascii.eqb c "m"%char | _ => UB end = Ret 2.
Proof. vm_compute. reflexivity. Qed.
Example ct_test_ints : match ct_from_iter_ref Nat.eqb id VE 9 [1; 2; 3; 1; 2; 3; 1; 2; 3] with
  | Ret c => let c' := fst (ct_extend_ref Nat.eqb VE 5 [1; 2; 3; 4; 5] c) in
      [Ret (ct_len c); ct_index Nat.eqb c 2; Ret (ct_len c'); ct_index Nat.eqb c' 1]
  | _ => []
  end = map Ret [3; 3; 5; 4].
Proof. vm_compute. reflexivity. Qed.

(** ** src/disjoint_set/disjoint_set.rs *)

(** the answers of a sequence of calls after [from_iter] over references *)
Definition ds_session (xs : list nat) (ops : list (DSSpec.op nat)) : list (outcome (DSSpec.out nat)) :=
  match ds_from_iter_ref Nat.eqb id VE (length xs) xs with
  | Ret s => snd (ds_run Nat.eqb VE ops s)
  | _ => []
  end.

(** disjoint_set.rs:68-104, the example of the type *)
Example ds_doc : ds_session [1; 2; 3; 4; 5; 6; 7]
  [OUnion 1 2; OUnion 1 8; OInUnion 2 8; OInUnion 3 4; OContains 7; OContains 10]
  = map Ret [RUnit; RUnit; RBool true; RBool false; RBool true; RBool false].
Proof. vm_compute. reflexivity. Qed.

(** disjoint_set.rs:382-399 [create], [contains] *)
Example ds_test_contains : ds_session [1; 2; 3] [OLen; OContains 1; OContains 2; OContains 3; OContains 4; OContains 0]
  = map Ret [RNat 3; RBool true; RBool true; RBool true; RBool false; RBool false].
Proof. vm_compute. reflexivity. Qed.

(** disjoint_set.rs:401-412 [make_set] *)
Example ds_test_make_set : snd (ds_run Nat.eqb VE
  [OMake 3; OMake 4; OContains 3; OContains 4; OContains 0; OMake 4; OContains 4] (ds_new nat))
  = map Ret [RUnit; RUnit; RBool true; RBool true; RBool false; RUnit; RBool true].
Proof. vm_compute. reflexivity. Qed.

(** disjoint_set.rs:416-434 [union] *)
Example ds_test_union : snd (ds_run Nat.eqb VE
  [OUnion 3 4; OUnion 5 6; OContains 3; OContains 4; OContains 5; OContains 6; OInUnion 3 4; OInUnion 5 6;
   OInUnion 4 5; OUnion 4 5; OInUnion 4 5; OInUnion 3 6] (ds_new nat))
  = map Ret [RUnit; RUnit; RBool true; RBool true; RBool true; RBool true; RBool true; RBool true;
     RBool false; RUnit; RBool true; RBool true].
Proof. vm_compute. reflexivity. Qed.

(** ** src/interval *)
Local Open Scope Z_scope.

(** the element type is [i32]: integers, overflow checked *)
Definition cz : Z -> Z -> comparison := Z.compare.
Definition zi := i32 true.
(** the interval a constructor gives; the empty one if it panics *)
Definition ok (o : outcome (interval Z)) : interval Z := match o with Ret i => i | _ => @iv_empty Z end.

(** bounds.rs:790-804 *)
Example bd_test_create_check_destroy :
  lval (lower_new 5 true) = 5 /\ lclosed (lower_new 5 true) = true /\ lower_into_tuple (lower_new 5 true) = (5, true) /\
  uval (upper_new 5 true) = 5 /\ uclosed (upper_new 5 true) = true /\ upper_into_tuple (upper_new 5 true) = (5, true).
Proof. repeat split. Qed.

(** bounds.rs:854-904 [test_add], [test_sub], [test_mul], [test_div] *)
Example bd_test_add :
  lower_add (int_add zi) (lower_new 6 false) 4 = Ret (lower_new 10 false) /\
  lower_add_assign (assign_of (int_add zi)) (lower_new 6 false) 3 = (lower_new 9 false, Ret tt) /\
  upper_add (int_add zi) (upper_new 6 false) 4 = Ret (upper_new 10 false) /\
  upper_add_assign (assign_of (int_add zi)) (upper_new 6 false) 3 = (upper_new 9 false, Ret tt).
Proof. repeat split. Qed.
Example bd_test_sub :
  lower_sub (int_sub zi) (lower_new 6 false) 2 = Ret (lower_new 4 false) /\
  lower_sub_assign (assign_of (int_sub zi)) (lower_new 6 false) 3 = (lower_new 3 false, Ret tt) /\
  upper_sub (int_sub zi) (upper_new 6 false) 2 = Ret (upper_new 4 false) /\
  upper_sub_assign (assign_of (int_sub zi)) (upper_new 6 false) 3 = (upper_new 3 false, Ret tt).
Proof. repeat split. Qed.
Example bd_test_mul :
  lower_mul (int_mul zi) (lower_new 6 false) 2 = Ret (lower_new 12 false) /\
  lower_mul_assign (assign_of (int_mul zi)) (lower_new 6 false) (-3) = (lower_new (-18) false, Ret tt) /\
  upper_mul (int_mul zi) (upper_new 6 false) 2 = Ret (upper_new 12 false) /\
  upper_mul_assign (assign_of (int_mul zi)) (upper_new 6 false) (-3) = (upper_new (-18) false, Ret tt).
Proof. repeat split. Qed.
Example bd_test_div :
  lower_div (int_div zi) (lower_new 6 false) 2 = Ret (lower_new 3 false) /\
  lower_div_assign (assign_of (int_div zi)) (lower_new 6 false) (-3) = (lower_new (-2) false, Ret tt) /\
  upper_div (int_div zi) (upper_new 6 false) 2 = Ret (upper_new 3 false) /\
  upper_div_assign (assign_of (int_div zi)) (upper_new 6 false) (-3) = (upper_new (-2) false, Ret tt).
Proof. repeat split. Qed.

(** bounds.rs:185-190, 207-210, 225-228, 247-252, 527-530, 545-550, 567-572: examples
    of the constructors and accessors of bounds *)
Example bd_doc_accessors :
  (lclosed (lower_new 5 true), lval (lower_new 5 true), lower_into_tuple (lower_new 5 true)) = (true, 5, (5, true)) /\
  (uclosed (upper_new 5 true), uval (upper_new 5 true), upper_into_tuple (upper_new 5 true)) = (true, 5, (5, true)).
Proof. repeat split. Qed.

(** bounds.rs:125-147, 161-168, 464-486, 500-507: examples of the bound types
    and of [is_separated_from] *)
Example bd_doc :
  lclosed (lower_new 5 true) = true /\ lower_lt cz (lower_new 5 true) (lower_new 5 false) = true /\
  lower_add_assign (assign_of (int_add zi)) (lower_new 5 true) 3 = (lower_new 8 true, Ret tt) /\
  map (fun v => lower_is_separated_from cz (lower_new 5 true) (upper_new v true)) [3; 5; 7] = [true; false; false] /\
  upper_gt cz (upper_new 5 true) (upper_new 5 false) = true /\
  upper_add_assign (assign_of (int_add zi)) (upper_new 5 true) 3 = (upper_new 8 true, Ret tt) /\
  map (fun v => upper_is_separated_from cz (upper_new 5 true) (lower_new v true)) [7; 5; 3] = [true; false; false].
Proof. repeat split. Qed.

(** interval.rs:824-890: the constructors *)
Example iv_test_create :
  iv_is_lower_closed (@iv_empty Z) = None /\ iv_is_upper_closed (@iv_empty Z) = None /\ iv_lower (@iv_empty Z) = None /\
  iv_upper (@iv_empty Z) = None /\ iv_is_empty (@iv_empty Z) = true /\
  iv_into_tuple (iv_single 5) = Some (5, true, 5, true) /\ iv_is_empty (iv_single 5) = false /\
  omap (@iv_into_tuple Z) (iv_closed cz 3 5) = Ret (Some (3, true, 5, true)) /\ iv_closed cz 5 4 = Panic /\
  omap (@iv_into_tuple Z) (iv_lower_closed cz 3 5) = Ret (Some (3, true, 5, false)) /\ iv_lower_closed cz 5 5 = Panic /\
  omap (@iv_into_tuple Z) (iv_upper_closed cz 3 5) = Ret (Some (3, false, 5, true)) /\ iv_upper_closed cz 5 5 = Panic.
Proof. repeat split. Qed.

(** interval.rs:934-940 [test_into_merged] *)
Example iv_test_into_merged :
  iv_into_merged cz (ok (iv_closed cz 3 4)) (ok (iv_closed cz 4 5)) = Ret (inl (ok (iv_closed cz 3 5))) /\
  iv_into_merged cz (ok (iv_open cz 3 4)) (ok (iv_closed cz 4 5)) = Ret (inl (ok (iv_upper_closed cz 3 5))) /\
  iv_into_merged cz (ok (iv_closed cz 3 4)) (ok (iv_open cz 4 5)) = Ret (inl (ok (iv_lower_closed cz 3 5))) /\
  iv_into_merged cz (ok (iv_open cz 3 4)) (ok (iv_open cz 4 5)) = Ret (inr (ok (iv_open cz 3 4), ok (iv_open cz 4 5))).
Proof. repeat split. Qed.

(** interval.rs:942-956 [test_merge] *)
Example iv_test_merge :
  iv_merge cz (@iv_empty Z) (ok (iv_open cz 3 5)) = (ok (iv_open cz 3 5), inl tt) /\
  iv_merge cz (ok (iv_open cz 3 5)) (ok (iv_closed cz 5 8)) = (ok (iv_upper_closed cz 3 8), inl tt) /\
  iv_merge cz (ok (iv_upper_closed cz 3 8)) (ok (iv_closed cz 1 2)) = (ok (iv_upper_closed cz 3 8), inr (ok (iv_closed cz 1 2))) /\
  iv_merge cz (ok (iv_upper_closed cz 3 8)) (@iv_empty Z) = (ok (iv_upper_closed cz 3 8), inl tt).
Proof. repeat split. Qed.

(** interval.rs:958-984 [test_span], [test_into_span] *)
Example iv_test_span :
  iv_span cz (@iv_empty Z) (ok (iv_open cz 3 5)) = Ret (ok (iv_open cz 3 5)) /\
  iv_span cz (ok (iv_open cz 3 5)) (@iv_empty Z) = Ret (ok (iv_open cz 3 5)) /\
  iv_span cz (ok (iv_open cz 3 5)) (ok (iv_closed cz 3 5)) = Ret (ok (iv_closed cz 3 5)) /\
  iv_span cz (ok (iv_closed cz 3 5)) (ok (iv_closed cz 7 9)) = Ret (ok (iv_closed cz 3 9)) /\
  iv_into_span cz (@iv_empty Z) (ok (iv_open cz 3 5)) = Ret (ok (iv_open cz 3 5)) /\
  iv_into_span cz (ok (iv_open cz 3 5)) (ok (iv_open cz 3 5)) = Ret (ok (iv_open cz 3 5)) /\
  iv_into_span cz (ok (iv_open cz 3 5)) (ok (iv_closed cz 3 5)) = Ret (ok (iv_closed cz 3 5)) /\
  iv_into_span cz (ok (iv_closed cz 3 5)) (ok (iv_closed cz 7 9)) = Ret (ok (iv_closed cz 3 9)).
Proof. repeat split. Qed.

(** interval.rs:986-1009 [test_intersection], [test_into_intersection] *)
Example iv_test_intersection :
  iv_intersection cz (ok (iv_open cz 3 9)) (ok (iv_closed cz 1 8)) = Ret (ok (iv_upper_closed cz 3 8)) /\
  iv_intersection cz (ok (iv_upper_closed cz 3 8)) (ok (iv_lower_closed cz 4 7)) = Ret (ok (iv_lower_closed cz 4 7)) /\
  iv_intersection cz (ok (iv_lower_closed cz 4 7)) (ok (iv_lower_closed cz 4 7)) = Ret (ok (iv_lower_closed cz 4 7)) /\
  iv_intersection cz (ok (iv_lower_closed cz 4 7)) (@iv_empty Z) = Ret (@iv_empty Z) /\
  iv_into_intersection cz (ok (iv_open cz 3 9)) (ok (iv_closed cz 1 8)) = Ret (ok (iv_upper_closed cz 3 8)) /\
  iv_into_intersection cz (ok (iv_upper_closed cz 3 8)) (ok (iv_lower_closed cz 4 7)) = Ret (ok (iv_lower_closed cz 4 7)) /\
  iv_into_intersection cz (ok (iv_lower_closed cz 4 7)) (ok (iv_lower_closed cz 4 7)) = Ret (ok (iv_lower_closed cz 4 7)) /\
  iv_into_intersection cz (ok (iv_lower_closed cz 4 7)) (@iv_empty Z) = Ret (@iv_empty Z).
Proof. repeat split. Qed.

(** interval.rs:27-71, the example of the type *)
Example iv_doc :
  iv_contains_val cz (ok (iv_open cz 1 3)) 2 = true /\
  iv_contains_interval cz (ok (iv_open cz 1 3)) (ok (iv_closed cz 2 7)) = false /\
  iv_merge cz (ok (iv_open cz 1 3)) (ok (iv_closed cz 2 7)) = (ok (iv_upper_closed cz 1 7), inl tt) /\
  iv_intersection cz (ok (iv_upper_closed cz 1 7)) (ok (iv_open cz 0 4)) = Ret (ok (iv_open cz 1 4)) /\
  iv_span cz (ok (iv_open cz 1 4)) (ok (iv_open cz 7 8)) = Ret (ok (iv_open cz 1 8)) /\
  iv_lt cz (ok (iv_open cz 1 3)) (ok (iv_closed cz 3 5)) = true /\
  iv_le cz (ok (iv_closed cz 1 3)) (ok (iv_closed cz 3 5)) = true /\
  iv_eq cz (ok (iv_open cz 1 3)) (ok (iv_open cz 1 3)) = true /\
  iv_add_assign cz (assign_of (int_add zi)) (ok (iv_open cz 1 3)) 1 = (ok (iv_open cz 2 4), Ret tt) /\
  iv_mul cz (int_mul zi) (ok (iv_open cz 2 4)) 2 = Ret (ok (iv_open cz 4 8)).
Proof. repeat split. Qed.

(** interval.rs:90-93, 110-115, 160-163, 181-187, 200-206, 219-225, 238-244, 258-261:
    examples of the constructors; 799-803: of [Display] *)
Example iv_doc_constructors :
  iv_new cz 3 false 5 true = iv_upper_closed cz 3 5 /\
  iv_from_bounds cz (lower_new 3 false) (upper_new 5 true) = iv_upper_closed cz 3 5 /\
  Ret (iv_single 3) = iv_closed cz 3 3 /\
  map (fun i => (option_map lval (iv_lower (ok i)), option_map lclosed (iv_lower (ok i)),
                 option_map uval (iv_upper (ok i)), option_map uclosed (iv_upper (ok i))))
      [iv_open cz 3 5; iv_closed cz 3 5; iv_lower_closed cz 3 5; iv_upper_closed cz 3 5]
    = [(Some 3, Some false, Some 5, Some false); (Some 3, Some true, Some 5, Some true);
       (Some 3, Some true, Some 5, Some false); (Some 3, Some false, Some 5, Some true)] /\
  iv_is_empty (@iv_empty Z) = true /\
  iv_display (fun z => if Z.eqb z 2 then "2" else if Z.eqb z 3 then "3" else "")%string (ok (iv_lower_closed cz 2 3)) = "[2,3)"%string.
Proof. repeat split. Qed.

(** interval.rs:277-797: examples of the methods *)
Example iv_doc_methods :
  omap (@iv_into_tuple Z) (iv_open cz 3 5) = Ret (Some (3, false, 5, false)) /\
  iv_upper (ok (iv_open cz 3 5)) = Some (upper_new 5 false) /\
  iv_bounds (ok (iv_open cz 3 5)) = Some (lower_new 3 false, upper_new 5 false) /\
  iv_is_single cz (ok (iv_closed cz 5 5)) = true /\
  iv_is_upper_closed (ok (iv_closed cz 3 5)) = Some true /\
  iv_contains_val cz (ok (iv_closed cz 3 5)) 4 = true /\
  iv_contains_interval cz (ok (iv_closed cz 3 7)) (ok (iv_closed cz 4 6)) = true /\
  iv_can_be_merged cz (ok (iv_closed cz 2 4)) (ok (iv_closed cz 4 6)) = true /\
  iv_into_merged cz (ok (iv_closed cz 2 4)) (ok (iv_closed cz 4 6)) = Ret (inl (ok (iv_closed cz 2 6))) /\
  iv_intersects cz (ok (iv_closed cz 2 4)) (ok (iv_closed cz 4 6)) = true /\
  iv_into_intersection cz (ok (iv_closed cz 2 5)) (ok (iv_closed cz 3 6)) = Ret (ok (iv_closed cz 3 5)) /\
  iv_into_span cz (ok (iv_closed cz 2 3)) (ok (iv_closed cz 5 6)) = Ret (ok (iv_closed cz 2 6)).
Proof. repeat split. Qed.

(** interval_math.rs:135-177 [test_add], [test_sub], [test_mul], [test_div] *)
Example im_tests : let i := ok (iv_lower_closed cz 3 6) in
  iv_add cz (int_add zi) i 3 = Ret (ok (iv_lower_closed cz 6 9)) /\
  iv_add_assign cz (assign_of (int_add zi)) i 3 = (ok (iv_lower_closed cz 6 9), Ret tt) /\
  iv_sub cz (int_sub zi) i 3 = Ret (ok (iv_lower_closed cz 0 3)) /\
  iv_sub_assign cz (assign_of (int_sub zi)) i 3 = (ok (iv_lower_closed cz 0 3), Ret tt) /\
  iv_mul cz (int_mul zi) i 3 = Ret (ok (iv_lower_closed cz 9 18)) /\
  iv_mul cz (int_mul zi) i (-1) = Ret (ok (iv_upper_closed cz (-6) (-3))) /\
  iv_mul_assign cz (assign_of (int_mul zi)) i (-3) = (ok (iv_upper_closed cz (-18) (-9)), Ret tt) /\
  iv_div cz (int_div zi) i 3 = Ret (ok (iv_lower_closed cz 1 2)) /\
  iv_div cz (int_div zi) i (-1) = Ret (ok (iv_upper_closed cz (-6) (-3))) /\
  iv_div_assign cz (assign_of (int_div zi)) i (-3) = (ok (iv_upper_closed cz (-2) (-1)), Ret tt) /\
  iv_div cz (int_div zi) (ok (iv_open cz 2 3)) 2 = Ret (@iv_empty Z) /\
  iv_div_assign cz (assign_of (int_div zi)) (ok (iv_open cz 2 3)) 2 = (@iv_empty Z, Ret tt).
Proof. repeat split. Qed.

(** bounds.rs: [test_is_separated_from] *)
Example bd_test_is_separated_from : forallb id [
  upper_is_separated_from cz (upper_new 5 true) (lower_new 6 false);
  upper_is_separated_from cz (upper_new 5 true) (lower_new 6 true);
  negb (upper_is_separated_from cz (upper_new 5 true) (lower_new 5 false));
  negb (upper_is_separated_from cz (upper_new 5 true) (lower_new 5 true))] = true.
Proof. reflexivity. Qed.

(** bounds.rs: [test_lower_cmp] *)
Example bd_test_lower_cmp : forallb id [
  lower_lt cz (lower_new 5 true) (lower_new 6 true);
  lower_lt cz (lower_new 5 true) (lower_new 5 false);
  lower_eq cz (lower_new 5 true) (lower_new 5 true);
  lower_eq cz (lower_new 5 false) (lower_new 5 false);
  lower_gt cz (lower_new 5 false) (lower_new 5 true);
  lower_gt cz (lower_new 5 false) (lower_new 4 false)] = true.
Proof. reflexivity. Qed.

(** bounds.rs: [test_upper_cmp] *)
Example bd_test_upper_cmp : forallb id [
  upper_lt cz (upper_new 5 false) (upper_new 6 false);
  upper_lt cz (upper_new 5 false) (upper_new 5 true);
  upper_eq cz (upper_new 5 true) (upper_new 5 true);
  upper_eq cz (upper_new 5 false) (upper_new 5 false);
  upper_gt cz (upper_new 5 true) (upper_new 5 false);
  upper_gt cz (upper_new 5 true) (upper_new 4 true)] = true.
Proof. reflexivity. Qed.

(** bounds.rs: [test_lower_upper_cmp] *)
Example bd_test_lower_upper_cmp : forallb id [
  lu_lt cz (lower_new 5 true) (upper_new 6 true);
  lu_lt cz (lower_new 5 true) (upper_new 5 false);
  negb (lu_eq (lower_new 5 true) (upper_new 5 true));
  negb (lu_eq (lower_new 5 false) (upper_new 5 false));
  lu_gt cz (lower_new 5 false) (upper_new 5 true);
  lu_gt cz (lower_new 5 false) (upper_new 4 false)] = true.
Proof. reflexivity. Qed.

(** bounds.rs: [test_upper_lower_cmp] *)
Example bd_test_upper_lower_cmp : forallb id [
  ul_lt cz (upper_new 5 false) (lower_new 6 false);
  ul_lt cz (upper_new 5 false) (lower_new 5 true);
  negb (ul_eq (upper_new 5 true) (lower_new 5 true));
  negb (ul_eq (upper_new 5 false) (lower_new 5 false));
  ul_gt cz (upper_new 5 true) (lower_new 5 false);
  ul_gt cz (upper_new 5 true) (lower_new 4 true)] = true.
Proof. reflexivity. Qed.

(** bounds.rs: [test_lower_val_cmp] *)
Example bd_test_lower_val_cmp : forallb id [
  negb (lv_eq cz (lower_new 5 false) (5));
  lv_gt cz (lower_new 5 false) (4);
  lv_gt cz (lower_new 5 false) (5);
  negb (lv_gt cz (lower_new 5 false) (6));
  lv_ge cz (lower_new 5 false) (4);
  lv_ge cz (lower_new 5 false) (5);
  negb (lv_ge cz (lower_new 5 false) (6));
  negb (lv_lt cz (lower_new 5 false) (4));
  negb (lv_lt cz (lower_new 5 false) (5));
  lv_lt cz (lower_new 5 false) (6);
  negb (lv_le cz (lower_new 5 false) (4));
  negb (lv_le cz (lower_new 5 false) (5));
  lv_le cz (lower_new 5 false) (6);
  lv_eq cz (lower_new 5 true) (5);
  lv_gt cz (lower_new 5 true) (4);
  negb (lv_gt cz (lower_new 5 true) (5));
  negb (lv_gt cz (lower_new 5 true) (6));
  lv_ge cz (lower_new 5 true) (4);
  lv_ge cz (lower_new 5 true) (5);
  negb (lv_ge cz (lower_new 5 true) (6));
  negb (lv_lt cz (lower_new 5 true) (4));
  negb (lv_lt cz (lower_new 5 true) (5));
  lv_lt cz (lower_new 5 true) (6);
  negb (lv_le cz (lower_new 5 true) (4));
  lv_le cz (lower_new 5 true) (5);
  lv_le cz (lower_new 5 true) (6)] = true.
Proof. reflexivity. Qed.

(** bounds.rs: [test_upper_val_cmp] *)
Example bd_test_upper_val_cmp : forallb id [
  negb (uv_eq cz (upper_new 5 false) (5));
  uv_gt cz (upper_new 5 false) (4);
  negb (uv_gt cz (upper_new 5 false) (5));
  negb (uv_gt cz (upper_new 5 false) (6));
  uv_ge cz (upper_new 5 false) (4);
  negb (uv_ge cz (upper_new 5 false) (5));
  negb (uv_ge cz (upper_new 5 false) (6));
  negb (uv_lt cz (upper_new 5 false) (4));
  uv_lt cz (upper_new 5 false) (5);
  uv_lt cz (upper_new 5 false) (6);
  negb (uv_le cz (upper_new 5 false) (4));
  uv_le cz (upper_new 5 false) (5);
  uv_le cz (upper_new 5 false) (6);
  lv_eq cz (lower_new 5 true) (5);
  lv_gt cz (lower_new 5 true) (4);
  negb (lv_gt cz (lower_new 5 true) (5));
  negb (lv_gt cz (lower_new 5 true) (6));
  lv_ge cz (lower_new 5 true) (4);
  lv_ge cz (lower_new 5 true) (5);
  negb (lv_ge cz (lower_new 5 true) (6));
  negb (lv_lt cz (lower_new 5 true) (4));
  negb (lv_lt cz (lower_new 5 true) (5));
  lv_lt cz (lower_new 5 true) (6);
  negb (lv_le cz (lower_new 5 true) (4));
  lv_le cz (lower_new 5 true) (5);
  lv_le cz (lower_new 5 true) (6)] = true.
Proof. reflexivity. Qed.

(** interval.rs: [test_contains_val] *)
Example iv_test_contains_val : forallb id [
  negb (iv_contains_val cz (ok (iv_lower_closed cz (4) (6))) (3));
  iv_contains_val cz (ok (iv_lower_closed cz (4) (6))) (4);
  iv_contains_val cz (ok (iv_lower_closed cz (4) (6))) (5);
  negb (iv_contains_val cz (ok (iv_lower_closed cz (4) (6))) (6));
  negb (iv_contains_val cz (ok (iv_lower_closed cz (4) (6))) (7))] = true.
Proof. reflexivity. Qed.

(** interval.rs: [test_contains_interval] *)
Example iv_test_contains_interval : forallb id [
  iv_contains_interval cz (ok (iv_lower_closed cz (4) (8))) (ok (iv_open cz (6) (7)));
  iv_contains_interval cz (ok (iv_lower_closed cz (4) (8))) (ok (iv_open cz (4) (8)));
  negb (iv_contains_interval cz (ok (iv_lower_closed cz (4) (8))) (ok (iv_open cz (3) (7))));
  negb (iv_contains_interval cz (ok (iv_lower_closed cz (4) (8))) (ok (iv_open cz (6) (9))));
  negb (iv_contains_interval cz (ok (iv_lower_closed cz (4) (8))) (ok (iv_open cz (3) (9))));
  negb (iv_contains_interval cz (ok (iv_lower_closed cz (4) (8))) (ok (iv_closed cz (4) (8))));
  iv_contains_interval cz (ok (iv_lower_closed cz (4) (8))) (ok (iv_lower_closed cz (4) (8)));
  iv_contains_interval cz (ok (iv_lower_closed cz (4) (8))) (@iv_empty Z);
  iv_contains_interval cz (@iv_empty Z) (@iv_empty Z);
  negb (iv_contains_interval cz (@iv_empty Z) (ok (iv_open cz (3) (7))))] = true.
Proof. reflexivity. Qed.

(** interval.rs: [test_can_be_merged] *)
Example iv_test_can_be_merged : forallb id [
  iv_can_be_merged cz (ok (iv_open cz (4) (7))) (ok (iv_open cz (5) (9)));
  iv_can_be_merged cz (ok (iv_open cz (4) (7))) (ok (iv_closed cz (7) (9)));
  iv_can_be_merged cz (ok (iv_closed cz (4) (7))) (ok (iv_open cz (7) (9)));
  negb (iv_can_be_merged cz (ok (iv_open cz (4) (7))) (ok (iv_open cz (7) (9))));
  negb (iv_can_be_merged cz (ok (iv_open cz (4) (7))) (ok (iv_open cz (8) (9))));
  iv_can_be_merged cz (ok (iv_open cz (4) (7))) (ok (iv_open cz (2) (6)));
  iv_can_be_merged cz (ok (iv_open cz (4) (7))) (ok (iv_closed cz (2) (4)));
  iv_can_be_merged cz (ok (iv_closed cz (4) (7))) (ok (iv_open cz (2) (4)));
  negb (iv_can_be_merged cz (ok (iv_open cz (4) (7))) (ok (iv_open cz (2) (4))));
  negb (iv_can_be_merged cz (ok (iv_open cz (4) (7))) (ok (iv_open cz (2) (3))))] = true.
Proof. reflexivity. Qed.

(** interval_cmp.rs: [test_eq] *)
Example ic_test_eq : forallb id [
  ivv_eq cz (iv_single (5)) (5);
  negb (ivv_eq cz (iv_single (5)) (4));
  negb (ivv_eq cz (ok (iv_closed cz (4) (6))) (4));
  negb (ivv_eq cz (ok (iv_closed cz (4) (6))) (5));
  negb (ivv_eq cz (ok (iv_closed cz (4) (6))) (6))] = true.
Proof. reflexivity. Qed.

(** interval_cmp.rs: [test_val_cmp_ne] *)
Example ic_test_val_cmp_ne : forallb id [
  ivv_gt cz (ok (iv_open cz (3) (5))) (2);
  ivv_gt cz (ok (iv_open cz (3) (5))) (3);
  negb (ivv_gt cz (ok (iv_open cz (3) (5))) (4));
  ivv_lt cz (ok (iv_open cz (3) (5))) (6);
  ivv_lt cz (ok (iv_open cz (3) (5))) (5);
  negb (ivv_lt cz (ok (iv_open cz (3) (5))) (4));
  ivv_gt cz (ok (iv_closed cz (3) (5))) (2);
  negb (ivv_gt cz (ok (iv_closed cz (3) (5))) (3));
  negb (ivv_gt cz (ok (iv_closed cz (3) (5))) (4));
  ivv_lt cz (ok (iv_closed cz (3) (5))) (6);
  negb (ivv_lt cz (ok (iv_closed cz (3) (5))) (5));
  negb (ivv_lt cz (ok (iv_closed cz (3) (5))) (4))] = true.
Proof. reflexivity. Qed.

(** interval_cmp.rs: [test_val_cmp_eq] *)
Example ic_test_val_cmp_eq : forallb id [
  ivv_ge cz (ok (iv_open cz (3) (5))) (2);
  ivv_ge cz (ok (iv_open cz (3) (5))) (3);
  negb (ivv_ge cz (ok (iv_open cz (3) (5))) (4));
  ivv_le cz (ok (iv_open cz (3) (5))) (6);
  ivv_le cz (ok (iv_open cz (3) (5))) (5);
  negb (ivv_le cz (ok (iv_open cz (3) (5))) (4));
  ivv_ge cz (ok (iv_closed cz (3) (5))) (2);
  ivv_ge cz (ok (iv_closed cz (3) (5))) (3);
  negb (ivv_ge cz (ok (iv_closed cz (3) (5))) (4));
  ivv_le cz (ok (iv_closed cz (3) (5))) (6);
  ivv_le cz (ok (iv_closed cz (3) (5))) (5);
  negb (ivv_le cz (ok (iv_closed cz (3) (5))) (4))] = true.
Proof. reflexivity. Qed.

(** interval_cmp.rs: [test_intv_cmp_nq] *)
Example ic_test_intv_cmp_nq : forallb id [
  iv_gt cz (ok (iv_open cz (3) (5))) (ok (iv_open cz (1) (2)));
  iv_gt cz (ok (iv_open cz (3) (5))) (ok (iv_open cz (1) (3)));
  negb (iv_gt cz (ok (iv_open cz (3) (5))) (ok (iv_open cz (1) (4))));
  iv_gt cz (ok (iv_closed cz (3) (5))) (ok (iv_open cz (1) (2)));
  iv_gt cz (ok (iv_closed cz (3) (5))) (ok (iv_open cz (1) (3)));
  negb (iv_gt cz (ok (iv_closed cz (3) (5))) (ok (iv_open cz (1) (4))));
  iv_gt cz (ok (iv_open cz (3) (5))) (ok (iv_closed cz (1) (2)));
  iv_gt cz (ok (iv_open cz (3) (5))) (ok (iv_closed cz (1) (3)));
  negb (iv_gt cz (ok (iv_open cz (3) (5))) (ok (iv_closed cz (1) (4))));
  iv_gt cz (ok (iv_closed cz (3) (5))) (ok (iv_closed cz (1) (2)));
  negb (iv_gt cz (ok (iv_closed cz (3) (5))) (ok (iv_closed cz (1) (3))));
  negb (iv_gt cz (ok (iv_closed cz (3) (5))) (ok (iv_closed cz (1) (4))));
  iv_lt cz (ok (iv_open cz (3) (5))) (ok (iv_open cz (6) (7)));
  iv_lt cz (ok (iv_open cz (3) (5))) (ok (iv_open cz (5) (7)));
  negb (iv_lt cz (ok (iv_open cz (3) (5))) (ok (iv_open cz (4) (7))));
  iv_lt cz (ok (iv_closed cz (3) (5))) (ok (iv_open cz (6) (7)));
  iv_lt cz (ok (iv_closed cz (3) (5))) (ok (iv_open cz (5) (7)));
  negb (iv_lt cz (ok (iv_closed cz (3) (5))) (ok (iv_open cz (4) (7))));
  iv_lt cz (ok (iv_open cz (3) (5))) (ok (iv_closed cz (6) (7)));
  iv_lt cz (ok (iv_open cz (3) (5))) (ok (iv_closed cz (5) (7)));
  negb (iv_lt cz (ok (iv_open cz (3) (5))) (ok (iv_closed cz (4) (7))));
  iv_lt cz (ok (iv_closed cz (3) (5))) (ok (iv_closed cz (6) (7)));
  negb (iv_lt cz (ok (iv_closed cz (3) (5))) (ok (iv_closed cz (5) (7))));
  negb (iv_lt cz (ok (iv_closed cz (3) (5))) (ok (iv_closed cz (4) (7))))] = true.
Proof. reflexivity. Qed.

(** interval_cmp.rs: [test_intv_cmp_eq] *)
Example ic_test_intv_cmp_eq : forallb id [
  iv_ge cz (ok (iv_open cz (3) (5))) (ok (iv_open cz (1) (2)));
  iv_ge cz (ok (iv_open cz (3) (5))) (ok (iv_open cz (1) (3)));
  negb (iv_ge cz (ok (iv_open cz (3) (5))) (ok (iv_open cz (1) (4))));
  iv_ge cz (ok (iv_closed cz (3) (5))) (ok (iv_open cz (1) (2)));
  iv_ge cz (ok (iv_closed cz (3) (5))) (ok (iv_open cz (1) (3)));
  negb (iv_ge cz (ok (iv_closed cz (3) (5))) (ok (iv_open cz (1) (4))));
  iv_ge cz (ok (iv_open cz (3) (5))) (ok (iv_closed cz (1) (2)));
  iv_ge cz (ok (iv_open cz (3) (5))) (ok (iv_closed cz (1) (3)));
  negb (iv_ge cz (ok (iv_open cz (3) (5))) (ok (iv_closed cz (1) (4))));
  iv_ge cz (ok (iv_closed cz (3) (5))) (ok (iv_closed cz (1) (2)));
  negb (negb (iv_ge cz (ok (iv_closed cz (3) (5))) (ok (iv_closed cz (1) (3)))));
  negb (iv_ge cz (ok (iv_closed cz (3) (5))) (ok (iv_closed cz (1) (4))));
  iv_le cz (ok (iv_open cz (3) (5))) (ok (iv_open cz (6) (7)));
  iv_le cz (ok (iv_open cz (3) (5))) (ok (iv_open cz (5) (7)));
  negb (iv_le cz (ok (iv_open cz (3) (5))) (ok (iv_open cz (4) (7))));
  iv_le cz (ok (iv_closed cz (3) (5))) (ok (iv_open cz (6) (7)));
  iv_le cz (ok (iv_closed cz (3) (5))) (ok (iv_open cz (5) (7)));
  negb (iv_le cz (ok (iv_closed cz (3) (5))) (ok (iv_open cz (4) (7))));
  iv_le cz (ok (iv_open cz (3) (5))) (ok (iv_closed cz (6) (7)));
  iv_le cz (ok (iv_open cz (3) (5))) (ok (iv_closed cz (5) (7)));
  negb (iv_le cz (ok (iv_open cz (3) (5))) (ok (iv_closed cz (4) (7))));
  iv_le cz (ok (iv_closed cz (3) (5))) (ok (iv_closed cz (6) (7)));
  iv_le cz (ok (iv_closed cz (3) (5))) (ok (iv_closed cz (5) (7)));
  negb (iv_le cz (ok (iv_closed cz (3) (5))) (ok (iv_closed cz (4) (7))))] = true.
Proof. reflexivity. Qed.
