(** Properties C67-C69 and C110-C111: deques. Theorems only; each is an instance of a lemma
    proved elsewhere and is followed by its assumptions and by a concrete case.
    [len q] is the true number of elements, [size q] what size() returns. *)
From Coq Require Import String Ascii ZArith List Bool Lia.
From Verif Require Import Outcome Show ListModel ListSpec ListFacts ListMore DequeModel DequeSpec DequeFacts ExTools.
Import ListNotations.
Open Scope Z_scope.

(** Running a program on the code and on abstract sequences gives the same deques, results, text and exceptions. *)
Theorem C67_histories : forall (T : Type) (eqb : T -> T -> bool) (show : T -> list ascii), decides eqb ->
  forall prog s, dsized s -> Forall dint_stmt prog -> forall s' ev,
  drun eqb show prog s = Ok (s', ev) <-> qrun show prog s s' ev.
Proof. exact @drun_exact. Qed.
Print Assumptions C67_histories.

(** A program either has an abstract run, whose deques again have at most INT_MAX elements, or reaches undefined behaviour. *)
Theorem C67_otherwise_undefined : forall (T : Type) (eqb : T -> T -> bool) (show : T -> list ascii), decides eqb ->
  forall prog s, dsized s -> Forall dint_stmt prog ->
  (exists s' ev, qrun show prog s s' ev /\ dsized s') \/ (exists u, drun eqb show prog s = UB u).
Proof. exact @drun_defined. Qed.
Print Assumptions C67_otherwise_undefined.

(** The undefined cases: moving or extending a deque from itself, and >>= INT_MIN. *)
Theorem C67_undefined_only : forall (T : Type) (eqb : T -> T -> bool) (show : T -> list ascii) c (s : dstore T) u, decides eqb -> dsized s -> dint_stmt c ->
  dstep eqb show c s = UB u ->
  (exists v, c = DMove v v) \/ (exists v, c = DExtendBack v v) \/ (exists v, c = DExtendFront v v) \/ (exists v, c = DShr v INT_MIN).
Proof. exact @dstep_ub. Qed.
Print Assumptions C67_undefined_only.

Theorem C67_empty : forall (T : Type) (x : T),
  deq_back (@nil T) = Throw ContainerEmpty /\ deq_front (@nil T) = Throw ContainerEmpty /\
  deq_pop_back (@nil T) = (Throw ContainerEmpty, []) /\ deq_pop_front (@nil T) = (Throw ContainerEmpty, []) /\
  deq_set_back x [] = (Throw ContainerEmpty, []) /\ deq_set_front x [] = (Throw ContainerEmpty, []).
Proof. exact deq_empty. Qed.
Print Assumptions C67_empty.

Example C67_case : decides Z.eqb /\ dsized (fun _ : nat => @nil Z) /\ exists s',
  drun Z.eqb show_int
    [DInit 1%nat [3; 1; 2]; DPushFront 1%nat 9; DPopBack 1%nat; DCopy 2%nat 1%nat; DShr 2%nat 1; DPrint 2%nat; DExtendFront 2%nat 1%nat;
     DReverse 2%nat; DPrint 2%nat; DGet 2%nat (-6); DGet 2%nat 6; DEqual 1%nat 2%nat; DClear 1%nat; DPopFront 1%nat; DIsEmpty 1%nat; DSize 2%nat]
    (fun _ => []) = Ok (s', [DElem 2; DText (chars "<1, 9, 3>"); DText (chars "<3, 9, 1, 1, 3, 9>"); DElem 3; DThrow IndexOutOfRange;
                             DBool false; DThrow ContainerEmpty; DBool true; DNum 6]).
Proof.
  split; [intros x y; apply Z.eqb_eq|]. split; [intros v; cbn; unfold INT_MAX; lia|]. eexists. vm_compute. reflexivity.
Qed.

(** Pushing at the back and popping at the front: what came out followed by what is left is what was there followed by what was pushed. *)
Theorem C68_queue : forall (T : Type) (eqb : T -> T -> bool) (show : T -> list ascii) v ops s, len (s v) + len (pushed ops) <= INT_MAX ->
  exists s' ev, drun eqb show (as_prog (DPushBack v) (DPopFront v) ops) s = Ok (s', ev) /\
    elems ev ++ s' v = s v ++ pushed ops.
Proof. exact @fifo. Qed.
Print Assumptions C68_queue.

Theorem C68_queue_other_way : forall (T : Type) (eqb : T -> T -> bool) (show : T -> list ascii) v ops s, len (s v) + len (pushed ops) <= INT_MAX ->
  exists s' ev, drun eqb show (as_prog (DPushFront v) (DPopBack v) ops) s = Ok (s', ev) /\
    elems ev ++ rev (s' v) = rev (s v) ++ pushed ops.
Proof. exact @fifo_reverse. Qed.
Print Assumptions C68_queue_other_way.

(** Pushing and popping at the back: the deque is a stack whose top is the back. *)
Theorem C68_stack : forall (T : Type) (eqb : T -> T -> bool) (show : T -> list ascii) v ops s, len (s v) + len (pushed ops) <= INT_MAX ->
  exists s' ev, drun eqb show (as_prog (DPushBack v) (DPopBack v) ops) s = Ok (s', ev) /\
    (elems ev, rev (s' v)) = stack ops (rev (s v)).
Proof. exact @lifo. Qed.
Print Assumptions C68_stack.

Example C68_case : let ops := [Push 1; Push 2; Pop; Push 3; Pop; Pop; Pop] in pushed ops = [1; 2; 3] /\ stack ops [] = ([2; 3; 1], []) /\
  (exists s', drun Z.eqb show_int (as_prog (DPushBack 0%nat) (DPopFront 0%nat) ops) (fun _ => []) =
     Ok (s', [DElem 1; DElem 2; DElem 3; DThrow ContainerEmpty])) /\
  (exists s', drun Z.eqb show_int (as_prog (DPushBack 0%nat) (DPopBack 0%nat) ops) (fun _ => []) =
     Ok (s', [DElem 2; DElem 3; DElem 1; DThrow ContainerEmpty])).
Proof. cbv zeta. split; [reflexivity|]. split; [reflexivity|]. split; eexists; vm_compute; reflexivity. Qed.

Theorem C69_left : forall (T : Type) (q : list T) n, len q <= INT_MAX -> exists r, deq_shl n q = (Ok tt, r) /\ rotated q r n.
Proof. exact deq_left. Qed.
Print Assumptions C69_left.

Theorem C69_right : forall (T : Type) (q : list T) n, len q <= INT_MAX -> INT_MIN < n <= INT_MAX ->
  exists r, deq_shr n q = (Ok tt, r) /\ rotated q r (- n).
Proof. exact deq_right. Qed.
Print Assumptions C69_right.

Theorem C69_left_then_right : forall (T : Type) (q r : list T) n, len q <= INT_MAX -> INT_MIN < n <= INT_MAX ->
  deq_shl n q = (Ok tt, r) -> deq_shr n r = (Ok tt, q).
Proof. exact deq_shl_shr. Qed.
Print Assumptions C69_left_then_right.

Theorem C69_right_then_left : forall (T : Type) (q r : list T) n, len q <= INT_MAX -> INT_MIN < n <= INT_MAX ->
  deq_shr n q = (Ok tt, r) -> deq_shl n r = (Ok tt, q).
Proof. exact deq_shr_shl. Qed.
Print Assumptions C69_right_then_left.

(** The excluded count is undefined for two or more elements. *)
Theorem C69_right_by_int_min : forall (T : Type) (q : list T), len q <= INT_MAX ->
  deq_shr INT_MIN q = if len q <=? 1 then (Ok tt, q) else (UB SignedOverflow, q).
Proof. exact deq_right_min. Qed.
Print Assumptions C69_right_by_int_min.

Example C69_case : deq_shl 1 [1; 2; 3] = (Ok tt, [2; 3; 1]) /\ deq_shr 4 [1; 2; 3] = (Ok tt, [3; 1; 2]) /\ deq_shr (-1) [1; 2; 3] = (Ok tt, [2; 3; 1]).
Proof. vm_compute. repeat split. Qed.

Theorem C110_extend_wraps_refuted : exists q w : list Z, len q = INT_MAX /\ len w = 1 /\
  deq_extend_back w q = (Ok tt, q ++ w) /\ size (q ++ w) = INT_MIN /\
  deq_extend_front w q = (Ok tt, w ++ q) /\ size (w ++ q) = INT_MIN.
Proof. exact deq_extend_witness. Qed.
Print Assumptions C110_extend_wraps_refuted.

Theorem C110_extend_that_fits : forall (T : Type) (q w : list T), len q + len w <= INT_MAX ->
  deq_extend_back w q = (Ok tt, q ++ w) /\ size (q ++ w) = len q + len w /\
  deq_extend_front w q = (Ok tt, w ++ q) /\ size (w ++ q) = len q + len w.
Proof. exact deq_extend_fits. Qed.
Print Assumptions C110_extend_that_fits.

Example C110_case : deq_extend_front [1; 2] [3] = (Ok tt, [1; 2; 3]) /\ len [3] + len [1; 2] <= INT_MAX.
Proof. split; [reflexivity|]. unfold len, INT_MAX. cbn [length]. lia. Qed.

Theorem C111_equality : forall (T : Type) (eqb : T -> T -> bool), decides eqb -> decides (deq_eqb eqb).
Proof. exact eqb_spec. Qed.
Print Assumptions C111_equality.

Theorem C111_lexicographic : forall (T : Type) (cmp : T -> T -> comparison) lt, total_order cmp lt -> total_order (deq_cmp cmp) (lex_lt lt).
Proof. exact list_total_order. Qed.
Print Assumptions C111_lexicographic.

Example C111_case : total_order Z.compare Z.lt /\ deq_cmp Z.compare [1; 2] [1; 2; 0] = Lt /\ deq_cmp Z.compare [2] [1; 9] = Gt.
Proof. split; [|vm_compute; repeat split]. split; [exact Z.compare_spec|]. split; [exact Z.lt_irrefl|exact Z.lt_trans]. Qed.
