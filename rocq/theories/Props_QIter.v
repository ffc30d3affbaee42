(** Properties C205-C207: iterators over Deques. Theorems only; each is an instance of a lemma proved elsewhere and is
    followed by its assumptions and by a concrete case. [ystands t s P I]: the state [t] stands for the sequences [s], the
    pointer variables point to [P], and the iterator variables are at the positions [I]. *)
From Coq Require Import String Ascii ZArith List Bool Lia.
From Verif Require Import Outcome Show ListModel ListSpec DequeModel DequeSpec UndefSpec ListRefModel ListRefSpec DequeRefModel DequeRefSpec DequeRef
  ListIterSpec DequeIterModel DequeIterSpec DequeIter LoopTest ExRun ExTools.
Import ListNotations.
Open Scope Z_scope.

(** Whatever a program with iterators over Deques does, it does to sequences with positions. *)
Theorem C205_iterators : forall (T : Type) (eqb : T -> T -> bool) (show : T -> list ascii), decides eqb ->
  forall prog t s P I t' ev, ystands t s P I -> Forall yint_stmt prog -> y_run eqb show prog t = Ok (t', ev) ->
  exists s' P' I', yrun show prog s P I s' P' I' ev /\ ystands t' s' P' I'.
Proof. exact @yrun_refines. Qed.
Print Assumptions C205_iterators.

(** Every run on sequences is a run of the code. *)
Theorem C205_iterators_complete : forall (T : Type) (eqb : T -> T -> bool) (show : T -> list ascii), decides eqb ->
  forall prog t s P I s' P' I' ev, ystands t s P I -> Forall yint_stmt prog -> yrun show prog s P I s' P' I' ev ->
  exists t', y_run eqb show prog t = Ok (t', ev) /\ ystands t' s' P' I'.
Proof. exact @yrun_complete. Qed.
Print Assumptions C205_iterators_complete.

(** A program runs to its end as sequences do, or it is undefined. *)
Theorem C205_otherwise_undefined : forall (T : Type) (eqb : T -> T -> bool) (show : T -> list ascii), decides eqb ->
  forall prog t s P I, ystands t s P I -> Forall yint_stmt prog ->
  (exists t' s' P' I' ev, y_run eqb show prog t = Ok (t', ev) /\ yrun show prog s P I s' P' I' ev /\ ystands t' s' P' I') \/
  (exists u, y_run eqb show prog t = UB u).
Proof. exact @yrun_cases. Qed.
Print Assumptions C205_otherwise_undefined.

(** A statement is undefined exactly when sequences with positions have no answer. *)
Theorem C205_undefined_exact : forall (T : Type) (eqb : T -> T -> bool) (show : T -> list ascii), decides eqb ->
  forall c t s P I, ystands t s P I -> yint_stmt c ->
  ((exists u, y_step eqb show c t = UB u) <-> ~ exists s' P' I' ev, ystep show c s P I s' P' I' ev).
Proof. exact @ystep_ub. Qed.
Print Assumptions C205_undefined_exact.

(** The reasons: an iterator that is at no position, an end that is dereferenced, a range that is left, backwards or of the deque that is extended, iterators of different deques. *)
Theorem C205_undefined_reasons : forall (T : Type) (eqb : T -> T -> bool) (show : T -> list ascii), decides eqb ->
  forall c t s P I, ystands t s P I -> yint_stmt c ->
  ((exists u, y_step eqb show c t = UB u) <-> yrisk c s P I).
Proof. exact @ystep_risk. Qed.
Print Assumptions C205_undefined_reasons.

Example C205_case : ystands (YState (QState (fun _ => []) (fun _ => 0) (fun _ => false) 0%nat (fun _ => None)) (fun _ => 0%nat) (fun _ => 0%nat) (fun _ => 0%nat) (fun _ => INone)) (fun _ => @nil Z) (fun _ => LNull) (fun _ => CNone) /\
  exists t, y_run Z.eqb (fun _ => [])
    [YDo (QDo (DInit 0%nat [3; 1; 2; 7; 5])); YBegin 0 0; YAdd 0 3; YRead 0; YCopy 1 0; YAdd 1 (-2); YRead 1; YBack 1; YDiff 1 0; YDo (QDo (DReverse 0%nat)); YRead 0;
     YRange 1 1 0; YDo (QDo (DGet 1%nat 1)); YRevRange 1 0 1; YDo (QDo (DGet 1%nat 0)); YExtendBack 1 1 0; YDo (QDo (DBack 1%nat)); YExtendFront 1 1 0; YDo (QDo (DFront 1%nat));
     YDo (QDo (DPopFront 0%nat)); YRead 1; YDo (QDo (DPopBack 0%nat)); YRead 0; YDiff 0 1; YAddr 0 0; YDo (QDo (DPushBack 0%nat 9)); YDo (QRead 0);
     YBegin 0 0; YDo (QDo (DMove 2%nat 0%nat)); YRead 0; YEnd 3 2; YDiff 3 0]
    (YState (QState (fun _ => []) (fun _ => 0) (fun _ => false) 0%nat (fun _ => None)) (fun _ => 0%nat) (fun _ => 0%nat) (fun _ => 0%nat) (fun _ => INone)) =
  Ok (t, [DElem 7; DElem 1; DElem 3; DNum (-2); DElem 1; DElem 2; DElem 2; DElem 2; DElem 7; DElem 5; DElem 7; DElem 3; DElem 1; DNum 2; DElem 1; DElem 7; DNum 4]).
Proof.
  split.
  - split; [|split; [cbn; contradiction|intros i; reflexivity]].
    constructor; cbn; try contradiction; try discriminate; auto; try (intros; lia).
    all: try (intros v w [|i] [|j] a; discriminate); intros v; cbn; unfold INT_MAX; lia.
  - apply seen_ok. vm_compute. reflexivity.
Qed.
Example C205_case_undefined : let run p := y_run Z.eqb (fun _ => []) (YDo (QDo (DInit 0%nat [3; 1; 2])) :: YDo (QDo (DInit 1%nat [4])) :: p) (YState (QState (fun _ => []) (fun _ => 0) (fun _ => false) 0%nat (fun _ => None)) (fun _ => 0%nat) (fun _ => 0%nat) (fun _ => 0%nat) (fun _ => INone)) in
  run [YRead 0] = UB BadDeref /\ run [YEnd 0 0; YRead 0] = UB BadDeref /\ run [YBegin 0 0; YBack 0] = UB OutOfBounds /\
  run [YBegin 0 0; YAdd 0 4] = UB OutOfBounds /\ run [YBegin 0 0; YAdd 0 (-1)] = UB OutOfBounds /\
  run [YBegin 0 0; YBegin 1 1; YDiff 0 1] = UB BadDeref /\ run [YBegin 0 0; YEnd 1 0; YRange 1 1 0] = UB BadDeref /\
  run [YBegin 0 0; YEnd 1 0; YExtendBack 0 0 1] = UB SelfRange /\ run [YBegin 0 0; YDo (QDo (DPopFront 0%nat)); YRead 0] = UB BadDeref /\
  run [YEnd 0 0; YDo (QDo (DMove 1%nat 0%nat)); YCopy 1 0] = UB BadDeref /\ run [YEnd 0 0; YDo (QDo (DClear 0%nat)); YCopy 1 0] = UB BadDeref.
Proof. cbv zeta. repeat match goal with |- _ /\ _ => split end; vm_compute; reflexivity. Qed.

(** A range-for over a Deque gives every element once, in order. *)
Theorem C206_all_in_order : forall (T : Type) (eqb : T -> T -> bool) (show : T -> list ascii), decides eqb ->
  forall t s P I i e v fuel, ystands t s P I -> i <> e -> (length (s v) < fuel)%nat ->
  exists t', deque_for eqb show fuel i e v [YRead i] t = Ok (t', map DElem (s v)) /\ forall u, dview (yh t') u = s u.
Proof. exact @deque_for_reads. Qed.
Print Assumptions C206_all_in_order.

(** A loop from rbegin to rend gives every element once, last first. *)
Theorem C206_reversed : forall (T : Type) (eqb : T -> T -> bool) (show : T -> list ascii), decides eqb ->
  forall t s P I i e v fuel, ystands t s P I -> i <> e -> (length (s v) < fuel)%nat ->
  exists t', deque_back eqb show fuel i e v [YBack i] t = Ok (t', map DElem (rev (s v))) /\ forall u, dview (yh t') u = s u.
Proof. exact @deque_back_reads. Qed.
Print Assumptions C206_reversed.

(** A range-for that pushes every element to the back of another Deque. *)
Theorem C206_pushing_back : forall (T : Type) (eqb : T -> T -> bool) (show : T -> list ascii), decides eqb ->
  forall t s P I i e v w fuel, ystands t s P I -> i <> e -> v <> w -> (length (s v) < fuel)%nat -> len (s v) + len (s w) <= INT_MAX ->
  exists t', deque_for eqb show fuel i e v [YPushBack w i] t = Ok (t', []) /\ dview (yh t') w = s w ++ s v /\ forall u, u <> w -> dview (yh t') u = s u.
Proof. exact @deque_for_back. Qed.
Print Assumptions C206_pushing_back.

(** A range-for that pushes every element to the front of another Deque reverses them. *)
Theorem C206_pushing_front : forall (T : Type) (eqb : T -> T -> bool) (show : T -> list ascii), decides eqb ->
  forall t s P I i e v w fuel, ystands t s P I -> i <> e -> v <> w -> (length (s v) < fuel)%nat -> len (s v) + len (s w) <= INT_MAX ->
  exists t', deque_for eqb show fuel i e v [YPushFront w i] t = Ok (t', []) /\ dview (yh t') w = rev (s v) ++ s w /\ forall u, u <> w -> dview (yh t') u = s u.
Proof. exact @deque_for_front. Qed.
Print Assumptions C206_pushing_front.

(** A range-for whose body keeps both iterators runs its body once for every position, in order. *)
Theorem C206_any_body : forall (T : Type) (eqb : T -> T -> bool) (show : T -> list ascii), decides eqb ->
  forall (Inv : nat -> dstore T -> Prop) (out : nat -> list (devent T)) body i e v n, i <> e ->
  (forall p t s P I, (p < n)%nat -> ystands t s P I -> I i = CAt v p -> I e = CAt v n -> Inv p s ->
     exists t' s' P' I', y_run eqb show body t = Ok (t', out p) /\ ystands t' s' P' I' /\ I' i = CAt v p /\ I' e = CAt v n /\ Inv (S p) s') ->
  forall k p fuel t s P I, (p + k = n)%nat -> (k < fuel)%nat -> ystands t s P I -> I i = CAt v p -> I e = CAt v n -> Inv p s ->
  exists t' s' P' I', y_loop eqb show 1 fuel i e body t = Ok (t', concat (map out (seq p k))) /\ ystands t' s' P' I' /\ Inv n s'.
Proof. exact @yloop_rule. Qed.
Print Assumptions C206_any_body.

(** The same for a loop from rbegin to rend. *)
Theorem C206_any_body_reversed : forall (T : Type) (eqb : T -> T -> bool) (show : T -> list ascii), decides eqb ->
  forall (Inv : nat -> dstore T -> Prop) (out : nat -> list (devent T)) body i e v, i <> e ->
  (forall p t s P I, ystands t s P I -> I i = CAt v (S p) -> I e = CAt v 0 -> Inv (S p) s ->
     exists t' s' P' I', y_run eqb show body t = Ok (t', out p) /\ ystands t' s' P' I' /\ I' i = CAt v (S p) /\ I' e = CAt v 0 /\ Inv p s') ->
  forall p fuel t s P I, (p < fuel)%nat -> ystands t s P I -> I i = CAt v p -> I e = CAt v 0 -> Inv p s ->
  exists t' s' P' I', y_loop eqb show (-1) fuel i e body t = Ok (t', concat (map out (rev (seq 0 p)))) /\ ystands t' s' P' I' /\ Inv 0%nat s'.
Proof. exact @yloop_back_rule. Qed.
Print Assumptions C206_any_body_reversed.

(** The Deque made of begin and end is a copy, also when it replaces the deque itself. *)
Theorem C206_range : forall (T : Type) (eqb : T -> T -> bool) (show : T -> list ascii), decides eqb ->
  forall t s P I i j v w, ystands t s P I -> i <> j ->
  exists t', y_run eqb show [YBegin i v; YEnd j v; YRange w i j] t = Ok (t', []) /\ forall u, dview (yh t') u = dset s w (s v) u.
Proof. exact @deque_range. Qed.
Print Assumptions C206_range.

(** The Deque made of rbegin and rend is reversed. *)
Theorem C206_range_reversed : forall (T : Type) (eqb : T -> T -> bool) (show : T -> list ascii), decides eqb ->
  forall t s P I i j v w, ystands t s P I -> i <> j ->
  exists t', y_run eqb show [YEnd i v; YBegin j v; YRevRange w i j] t = Ok (t', []) /\ forall u, dview (yh t') u = dset s w (rev (s v)) u.
Proof. exact @deque_range_reversed. Qed.
Print Assumptions C206_range_reversed.

(** extend_back and extend_front with the iterators of another deque insert its elements, in order. *)
Theorem C206_extending : forall (T : Type) (eqb : T -> T -> bool) (show : T -> list ascii), decides eqb ->
  forall t s P I i j v w, ystands t s P I -> i <> j -> v <> w -> len (s v) + len (s w) <= INT_MAX ->
  (exists t', y_run eqb show [YBegin i v; YEnd j v; YExtendBack w i j] t = Ok (t', []) /\ forall u, dview (yh t') u = dset s w (s w ++ s v) u) /\
  (exists t', y_run eqb show [YBegin i v; YEnd j v; YExtendFront w i j] t = Ok (t', []) /\ forall u, dview (yh t') u = dset s w (s v ++ s w) u).
Proof. exact @deque_extends. Qed.
Print Assumptions C206_extending.

(** A loop, forwards or backwards, is undefined when it compares iterators that are not both in the same Deque: lost ones, unset ones, or of two Deques. *)
Theorem C206_apart : forall (T : Type) (eqb : T -> T -> bool) (show : T -> list ascii), decides eqb ->
  forall t s P I i j k n body, ystands t s P I -> (~ exists v p q, I i = CAt v p /\ I j = CAt v q) ->
  exists u, y_loop eqb show k (S n) i j body t = UB u.
Proof. exact @deque_loop_apart. Qed.
Print Assumptions C206_apart.

Example C206_case_apart : let t := (YState (QState (fun _ => []) (fun _ => 0) (fun _ => false) 0%nat (fun _ => None)) (fun _ => 0%nat) (fun _ => 0%nat) (fun _ => 0%nat) (fun _ => INone)) in let sh := (fun _ : Z => @nil ascii) in
  let after p b := se <- y_run Z.eqb sh (YDo (QDo (DInit 0%nat [3; 1; 2])) :: YDo (QDo (DInit 1%nat [3; 1; 2])) :: p) t ;; b (fst se) in
  after [YBegin 0 0; YEnd 1 1] (y_loop Z.eqb sh 1 9 0 1 [YRead 0]) = UB BadDeref /\
  after [YEnd 0 0; YBegin 1 1] (y_loop Z.eqb sh (-1) 9 0 1 [YBack 0]) = UB BadDeref /\
  after [YBegin 0 0; YEnd 1 0; YDo (QDo (DPushBack 0%nat 4))] (y_loop Z.eqb sh 1 9 0 1 [YRead 0]) = UB BadDeref.
Proof. cbv zeta. repeat match goal with |- _ /\ _ => split end; vm_compute; reflexivity. Qed.

Example C206_case : let t := (YState (QState (fun _ => []) (fun _ => 0) (fun _ => false) 0%nat (fun _ => None)) (fun _ => 0%nat) (fun _ => 0%nat) (fun _ => 0%nat) (fun _ => INone)) in let sh := (fun _ : Z => @nil ascii) in
  let after b := se <- y_run Z.eqb sh [YDo (QDo (DInit 0%nat [3; 1; 2])); YDo (QDo (DInit 1%nat [8]))] t ;; b (fst se) in
  (exists t', after (deque_for Z.eqb sh 4 0 1 0 [YRead 0]) = Ok (t', [DElem 3; DElem 1; DElem 2])) /\
  (exists t', after (deque_back Z.eqb sh 4 0 1 0 [YBack 0]) = Ok (t', [DElem 2; DElem 1; DElem 3])) /\
  (exists t', after (deque_for Z.eqb sh 4 0 1 0 [YRead 0; YDo (QDo (DReverse 0%nat)); YDo (QDo (DSet 0%nat 1 8))]) = Ok (t', [DElem 3; DElem 8; DElem 2])) /\
  (exists t', after (fun t => se <- deque_for Z.eqb sh 4 0 1 0 [YPushFront 1 0] t ;; y_run Z.eqb sh [YDo (QDo (DGet 1%nat 0)); YDo (QDo (DGet 1%nat 3))] (fst se)) = Ok (t', [DElem 2; DElem 8])) /\
  (exists t', after (y_run Z.eqb sh [YBegin 0 0; YEnd 1 0; YExtendFront 1 0 1; YDo (QDo (DGet 1%nat 0)); YRevRange 0 1 0; YDo (QDo (DGet 0%nat 0))]) =
    Ok (t', [DElem 3; DElem 2])) /\
  after (deque_for Z.eqb sh 3 0 1 0 [YRead 0]) = OutOfFuel.
Proof. cbv zeta. repeat match goal with |- _ /\ _ => split end; try apply seen_ok; vm_compute; reflexivity. Qed.

(** Whatever is pushed, or extended, without an exception ends every iterator into the deque, the end too. *)
Theorem C207_push_ends_refuted : forall (T : Type) (eqb : T -> T -> bool) (show : T -> list ascii), decides eqb ->
  forall t s P I c v s' P' ev, ystands t s P I -> qint_stmt c -> pushing c s v -> wstep show c s P s' P' ev -> dthrew ev = false ->
  exists t', y_step eqb show (YDo c) t = Ok (t', ev) /\ forall i p, I i = CAt v p -> y_at t' i = UB BadDeref.
Proof. exact @push_ends. Qed.
Print Assumptions C207_push_ends_refuted.

(** After a push the element can be read through a reference to it, and not through the iterator that gave the reference. *)
Theorem C207_reference_refuted : forall (T : Type) (eqb : T -> T -> bool) (show : T -> list ascii), decides eqb ->
  forall t s P I r i v p x y (front : bool), ystands t s P I -> I i = CAt v p -> nth_error (s v) p = Some x -> len (s v) < INT_MAX ->
  let push := YDo (QDo (if front then DPushFront v y else DPushBack v y)) in
  (exists t', y_run eqb show [YAddr r i; push; YDo (QRead r)] t = Ok (t', [DElem x])) /\ y_run eqb show [YAddr r i; push; YRead i] t = UB BadDeref.
Proof. exact @push_reference. Qed.
Print Assumptions C207_reference_refuted.

(** Popping the elements in front of an iterator keeps it at its element. *)
Theorem C207_pop_front : forall (T : Type) (eqb : T -> T -> bool) (show : T -> list ascii), decides eqb ->
  forall k t s P I i v p x, ystands t s P I -> I i = CAt v p -> nth_error (s v) p = Some x -> (k <= p)%nat ->
  exists t' s' P' I', y_run eqb show (repeat (YDo (QDo (DPopFront v))) k) t = Ok (t', map DElem (firstn k (s v))) /\ ystands t' s' P' I' /\
    I' i = CAt v (p - k) /\ nth_error (s' v) (p - k) = Some x /\ s' v = skipn k (s v) /\ y_run eqb show [YRead i] t' = Ok (t', [DElem x]).
Proof. exact @pop_fronts. Qed.
Print Assumptions C207_pop_front.

(** Popping elements behind an iterator keeps it where it is. *)
Theorem C207_pop_back : forall (T : Type) (eqb : T -> T -> bool) (show : T -> list ascii), decides eqb ->
  forall k t s P I i v p x, ystands t s P I -> I i = CAt v p -> nth_error (s v) p = Some x -> (p + k < length (s v))%nat ->
  exists t' s' P' I', y_run eqb show (repeat (YDo (QDo (DPopBack v))) k) t = Ok (t', map DElem (firstn k (rev (s v)))) /\ ystands t' s' P' I' /\
    I' i = CAt v p /\ s' v = firstn (length (s v) - k) (s v) /\ y_run eqb show [YRead i] t' = Ok (t', [DElem x]).
Proof. exact @pop_backs. Qed.
Print Assumptions C207_pop_back.

(** for (i = v.begin(), e = v.end(); i != e; ) { emit( *i++); v.pop_front(); } is undefined for every deque that is not empty: the last pop ends the end. *)
Theorem C207_drain_refuted : forall (T : Type) (eqb : T -> T -> bool) (show : T -> list ascii), decides eqb ->
  forall t s P I i e v fuel, ystands t s P I -> i <> e -> s v <> [] -> (length (s v) < fuel)%nat ->
  exists u, (te <- y_run eqb show [YBegin i v; YEnd e v] t ;; y_loop eqb show 0 fuel i e [YRead i; YAdd i 1; YDo (QDo (DPopFront v))] (fst te)) = UB u.
Proof. exact @drain_for. Qed.
Print Assumptions C207_drain_refuted.

Example C207_case : let t := (YState (QState (fun _ => []) (fun _ => 0) (fun _ => false) 0%nat (fun _ => None)) (fun _ => 0%nat) (fun _ => 0%nat) (fun _ => 0%nat) (fun _ => INone)) in let sh := (fun _ : Z => @nil ascii) in
  let after b := se <- y_run Z.eqb sh [YDo (QDo (DInit 0%nat [3; 1; 2])); YBegin 0 0; YAdd 0 1] t ;; b (fst se) in
  (exists t', after (y_run Z.eqb sh [YAddr 0 0; YDo (QDo (DPushFront 0%nat 9)); YDo (QRead 0)]) = Ok (t', [DElem 1])) /\
  after (y_run Z.eqb sh [YDo (QDo (DPushFront 0%nat 9)); YRead 0]) = UB BadDeref /\
  after (y_run Z.eqb sh [YEnd 1 0; YDo (QDo (DPushBack 0%nat 9)); YDiff 1 1]) = UB BadDeref /\
  (exists t', after (y_run Z.eqb sh [YDo (QDo (DPopFront 0%nat)); YRead 0; YDo (QDo (DPopBack 0%nat)); YRead 0]) = Ok (t', [DElem 3; DElem 1; DElem 2; DElem 1])) /\
  after (y_run Z.eqb sh [YDo (QDo (DPopFront 0%nat)); YDo (QDo (DPopFront 0%nat)); YRead 0]) = UB BadDeref /\
  after (deque_for Z.eqb sh 9 0 1 0 [YPushBack 0 0]) = UB BadDeref /\
  after (fun t => te <- y_run Z.eqb sh [YBegin 0 0; YEnd 1 0] t ;; y_loop Z.eqb sh 0 9 0 1 [YRead 0; YAdd 0 1; YDo (QDo (DPopFront 0%nat))] (fst te)) = UB BadDeref.
Proof. cbv zeta. repeat match goal with |- _ /\ _ => split end; try apply seen_ok; vm_compute; reflexivity. Qed.
Example C207_case_push : wstep (fun _ => []) (QDo (DPushBack 0%nat 5)) (fun _ => [3; 1]) (fun _ => LNull) (dset (fun _ => [3; 1]) 0%nat [3; 1; 5]) (fun _ => LNull) [] /\
  pushing (QDo (DPushBack 0%nat 5)) (fun _ => [3; 1]) 0.
Proof.
  split; [|reflexivity]. apply (w_stmt _ _ _ _ _ _ _ DStay); [|apply f_push_back|intros r; reflexivity].
  apply (q_push_back (fun _ => []) 0%nat 5 (fun _ => [3; 1])). cbn. unfold INT_MAX. lia.
Qed.
