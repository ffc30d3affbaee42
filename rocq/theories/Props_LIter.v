(** Properties C202-C204: iterators over Lists. Theorems only; each is an instance of a lemma proved elsewhere and is
    followed by its assumptions and by a concrete case. [jstands t s K I]: the state [t] stands for the sequences [s], [K]
    gives the capacities, and the iterator variables are at the positions [I]. [grow] is the library's choice of new
    capacities, which is arbitrary. *)
From Coq Require Import String Ascii ZArith List Bool Lia.
From Verif Require Import Outcome Show ListModel ListSpec ListFacts ListMore ListProgModel ListProgSpec ListProg
  ListRefModel ListRefSpec ListRef ListIterModel ListIterSpec ListIter LoopTest ExRun ExTools.
Import ListNotations.
Open Scope Z_scope.

(** Whatever a program with iterators over Lists does, it does to sequences with positions. *)
Theorem C202_iterators : forall (T : Type) (eqb lt : T -> T -> bool) (show : T -> list ascii) (d : T) (grow : Z -> Z -> Z),
  decides eqb -> strict_weak lt ->
  forall prog t s K I t' ev, jstands t s K I -> Forall jint_stmt prog -> j_run eqb lt show d grow prog t = Ok (t', ev) ->
  exists s' K' I', jrun eqb lt show grow prog s K I s' K' I' ev /\ jstands t' s' K' I'.
Proof. exact @jrun_refines. Qed.
Print Assumptions C202_iterators.

(** Every run on sequences is a run of the code. *)
Theorem C202_iterators_complete : forall (T : Type) (eqb lt : T -> T -> bool) (show : T -> list ascii) (d : T) (grow : Z -> Z -> Z),
  decides eqb -> strict_weak lt ->
  forall prog t s K I s' K' I' ev, jstands t s K I -> Forall jint_stmt prog -> jrun eqb lt show grow prog s K I s' K' I' ev ->
  exists t', j_run eqb lt show d grow prog t = Ok (t', ev) /\ jstands t' s' K' I'.
Proof. exact @jrun_complete. Qed.
Print Assumptions C202_iterators_complete.

(** A program runs to its end as sequences do, or it is undefined. *)
Theorem C202_otherwise_undefined : forall (T : Type) (eqb lt : T -> T -> bool) (show : T -> list ascii) (d : T) (grow : Z -> Z -> Z),
  decides eqb -> strict_weak lt ->
  forall prog t s K I, jstands t s K I -> Forall jint_stmt prog ->
  (exists t' s' K' I' ev, j_run eqb lt show d grow prog t = Ok (t', ev) /\ jrun eqb lt show grow prog s K I s' K' I' ev /\ jstands t' s' K' I') \/
  (exists u, j_run eqb lt show d grow prog t = UB u).
Proof. exact @jrun_cases. Qed.
Print Assumptions C202_otherwise_undefined.

(** A statement is undefined exactly when sequences with positions have no answer. *)
Theorem C202_undefined_exact : forall (T : Type) (eqb lt : T -> T -> bool) (show : T -> list ascii) (d : T) (grow : Z -> Z -> Z),
  decides eqb -> strict_weak lt ->
  forall c t s K I, jstands t s K I -> jint_stmt c ->
  ((exists u, j_step eqb lt show d grow c t = UB u) <-> ~ exists s' K' I' ev, jstep eqb lt show grow c s K I s' K' I' ev).
Proof. exact @jstep_ub. Qed.
Print Assumptions C202_undefined_exact.

(** The reasons: an iterator that is at no position, an end that is dereferenced, a range that is left or backwards, iterators of different lists. *)
Theorem C202_undefined_reasons : forall (T : Type) (eqb lt : T -> T -> bool) (show : T -> list ascii) (d : T) (grow : Z -> Z -> Z),
  decides eqb -> strict_weak lt ->
  forall c t s K I, jstands t s K I -> jint_stmt c ->
  ((exists u, j_step eqb lt show d grow c t = UB u) <-> jrisk c s I).
Proof. exact @jstep_risk. Qed.
Print Assumptions C202_undefined_reasons.

Example C202_case : jstands (JState (VState (fun _ => []) (fun _ => 0) (fun _ => false) (fun _ => 0) 0%nat (fun _ => None)) (fun _ => 0%nat) (fun _ => 0%nat) (fun _ => None)) (fun _ => @nil Z) (fun _ => 0) (fun _ => CNone) /\
  exists t, j_run Z.eqb Z.ltb (fun _ => []) 0 (fun c n => 2 * n)
    [JDo (LInit 0%nat [3; 1; 2; 7; 5]); JBegin 0 0; JAdd 0 3; JRead 0; JCopy 1 0; JAdd 1 (-2); JRead 1; JBack 1; JDiff 1 0; JFind 2 0 2; JDo (LReverse 0%nat); JRead 0;
     JRange 1 1 0; JDo (LGet 1%nat 1); JRevRange 1 0 1; JDo (LGet 1%nat 0); JDo (LAppend 0%nat 9); JRead 2; JRemove 0 0; JRead 1;
     JDo (LMove 2%nat 0%nat); JRead 1; JEnd 3 2; JDiff 3 1]
    (JState (VState (fun _ => []) (fun _ => 0) (fun _ => false) (fun _ => 0) 0%nat (fun _ => None)) (fun _ => 0%nat) (fun _ => 0%nat) (fun _ => None)) =
  Ok (t, [LElem 7; LElem 1; LElem 3; LNum (-2); LElem 1; LElem 2; LElem 2; LElem 2; LElem 1; LElem 7; LElem 7; LNum 4]).
Proof.
  split.
  - split; [|cbn; contradiction]. exists (fun _ => LNull). split; [|intros i; auto].
    constructor; cbn; try contradiction; try discriminate; auto; try (intros; lia).
    all: try (intros v w [|i] [|j] a; discriminate); intros v; cbn; unfold INT_MAX; lia.
  - eexists. vm_compute. reflexivity.
Qed.
Example C202_case_undefined : let run p := j_run Z.eqb Z.ltb (fun _ => []) 0 (fun c n => 2 * n) (JDo (LInit 0%nat [3; 1; 2]) :: JDo (LInit 1%nat [4]) :: p) (JState (VState (fun _ => []) (fun _ => 0) (fun _ => false) (fun _ => 0) 0%nat (fun _ => None)) (fun _ => 0%nat) (fun _ => 0%nat) (fun _ => None)) in
  run [JRead 0] = UB BadDeref /\ run [JEnd 0 0; JRead 0] = UB BadDeref /\ run [JBegin 0 0; JBack 0] = UB OutOfBounds /\
  run [JBegin 0 0; JAdd 0 4] = UB OutOfBounds /\ run [JBegin 0 0; JAdd 0 (-1)] = UB OutOfBounds /\
  run [JBegin 0 0; JBegin 1 1; JDiff 0 1] = UB BadDeref /\ run [JBegin 0 0; JEnd 1 0; JRange 1 1 0] = UB BadDeref /\
  run [JEnd 0 0; JDo (LMove 1%nat 0%nat); JCopy 1 0] = UB BadDeref /\ run [JEnd 0 0; JDo (LClear 0%nat); JCopy 1 0] = UB BadDeref.
Proof. cbv zeta. repeat match goal with |- _ /\ _ => split end; vm_compute; reflexivity. Qed.

(** A range-for over a List gives every element once, in order. *)
Theorem C203_all_in_order : forall (T : Type) (eqb lt : T -> T -> bool) (show : T -> list ascii) (d : T) (grow : Z -> Z -> Z),
  decides eqb -> strict_weak lt ->
  forall t s K I i e v fuel, jstands t s K I -> i <> e -> (length (s v) < fuel)%nat ->
  exists t', range_for eqb lt show d grow fuel i e v [JRead i] t = Ok (t', map LElem (s v)) /\ forall u, lview (jh t') u = s u.
Proof. exact @for_reads. Qed.
Print Assumptions C203_all_in_order.

(** A loop from rbegin to rend gives every element once, last first. *)
Theorem C203_reversed : forall (T : Type) (eqb lt : T -> T -> bool) (show : T -> list ascii) (d : T) (grow : Z -> Z -> Z),
  decides eqb -> strict_weak lt ->
  forall t s K I i e v fuel, jstands t s K I -> i <> e -> (length (s v) < fuel)%nat ->
  exists t', range_back eqb lt show d grow fuel i e v [JBack i] t = Ok (t', map LElem (rev (s v))) /\ forall u, lview (jh t') u = s u.
Proof. exact @back_reads. Qed.
Print Assumptions C203_reversed.

(** A range-for that appends every element to another List. *)
Theorem C203_copying : forall (T : Type) (eqb lt : T -> T -> bool) (show : T -> list ascii) (d : T) (grow : Z -> Z -> Z),
  decides eqb -> strict_weak lt ->
  forall t s K I i e v w fuel, jstands t s K I -> i <> e -> v <> w -> (length (s v) < fuel)%nat -> len (s v) + len (s w) <= INT_MAX ->
  exists t', range_for eqb lt show d grow fuel i e v [JAppend w i] t = Ok (t', []) /\
    lview (jh t') w = s w ++ s v /\ forall u, u <> w -> lview (jh t') u = s u.
Proof. exact @for_copies. Qed.
Print Assumptions C203_copying.

(** A range-for whose body keeps both iterators runs its body once for every position, in order. *)
Theorem C203_any_body : forall (T : Type) (eqb lt : T -> T -> bool) (show : T -> list ascii) (d : T) (grow : Z -> Z -> Z),
  decides eqb -> strict_weak lt ->
  forall (Inv : nat -> lstore T -> Prop) (out : nat -> list (levent T)) body i e v n, i <> e ->
  (forall p t s K I, (p < n)%nat -> jstands t s K I -> I i = CAt v p -> I e = CAt v n -> Inv p s ->
     exists t' s' K' I', j_run eqb lt show d grow body t = Ok (t', out p) /\ jstands t' s' K' I' /\ I' i = CAt v p /\ I' e = CAt v n /\ Inv (S p) s') ->
  forall k p fuel t s K I, (p + k = n)%nat -> (k < fuel)%nat -> jstands t s K I -> I i = CAt v p -> I e = CAt v n -> Inv p s ->
  exists t' s' K' I', j_loop eqb lt show d grow fuel i e body t = Ok (t', concat (map out (seq p k))) /\ jstands t' s' K' I' /\ Inv n s'.
Proof. exact @loop_rule. Qed.
Print Assumptions C203_any_body.

(** The List made of begin and end is a copy, also when it replaces the list itself. *)
Theorem C203_range : forall (T : Type) (eqb lt : T -> T -> bool) (show : T -> list ascii) (d : T) (grow : Z -> Z -> Z),
  decides eqb -> strict_weak lt ->
  forall t s K I i j v w, jstands t s K I -> i <> j ->
  exists t', j_run eqb lt show d grow [JBegin i v; JEnd j v; JRange w i j] t = Ok (t', []) /\ forall u, lview (jh t') u = lset s w (s v) u.
Proof. exact @range_copy. Qed.
Print Assumptions C203_range.

(** The List made of rbegin and rend is reversed. *)
Theorem C203_range_reversed : forall (T : Type) (eqb lt : T -> T -> bool) (show : T -> list ascii) (d : T) (grow : Z -> Z -> Z),
  decides eqb -> strict_weak lt ->
  forall t s K I i j v w, jstands t s K I -> i <> j ->
  exists t', j_run eqb lt show d grow [JEnd i v; JBegin j v; JRevRange w i j] t = Ok (t', []) /\ forall u, lview (jh t') u = lset s w (rev (s v)) u.
Proof. exact @range_reversed. Qed.
Print Assumptions C203_range_reversed.

(** find gives the first position of the element, or the end. *)
Theorem C203_find : forall (T : Type) (eqb lt : T -> T -> bool) (show : T -> list ascii) (d : T) (grow : Z -> Z -> Z),
  decides eqb -> strict_weak lt ->
  forall t s K I i j v x p, jstands t s K I -> i <> j -> found_at (s v) x p ->
  exists t', j_run eqb lt show d grow [JFind i v x; JBegin j v; JDiff i j] t = Ok (t', [LNum (Z.of_nat p)]).
Proof. exact @find_position. Qed.
Print Assumptions C203_find.

(** A loop is undefined when it compares iterators that are not both in the same List: lost ones, unset ones, or of two Lists. *)
Theorem C203_apart : forall (T : Type) (eqb lt : T -> T -> bool) (show : T -> list ascii) (d : T) (grow : Z -> Z -> Z),
  decides eqb -> strict_weak lt ->
  forall t s K I i j n body, jstands t s K I -> (~ exists v p q, I i = CAt v p /\ I j = CAt v q) ->
  exists u, j_loop eqb lt show d grow (S n) i j body t = UB u /\ j_loop_back eqb lt show d grow (S n) i j body t = UB u.
Proof. exact @list_loop_apart. Qed.
Print Assumptions C203_apart.

Example C203_case_apart : let grow := fun c n : Z => n in let t := (JState (VState (fun _ => []) (fun _ => 0) (fun _ => false) (fun _ => 0) 0%nat (fun _ => None)) (fun _ => 0%nat) (fun _ => 0%nat) (fun _ => None)) in
  let after p b := se <- j_run Z.eqb Z.ltb (fun _ => []) 0 grow (JDo (LInit 0%nat [3; 1; 2]) :: JDo (LInit 1%nat [3; 1; 2]) :: p) t ;; b (fst se) in
  after [JBegin 0 0; JEnd 1 1] (j_loop Z.eqb Z.ltb (fun _ => []) 0 grow 9 0 1 [JRead 0]) = UB BadDeref /\
  after [JEnd 0 0; JBegin 1 1] (j_loop_back Z.eqb Z.ltb (fun _ => []) 0 grow 9 0 1 [JBack 0]) = UB BadDeref /\
  after [JBegin 0 0] (j_loop Z.eqb Z.ltb (fun _ => []) 0 grow 9 0 1 [JRead 0]) = UB BadDeref.
Proof. cbv zeta. repeat match goal with |- _ /\ _ => split end; vm_compute; reflexivity. Qed.

Example C203_case : let grow := fun c n : Z => n in let t := (JState (VState (fun _ => []) (fun _ => 0) (fun _ => false) (fun _ => 0) 0%nat (fun _ => None)) (fun _ => 0%nat) (fun _ => 0%nat) (fun _ => None)) in
  let after b := se <- j_run Z.eqb Z.ltb (fun _ => []) 0 grow [JDo (LInit 0%nat [3; 1; 2])] t ;; b (fst se) in
  (exists t', after (range_for Z.eqb Z.ltb (fun _ => []) 0 grow 4 0 1 0 [JRead 0]) = Ok (t', [LElem 3; LElem 1; LElem 2])) /\
  (exists t', after (range_back Z.eqb Z.ltb (fun _ => []) 0 grow 4 0 1 0 [JBack 0]) = Ok (t', [LElem 2; LElem 1; LElem 3])) /\
  (exists t', after (range_for Z.eqb Z.ltb (fun _ => []) 0 grow 4 0 1 0 [JRead 0; JDo (LReverse 0%nat); JDo (LSet 0%nat 1 8)]) = Ok (t', [LElem 3; LElem 8; LElem 2])) /\
  (exists t', after (j_run Z.eqb Z.ltb (fun _ => []) 0 grow [JFind 0 0 2; JBegin 1 0; JDiff 0 1; JFind 0 0 5; JDiff 0 1; JEnd 0 0; JRevRange 0 0 1; JDo (LGet 0%nat 0)]) =
    Ok (t', [LNum 2; LNum 3; LElem 2])) /\
  after (range_for Z.eqb Z.ltb (fun _ => []) 0 grow 3 0 1 0 [JRead 0]) = OutOfFuel.
Proof. cbv zeta. repeat match goal with |- _ /\ _ => split end; [apply seen_ok|apply seen_ok|apply seen_ok|apply seen_ok|]; vm_compute; reflexivity. Qed.
Example C203_case_found : found_at [3; 1; 2; 1] 1 1%nat /\ found_at [3; 1; 2] 7 3%nat.
Proof.
  split; [left; exists [3], [2; 1]; repeat split; intros [X|X]; [discriminate|destruct X]|right; split; [|auto]].
  intros X. repeat destruct X as [X|X]; try discriminate; destruct X.
Qed.

(** A range-for over a List that is not empty is undefined if its body inserts, removes or assigns the list, whatever the capacity. *)
Theorem C204_resize_refuted : forall (T : Type) (eqb lt : T -> T -> bool) (show : T -> list ascii) (d : T) (grow : Z -> Z -> Z),
  decides eqb -> strict_weak lt ->
  forall t s K I i e v c fuel s' ev, jstands t s K I -> i <> e -> s v <> [] -> int_stmt c -> resizing c v ->
  sstep eqb lt show c s s' ev -> threw ev = false ->
  exists u, range_for eqb lt show d grow (S (S fuel)) i e v [JDo c] t = UB u.
Proof. exact @for_resizing. Qed.
Print Assumptions C204_resize_refuted.

(** Removing an element ends the iterators at it and behind it. *)
Theorem C204_remove : forall (T : Type) (eqb lt : T -> T -> bool) (show : T -> list ascii) (d : T) (grow : Z -> Z -> Z),
  decides eqb -> strict_weak lt ->
  forall t s K I i v p k x, jstands t s K I -> I i = CAt v p -> INT_MIN <= k <= INT_MAX ->
  position (len (s v)) k = Some x -> (x <= p)%nat ->
  exists t' ev, j_do eqb lt show d grow (LRemove v k) t = Ok (t', ev) /\ j_at t' i = UB BadDeref.
Proof. exact @remove_ends. Qed.
Print Assumptions C204_remove.

(** An append keeps the iterators at elements exactly if the capacity suffices, and never the end. *)
Theorem C204_append : forall (T : Type) (eqb lt : T -> T -> bool) (show : T -> list ascii) (d : T) (grow : Z -> Z -> Z),
  decides eqb -> strict_weak lt ->
  forall t s K I i v p x, jstands t s K I -> I i = CAt v p -> len (s v) < INT_MAX ->
  exists t', j_do eqb lt show d grow (LAppend v x) t = Ok (t', []) /\
    ((p < length (s v))%nat -> len (s v) < K v -> j_at t' i = Ok (v, p)) /\
    ((p < length (s v))%nat -> K v <= len (s v) -> j_at t' i = UB BadDeref) /\
    (p = length (s v) -> j_at t' i = UB BadDeref).
Proof. exact @append_iter. Qed.
Print Assumptions C204_append.

Example C204_case : let grow := fun c n : Z => 2 * n in let loop b := 
    se <- j_run Z.eqb Z.ltb (fun _ => []) 0 grow [JDo (LInit 0%nat [3; 1; 2])] (JState (VState (fun _ => []) (fun _ => 0) (fun _ => false) (fun _ => 0) 0%nat (fun _ => None)) (fun _ => 0%nat) (fun _ => 0%nat) (fun _ => None)) ;;
    range_for Z.eqb Z.ltb (fun _ => []) 0 grow 10 0 1 0 b (fst se) in
  loop [JAppend 0 0] = UB BadDeref /\ loop [JDo (LRemove 0%nat 2)] = UB BadDeref /\ loop [JDo (LFilter 0%nat (fun _ => true))] = UB BadDeref /\
  (exists t, loop [JDo (LSort 0%nat); JRead 0] = Ok (t, [LElem 1; LElem 2; LElem 3])) /\
  (exists t, loop [JDo (LRemove 0%nat 9)] = Ok (t, [LThrow IndexOutOfRange; LThrow IndexOutOfRange; LThrow IndexOutOfRange])).
Proof. cbv zeta. repeat match goal with |- _ /\ _ => split end; try apply seen_ok; vm_compute; reflexivity. Qed.
Example C204_case_step : sstep Z.eqb Z.ltb (fun _ => []) (LAppend 0%nat 5) (fun _ => [3; 1]) (lset (fun _ => [3; 1]) 0%nat [3; 1; 5]) [] /\ resizing (LAppend 0%nat 5) 0.
Proof. split; [|reflexivity]. apply (s_mut _ _ _ (LAppend 0%nat 5) 0%nat); [reflexivity|]. apply (m_append Z.eqb Z.ltb 0%nat 5 [3; 1]). cbn. unfold INT_MAX. lia. Qed.
