(** Property C193: references into Deques. Theorems only; each is an instance of a lemma proved elsewhere and is
    followed by its assumptions and by a concrete case. [qstands h s P]: the objects of the state [h] stand for the
    sequences [s] and the pointer variables hold what [P] says. *)
From Coq Require Import String Ascii ZArith List Bool Lia.
From Verif Require Import Outcome Show ListModel ListSpec DequeModel DequeSpec UndefSpec ListRefModel ListRefSpec
  DequeRefModel DequeRefSpec DequeRef.
Import ListNotations.
Open Scope Z_scope.

(** Whatever a program with pointers into Deques does, it does to sequences with pointers to positions. *)
Theorem C193_references : forall (T : Type) (eqb : T -> T -> bool) (show : T -> list ascii), decides eqb ->
  forall prog h s P h' ev, qstands h s P -> Forall qint_stmt prog -> q_run eqb show prog h = Ok (h', ev) ->
  exists s' P', wrun show prog s P s' P' ev /\ qstands h' s' P'.
Proof. exact @q_run_refines. Qed.
Print Assumptions C193_references.

(** Every run on sequences is a run of the code. *)
Theorem C193_references_complete : forall (T : Type) (eqb : T -> T -> bool) (show : T -> list ascii), decides eqb ->
  forall prog h s P s' P' ev, qstands h s P -> Forall qint_stmt prog -> wrun show prog s P s' P' ev ->
  exists h', q_run eqb show prog h = Ok (h', ev) /\ qstands h' s' P'.
Proof. exact @q_run_complete. Qed.
Print Assumptions C193_references_complete.

(** A program runs to its end as sequences do, or it is undefined. *)
Theorem C193_otherwise_undefined : forall (T : Type) (eqb : T -> T -> bool) (show : T -> list ascii), decides eqb ->
  forall prog h s P, qstands h s P -> Forall qint_stmt prog ->
  (exists h' s' P' ev, q_run eqb show prog h = Ok (h', ev) /\ wrun show prog s P s' P' ev /\ qstands h' s' P') \/
  (exists u, q_run eqb show prog h = UB u).
Proof. exact @q_run_cases. Qed.
Print Assumptions C193_otherwise_undefined.

(** A statement is undefined exactly when sequences with pointers have no answer. *)
Theorem C193_undefined_exact : forall (T : Type) (eqb : T -> T -> bool) (show : T -> list ascii), decides eqb ->
  forall c h s P, qstands h s P -> qint_stmt c ->
  ((exists u, q_step eqb show c h = UB u) <-> ~ exists s' P' ev, wstep show c s P s' P' ev).
Proof. exact @q_step_ub. Qed.
Print Assumptions C193_undefined_exact.

(** The undefined statements: those of programs without pointers, and the use of a pointer that points to no element. *)
Theorem C193_undefined_only : forall (T : Type) (eqb : T -> T -> bool) (show : T -> list ascii), decides eqb ->
  forall c h s P u, qstands h s P -> qint_stmt c -> q_step eqb show c h = UB u ->
  (exists c', c = QDo c' /\ dundef c' s) \/ (exists r, dderefs c r /\ forall v i, P r <> LTo v i).
Proof. exact @q_step_risky. Qed.
Print Assumptions C193_undefined_only.

(** Any number of pushes at either end leaves a reference at its element. *)
Theorem C193_pushes : forall (T : Type) (eqb : T -> T -> bool) (show : T -> list ascii), decides eqb ->
  forall ops h s P r v i k y, qstands h s P -> INT_MIN <= i <= INT_MAX ->
  position (Z.of_nat (length (s v))) i = Some k -> nth_error (s v) k = Some y ->
  exists h' ev, q_run eqb show (QAddr r v i :: map (push_stmt v) ops ++ [QRead r]) h = Ok (h', ev ++ [DElem y]).
Proof. exact @pushes_keep. Qed.
Print Assumptions C193_pushes.

(** In a queue a reference lives until its element has been popped, and no longer. *)
Theorem C193_queue : forall (T : Type) (eqb : T -> T -> bool) (show : T -> list ascii), decides eqb ->
  forall ops h s P r v i k y, qstands h s P -> INT_MIN <= i <= INT_MAX ->
  position (Z.of_nat (length (s v))) i = Some k -> nth_error (s v) k = Some y ->
  ((pops ops <= k)%nat -> exists h' ev, q_run eqb show (QAddr r v i :: map (queue_stmt v) ops ++ [QRead r]) h = Ok (h', ev ++ [DElem y])) /\
  ((k < pops ops)%nat -> q_run eqb show (QAddr r v i :: map (queue_stmt v) ops ++ [QRead r]) h = UB BadDeref).
Proof. exact @queue_exact. Qed.
Print Assumptions C193_queue.

(** Rotating moves the values, not the references. *)
Theorem C193_rotate : forall (T : Type) (eqb : T -> T -> bool) (show : T -> list ascii), decides eqb ->
  forall h s P r v i k n l' y, qstands h s P -> INT_MIN <= i <= INT_MAX -> INT_MIN <= n <= INT_MAX ->
  position (Z.of_nat (length (s v))) i = Some k -> rotated (s v) l' n -> nth_error l' k = Some y ->
  exists h', q_run eqb show [QAddr r v i; QDo (DShl v n); QRead r] h = Ok (h', [DElem y]).
Proof. exact @rotate_moves. Qed.
Print Assumptions C193_rotate.

Example C193_case : let h0 := QState (fun _ => []) (fun _ => 0) (fun _ => false) 0%nat (fun _ => None) in
  qstands h0 (fun _ => @nil Z) (fun _ => LNull) /\
  exists h, q_run Z.eqb (fun _ => [])
    [QFront 0 0; QDo (DInit 0 [3; 1; 2]); QAddr 0 0 (-1); QDo (DPushFront 0 5); QRead 0; QWrite 0 9; QPushFront 0 0; QDo (DGet 0 0);
     QFront 1 0; QBack 2 0; QRead 2; QDo (DShl 0 1); QRead 0; QRead 1; QDo (DPopBack 0); QRead 1;
     QDo (DMove 1 0); QRead 1; QAddr 3 0 0; QDo (DInit 2 [7; 8]); QDo (DExtendFront 1 2); QRead 1; QDo (DGet 1 2)] h0 =
  Ok (h, [DThrow ContainerEmpty; DElem 2; DElem 9; DElem 9; DElem 9; DElem 5; DElem 9; DElem 5; DElem 5; DThrow IndexOutOfRange; DElem 5; DElem 5]) /\
  q_run Z.eqb (fun _ => []) [QDo (DInit 0 [3; 1; 2]); QBack 0 0; QDo (DPopBack 0); QDo (DPushBack 0 2); QRead 0] h0 = UB BadDeref.
Proof.
  split.
  - constructor; cbn; try contradiction; try discriminate; auto; try (intros; lia).
    all: try (intros v w [|i] [|j] a; discriminate); intros v; cbn; unfold INT_MAX; lia.
  - eexists. split; vm_compute; reflexivity.
Qed.

Example C193_case_queue : let h0 := QState (fun _ => []) (fun _ => 0) (fun _ => false) 0%nat (fun _ => None) in
  (exists h', q_run Z.eqb (fun _ => []) (QDo (DInit 0 [3; 1; 2]) :: QAddr 0 0 1 :: map (queue_stmt 0) [Some 8; None; Some 9] ++ [QRead 0]) h0 = Ok (h', [DElem 3; DElem 1])) /\
  q_run Z.eqb (fun _ => []) (QDo (DInit 0 [3; 1; 2]) :: QAddr 0 0 1 :: map (queue_stmt 0) [Some 8; None; Some 9; None] ++ [QRead 0]) h0 = UB BadDeref /\
  pops [Some 8; None; Some 9] = 1%nat.
Proof. split; [eexists|split]; vm_compute; reflexivity. Qed.

Example C193_case_pushes : let h0 := QState (fun _ => []) (fun _ => 0) (fun _ => false) 0%nat (fun _ => None) in
  exists h', q_run Z.eqb (fun _ => []) (QDo (DInit 0 [3; 1; 2]) :: QAddr 0 0 1 :: map (push_stmt 0) [(true, 8); (false, 7); (true, 6)] ++ [QRead 0]) h0 = Ok (h', [DElem 1]).
Proof. eexists. vm_compute. reflexivity. Qed.
