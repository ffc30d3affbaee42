(** Properties C191, C192: references into Lists. Theorems only; each is an instance of a lemma proved elsewhere and is
    followed by its assumptions and by a concrete case. [vstands h s K P]: the objects of the state [h] stand for the
    sequences [s], [K] gives the capacities, and the pointer variables hold what [P] says. [grow] is the library's choice
    of new capacities, which is arbitrary. *)
From Coq Require Import String Ascii ZArith List Bool Lia.
From Verif Require Import Outcome Show ListModel ListSpec ListFacts ListMore ListProgModel ListProgSpec ListProg
  ListRefModel ListRefSpec ListRef ExTools.
Import ListNotations.
Open Scope Z_scope.

(** Whatever a program with pointers into Lists does, it does to sequences with pointers to positions. *)
Theorem C191_references : forall (T : Type) (eqb lt : T -> T -> bool) (show : T -> list ascii) (d : T) (grow : Z -> Z -> Z),
  decides eqb -> strict_weak lt ->
  forall prog h s K P h' ev, vstands h s K P -> Forall rint_stmt prog -> v_run eqb lt show d grow prog h = Ok (h', ev) ->
  exists s' K' P', vrun eqb lt show grow prog s K P s' K' P' ev /\ vstands h' s' K' P'.
Proof. exact @run_refines. Qed.
Print Assumptions C191_references.

(** Every run on sequences is a run of the code. *)
Theorem C191_references_complete : forall (T : Type) (eqb lt : T -> T -> bool) (show : T -> list ascii) (d : T) (grow : Z -> Z -> Z),
  decides eqb -> strict_weak lt ->
  forall prog h s K P s' K' P' ev, vstands h s K P -> Forall rint_stmt prog -> vrun eqb lt show grow prog s K P s' K' P' ev ->
  exists h', v_run eqb lt show d grow prog h = Ok (h', ev) /\ vstands h' s' K' P'.
Proof. exact @run_complete. Qed.
Print Assumptions C191_references_complete.

(** A program runs to its end as sequences do, or it is undefined. *)
Theorem C191_otherwise_undefined : forall (T : Type) (eqb lt : T -> T -> bool) (show : T -> list ascii) (d : T) (grow : Z -> Z -> Z),
  decides eqb -> strict_weak lt ->
  forall prog h s K P, vstands h s K P -> Forall rint_stmt prog ->
  (exists h' s' K' P' ev, v_run eqb lt show d grow prog h = Ok (h', ev) /\ vrun eqb lt show grow prog s K P s' K' P' ev /\ vstands h' s' K' P') \/
  (exists u, v_run eqb lt show d grow prog h = UB u).
Proof. exact @run_cases. Qed.
Print Assumptions C191_otherwise_undefined.

(** A statement is undefined exactly when sequences with pointers have no answer. *)
Theorem C191_undefined_exact : forall (T : Type) (eqb lt : T -> T -> bool) (show : T -> list ascii) (d : T) (grow : Z -> Z -> Z),
  decides eqb -> strict_weak lt ->
  forall c h s K P, vstands h s K P -> rint_stmt c ->
  ((exists u, v_step eqb lt show d grow c h = UB u) <-> ~ exists s' K' P' ev, vstep eqb lt show grow c s K P s' K' P' ev).
Proof. exact @step_ub. Qed.
Print Assumptions C191_undefined_exact.

(** The undefined statements: those of programs without pointers, and the use of a pointer that points to no element. *)
Theorem C191_undefined_only : forall (T : Type) (eqb lt : T -> T -> bool) (show : T -> list ascii) (d : T) (grow : Z -> Z -> Z),
  decides eqb -> strict_weak lt ->
  forall c h s K P u, vstands h s K P -> rint_stmt c -> v_step eqb lt show d grow c h = UB u ->
  (exists c', c = RDo c' /\ lundef c' s) \/ (exists r, lderefs c r /\ forall v i, P r <> LTo v i).
Proof. exact @step_risky. Qed.
Print Assumptions C191_undefined_only.

(** A reference names a position: after sort it gives the element that is there now. *)
Theorem C191_sort : forall (T : Type) (eqb lt : T -> T -> bool) (show : T -> list ascii) (d : T) (grow : Z -> Z -> Z),
  decides eqb -> strict_weak lt ->
  forall h s K P r v i k l' y, vstands h s K P -> INT_MIN <= i <= INT_MAX ->
  position (len (s v)) i = Some k -> stably_sorted lt (s v) l' -> nth_error l' k = Some y ->
  exists h', v_run eqb lt show d grow [RAddr r v i; RDo (LSort v); RRead r] h = Ok (h', [LElem y]).
Proof. exact @sort_moves. Qed.
Print Assumptions C191_sort.

(** Removing an element ends the references to it and to the elements behind it, and no others. *)
Theorem C191_remove : forall (T : Type) (eqb lt : T -> T -> bool) (show : T -> list ascii) (d : T) (grow : Z -> Z -> Z),
  decides eqb -> strict_weak lt ->
  forall h s K P r v i j k m y z, vstands h s K P -> INT_MIN <= i <= INT_MAX -> INT_MIN <= j <= INT_MAX ->
  position (len (s v)) i = Some k -> position (len (s v)) j = Some m -> nth_error (s v) k = Some y -> nth_error (s v) m = Some z ->
  ((k < m)%nat -> exists h', v_run eqb lt show d grow [RAddr r v i; RDo (LRemove v j); RRead r] h = Ok (h', [LElem z; LElem y])) /\
  ((m <= k)%nat -> v_run eqb lt show d grow [RAddr r v i; RDo (LRemove v j); RRead r] h = UB BadDeref).
Proof. exact @remove_exact. Qed.
Print Assumptions C191_remove.

(** An element of the list can be appended to it through a reference, whether or not the elements move. *)
Theorem C191_append_own : forall (T : Type) (eqb lt : T -> T -> bool) (show : T -> list ascii) (d : T) (grow : Z -> Z -> Z),
  decides eqb -> strict_weak lt ->
  forall h s K P r v i k y, vstands h s K P -> INT_MIN <= i <= INT_MAX ->
  position (len (s v)) i = Some k -> nth_error (s v) k = Some y -> len (s v) < INT_MAX ->
  exists h', v_run eqb lt show d grow [RAddr r v i; RAppend v r] h = Ok (h', []) /\ lview h' v = s v ++ [y].
Proof. exact @append_own. Qed.
Print Assumptions C191_append_own.

Example C191_case : vstands (VState (fun _ => []) (fun _ => 0) (fun _ => false) (fun _ => 0) 0%nat (fun _ => None)) (fun _ => @nil Z) (fun _ => 0) (fun _ => LNull) /\
  exists h, v_run Z.eqb Z.ltb (fun _ => []) 0 (fun c n => 2 * n)
    [RDo (LInit 0%nat [3; 1; 2]); RAddr 0 0 (-1); RDo (LAppend 0%nat 5); RRead 0; RWrite 0 9; RAppend 0 0; RDo (LGet 0%nat 2); RDo (LSort 0%nat); RRead 0;
     RDo (LMove 1%nat 0%nat); RRead 0; RAddr 1 0 0; RAddr 1 1 1; RDiv 1 1; RDo (LGet 1%nat 1); RRead 1]
    (VState (fun _ => []) (fun _ => 0) (fun _ => false) (fun _ => 0) 0%nat (fun _ => None)) =
  Ok (h, [LElem 2; LElem 9; LElem 5; LElem 5; LThrow IndexOutOfRange; LElem 5; LElem 5]).
Proof.
  split.
  - constructor; cbn; try contradiction; try discriminate; auto; try (intros; lia).
    all: try (intros v w [|i] [|j] a; discriminate); intros v; cbn; unfold INT_MAX; lia.
  - eexists. vm_compute. reflexivity.
Qed.
Example C191_case_remove : let h := VState (fun _ => []) (fun _ => 0) (fun _ => false) (fun _ => 0) 0%nat (fun _ => None) in
  (exists h', v_run Z.eqb Z.ltb (fun _ => []) 0 (fun c n => n) [RDo (LInit 0%nat [3; 1; 2]); RAddr 0 0 0; RDo (LRemove 0%nat 1); RRead 0] h = Ok (h', [LElem 1; LElem 3])) /\
  v_run Z.eqb Z.ltb (fun _ => []) 0 (fun c n => n) [RDo (LInit 0%nat [3; 1; 2]); RAddr 0 0 2; RDo (LRemove 0%nat 1); RRead 0] h = UB BadDeref.
Proof. split; [eexists|]; vm_compute; reflexivity. Qed.
Example C191_case_append_own : exists h', v_run Z.eqb Z.ltb (fun _ => []) 0 (fun c n => n) [RDo (LInit 0%nat [3; 1; 2]); RAddr 0 0 0; RAppend 0 0; RDo (LGet 0%nat 3)]
    (VState (fun _ => []) (fun _ => 0) (fun _ => false) (fun _ => 0) 0%nat (fun _ => None)) = Ok (h', [LElem 3]).
Proof. eexists. vm_compute. reflexivity. Qed.

(** Whatever capacities the library chooses, enough appends end every reference into the list. *)
Theorem C192_append_refuted : forall (T : Type) (eqb lt : T -> T -> bool) (show : T -> list ascii) (d : T) (grow : Z -> Z -> Z),
  decides eqb -> strict_weak lt ->
  forall h s K P r v i k x, vstands h s K P -> INT_MIN <= i <= INT_MAX ->
  position (len (s v)) i = Some k -> K v < INT_MAX ->
  exists n, len (s v) + Z.of_nat n <= INT_MAX /\ v_run eqb lt show d grow (RAddr r v i :: repeat (RDo (LAppend v x)) n ++ [RRead r]) h = UB BadDeref.
Proof. exact @append_ends. Qed.
Print Assumptions C192_append_refuted.

(** A reference survives appends exactly as long as the capacity suffices. *)
Theorem C192_append_exact : forall (T : Type) (eqb lt : T -> T -> bool) (show : T -> list ascii) (d : T) (grow : Z -> Z -> Z),
  decides eqb -> strict_weak lt ->
  forall n h s K P r v i k x y, vstands h s K P -> INT_MIN <= i <= INT_MAX ->
  position (len (s v)) i = Some k -> nth_error (s v) k = Some y -> len (s v) + Z.of_nat n <= INT_MAX ->
  (len (s v) + Z.of_nat n <= K v -> exists h', v_run eqb lt show d grow (RAddr r v i :: repeat (RDo (LAppend v x)) n ++ [RRead r]) h = Ok (h', [LElem y])) /\
  (K v < len (s v) + Z.of_nat n -> v_run eqb lt show d grow (RAddr r v i :: repeat (RDo (LAppend v x)) n ++ [RRead r]) h = UB BadDeref).
Proof. exact @append_exact. Qed.
Print Assumptions C192_append_exact.

Example C192_case : let h := VState (fun _ => []) (fun _ => 0) (fun _ => false) (fun _ => 0) 0%nat (fun _ => None) in
  let init := [RDo (LInit 0%nat [3; 1; 2]); RDo (LAppend 0%nat 4)] in
  (exists h', v_run Z.eqb Z.ltb (fun _ => []) 0 (fun c n => 2 * c) (init ++ [RAddr 0 0 0; RDo (LAppend 0%nat 7); RDo (LAppend 0%nat 7); RRead 0]) h = Ok (h', [LElem 3])) /\
  v_run Z.eqb Z.ltb (fun _ => []) 0 (fun c n => 2 * c) (init ++ [RAddr 0 0 0; RDo (LAppend 0%nat 7); RDo (LAppend 0%nat 7); RDo (LAppend 0%nat 7); RRead 0]) h = UB BadDeref.
Proof. split; [eexists|]; vm_compute; reflexivity. Qed.
