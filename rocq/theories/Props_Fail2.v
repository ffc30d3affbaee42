(** Deques whose allocations and element copies may throw: C232..C236. *)
From Coq Require Import ZArith Ascii String List Bool Lia.
From Verif Require Import Outcome ListModel DequeModel ListSpec DequeSpec FailModel FailRunModel FailRunSpec DequeFailModel DequeFailSpec IntMemSpec DequeFail DequeFailCost.
Import ListNotations.
Open Scope Z_scope.

(** A statement ends as it does when nothing fails, or with the exception of the first event that failed; it is undefined only if it is undefined when nothing fails. *)
Theorem C232_outcome : forall (T : Type) (ok : nat -> bool) (nodes : nat -> nat) (eqb : T -> T -> bool) (show : T -> list ascii) c s k,
  ends ok (dstep eqb show c s) (dleft c s) k (fdstep ok nodes eqb show c s k).
Proof. exact (fun T => @dstep_ends T). Qed.
Print Assumptions C232_outcome.

(** Moving, reading, removing, rotating, reversing, clearing, comparing and printing never fail. *)
Theorem C232_eventless : forall (T : Type) (ok : nat -> bool) (nodes : nat -> nat) (eqb : T -> T -> bool) (show : T -> list ascii) c s k, deventless c ->
  match fdstep ok nodes eqb show c s k with
  | Ok (s', k', ev) => k' = k /\ exists s0 ev0, dstep eqb show c s = Ok (s0, ev0) /\ alike s0 s' /\ ev = map Saw ev0
  | Throw _ => False
  | UB u => dstep eqb show c s = UB u
  | OutOfFuel => dstep eqb show c s = OutOfFuel
  end.
Proof. exact (fun T => @dno_events T). Qed.
Print Assumptions C232_eventless.

(** If no event fails, every statement does what it does in DequeModel. *)
Theorem C232_all_well : forall (T : Type) (ok : nat -> bool) (nodes : nat -> nat) (eqb : T -> T -> bool) (show : T -> list ascii) c s k, (forall n, ok n = true) ->
  match fdstep ok nodes eqb show c s k with
  | Ok (s', _, ev) => exists s0 ev0, dstep eqb show c s = Ok (s0, ev0) /\ alike s0 s' /\ ev = map Saw ev0
  | Throw _ => False
  | UB u => dstep eqb show c s = UB u
  | OutOfFuel => dstep eqb show c s = OutOfFuel
  end.
Proof. exact (fun T => @dall_well T). Qed.
Print Assumptions C232_all_well.

(** push_back of 3 to [1, 2] when the copy fails and when it does not; an empty Deque throws as ever; popping has no event. *)
Example C232_example :
  let s : dstore Z := fun v => match v with O => [1; 2] | _ => [] end in
  let step ok := fdstep ok (fun _ => 1%nat) Z.eqb (fun _ => []) in
  match step (fun k => negb (Nat.eqb k 1)) (DPushBack 0%nat 3) s 0%nat with
  | Ok (s', k', ev) => s' 0%nat = [1; 2] /\ k' = 2%nat /\ ev = [Failed 1]
  | _ => False
  end /\
  match step (fun _ => true) (DPushBack 0%nat 3) s 0%nat with
  | Ok (s', k', ev) => s' 0%nat = [1; 2; 3] /\ k' = 2%nat /\ ev = []
  | _ => False
  end /\
  match step (fun _ => false) (DSetBack 1%nat 3) s 0%nat with
  | Ok (s', k', ev) => s' 1%nat = [] /\ k' = 0%nat /\ ev = [Saw (DThrow ContainerEmpty)]
  | _ => False
  end /\
  deventless (T := Z) (DPopFront 0%nat) /\
  match step (fun _ => false) (DPopFront 0%nat) s 0%nat with
  | Ok (s', k', ev) => s' 0%nat = [2] /\ k' = 0%nat /\ ev = [Saw (DElem 1)]
  | _ => False
  end.
Proof. vm_compute. intuition. Qed.

(** Not so: v = w, v = [1, 2, 3], w = [4, 5], leaves v = [4, 2, 3] when the copy of 5 throws. *)
Theorem C233_copy_refuted : exists (ok : nat -> bool) nodes (s : dstore Z) s' k' n,
  fdstep ok nodes Z.eqb (fun _ => []) (DCopy 0%nat 1%nat) s 0%nat = Ok (s', k', [Failed n]) /\
  s 0%nat = [1; 2; 3] /\ s 1%nat = [4; 5] /\ s' 0%nat = [4; 2; 3].
Proof. exact dcopy_witness. Qed.
Print Assumptions C233_copy_refuted.

(** v = w stopped at the assignment of element j: the first j elements are those of w. *)
Theorem C233_copy_stopped : forall (T : Type) (ok : nat -> bool) (nodes : nat -> nat) (eqb : T -> T -> bool) (show : T -> list ascii) v w s k j,
  v <> w -> (j < length (s w))%nat -> (j < length (s v))%nat -> plenty ok k (k + j)%nat -> ok (k + j)%nat = false ->
  fdstep ok nodes eqb show (DCopy v w) s k = Ok (dset s v (firstn j (s w) ++ skipn j (s v)), S (k + j), [Failed (k + j)]).
Proof. exact (fun T => @dcopy_stopped T). Qed.
Print Assumptions C233_copy_stopped.

(** The hypotheses of C233_copy_stopped for [1, 2, 3] and [4, 5, 6, 7], the copy of 6 failing. *)
Example C233_example :
  let s : dstore Z := fun v => match v with O => [1; 2; 3] | _ => [4; 5; 6; 7] end in
  let ok k := negb (Nat.eqb k 2) in
  plenty ok 0 (0 + 2)%nat /\ ok (0 + 2)%nat = false /\
  match fdstep ok (fun _ => 1%nat) Z.eqb (fun _ => []) (DCopy 0%nat 1%nat) s 0%nat with
  | Ok (s', k', ev) => s' 0%nat = [4; 5; 3] /\ s' 1%nat = [4; 5; 6; 7] /\ ev = [Failed 2]
  | _ => False
  end.
Proof. split; [intros j H; destruct j as [|[|j]]; [reflexivity|reflexivity|lia]|]. vm_compute. intuition. Qed.

(** A statement other than v = w that is stopped by a failing event leaves all Deques as they were. *)
Theorem C234_unchanged : forall (T : Type) (ok : nat -> bool) (nodes : nat -> nat) (eqb : T -> T -> bool) (show : T -> list ascii) c s k s' k' n ev, dsteady c ->
  fdstep ok nodes eqb show c s k = Ok (s', k', Failed n :: ev) -> alike s s'.
Proof. exact (fun T => @dsteady_fails T). Qed.
Print Assumptions C234_unchanged.

(** extend_front fails at its last copy, the assignment to an element fails. *)
Example C234_example :
  let s : dstore Z := fun v => match v with O => [1; 2] | _ => [3; 4] end in
  let step n := fdstep (fun k => negb (Nat.eqb k n)) (fun _ => 1%nat) Z.eqb (fun _ => []) in
  match step 2%nat (DExtendFront 0%nat 1%nat) s 0%nat with
  | Ok (s', k', ev) => s' 0%nat = [1; 2] /\ s' 1%nat = [3; 4] /\ k' = 3%nat /\ ev = [Failed 2]
  | _ => False
  end /\
  match step 0%nat (DSet 0%nat (-1) 7) s 0%nat with
  | Ok (s', k', ev) => s' 0%nat = [1; 2] /\ ev = [Failed 0]
  | _ => False
  end /\
  dsteady (T := Z) (DExtendFront 0%nat 1%nat) /\ dsteady (T := Z) (DSet 0%nat (-1) 7).
Proof. vm_compute. intuition. Qed.

(** A program that catches all exceptions does on Deques what it does on sequences, statements failing now and then. *)
Theorem C235_run : forall (T : Type) (ok : nat -> bool) (nodes : nat -> nat) (eqb : T -> T -> bool) (show : T -> list ascii), decides eqb ->
  forall prog s k s' k' ev, dsized s -> Forall dint_stmt prog -> fdrun ok nodes eqb show prog s k = Ok (s', k', ev) ->
  survives (pointwise (qstep show)) dleft prog s s' ev /\ dsized s'.
Proof. exact (fun T ok nodes eqb show D => @fdrun_ok T ok nodes eqb show D). Qed.
Print Assumptions C235_run.

(** It is undefined only through a move of a Deque to itself, through extending a Deque by itself, or through v >>= INT_MIN. *)
Theorem C235_undefined : forall (T : Type) (ok : nat -> bool) (nodes : nat -> nat) (eqb : T -> T -> bool) (show : T -> list ascii), decides eqb ->
  forall prog s k u, dsized s -> Forall dint_stmt prog -> fdrun ok nodes eqb show prog s k = UB u ->
  exists pre c post s' ev, prog = pre ++ c :: post /\ survives (pointwise (qstep show)) dleft pre s s' ev /\
    ((exists v, c = DMove v v) \/ (exists v, c = DExtendBack v v) \/ (exists v, c = DExtendFront v v) \/ (exists v, c = DShr v INT_MIN)).
Proof. exact (fun T ok nodes eqb show D => @fdrun_undef T ok nodes eqb show D). Qed.
Print Assumptions C235_undefined.

(** There is no third way for it to end. *)
Theorem C235_total : forall (T : Type) (ok : nat -> bool) (nodes : nat -> nat) (eqb : T -> T -> bool) (show : T -> list ascii), decides eqb ->
  forall prog s k, dsized s -> Forall dint_stmt prog ->
  match fdrun ok nodes eqb show prog s k with Ok _ | UB _ => True | Throw _ | OutOfFuel => False end.
Proof. exact (fun T ok nodes eqb show D => @fdrun_goes_on T ok nodes eqb show D). Qed.
Print Assumptions C235_total.

(** xs = {1, 2}; xs.push_back(3) fails; ys = {7, 8, 9}; ys = xs fails half way; xs.push_front(0); print sizes. *)
Example C235_example :
  let prog := [DInit 0%nat [1; 2]; DPushBack 0%nat 3; DInit 1%nat [7; 8; 9]; DCopy 1%nat 0%nat; DPushFront 0%nat 0; DSize 0%nat] in
  let ok k := negb (Nat.eqb k 3) && negb (Nat.eqb k 9) in
  Forall dint_stmt prog /\ dsized (fun _ : nat => @nil Z) /\
  match fdrun ok (fun _ => 1%nat) Z.eqb (fun _ => []) prog (fun _ => []) 0%nat with
  | Ok (s, k, ev) => s 0%nat = [0; 1; 2] /\ s 1%nat = [1; 8; 9] /\ ev = [Failed 3; Failed 9; Saw (DNum 3)]
  | _ => False
  end.
Proof. split; [repeat constructor; cbn; unfold INT_MAX; lia|]. split; [intros v; cbn; unfold INT_MAX; lia|]. vm_compute. intuition. Qed.

(** The number of allocations and element copies of a statement that ends without exception. *)
Theorem C236_count : forall (T : Type) (ok : nat -> bool) (nodes : nat -> nat) (eqb : T -> T -> bool) (show : T -> list ascii) c s k s' k' ev, dsized s ->
  fdstep ok nodes eqb show c s k = Ok (s', k', ev) -> calm DThrow ev -> k' = (k + devent_count nodes c s k)%nat.
Proof. exact (fun T => @dcounted T). Qed.
Print Assumptions C236_count.

(** Extending [1, 2, 3] by [4, 5] copies two elements, [1, 2, 3] = [4, 5] assigns two and allocates nothing, the other way round three. *)
Example C236_example :
  let s : dstore Z := fun v => match v with O => [1; 2; 3] | _ => [4; 5] end in
  let count c := match fdstep (fun _ => true) (fun _ => 1%nat) Z.eqb (fun _ => []) c s 0%nat with
                 | Ok (s', k', ev) => Some (k', ev) | _ => None end in
  count (DExtendBack 0%nat 1%nat) = Some (3%nat, []) /\ count (DCopy 0%nat 1%nat) = Some (2%nat, []) /\
  count (DCopy 1%nat 0%nat) = Some (4%nat, []) /\ calm (Ev := devent Z) DThrow [] /\ dsized s.
Proof. split; [vm_compute; reflexivity|]. split; [vm_compute; reflexivity|]. split; [vm_compute; reflexivity|]. split; [intros x []|]. intros [|v]; cbn; unfold INT_MAX; lia. Qed.
