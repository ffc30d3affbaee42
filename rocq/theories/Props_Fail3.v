(** Sets whose allocations and element copies may throw: C237..C241. *)
From Coq Require Import ZArith Ascii String List Bool Lia.
From Verif Require Import IntMemSpec Outcome ListModel SetModel ListSpec SetSpec FailModel FailRunModel FailRunSpec SetFailModel SetFailSpec SetFail SetFailCost.
Import ListNotations.
Open Scope Z_scope.

(** A statement ends as it does when nothing fails, or with the exception of the first event that failed; it is undefined only if it is undefined when nothing fails. *)
Theorem C237_outcome : forall (T : Type) (ok : nat -> bool) (cost : nat) (lt eqb : T -> T -> bool) (show : T -> list ascii), strict_total lt ->
  forall c s e k, stands lt s e -> tint_stmt c ->
  ends ok (tstep lt eqb show c s) (fun s' => exists e', zleft lt c e e' /\ stands lt s' e') k (fsstep ok cost lt eqb show c s k).
Proof. exact (fun T => @tstep_left T). Qed.
Print Assumptions C237_outcome.

(** Moving, remove, clear, contains, size, comparing, iterating and printing never fail. *)
Theorem C237_eventless : forall (T : Type) (ok : nat -> bool) (cost : nat) (lt eqb : T -> T -> bool) (show : T -> list ascii) c s k, teventless c ->
  match fsstep ok cost lt eqb show c s k with
  | Ok (s', k', ev) => k' = k /\ exists s0 ev0, tstep lt eqb show c s = Ok (s0, ev0) /\ alike s0 s' /\ ev = map Saw ev0
  | Throw _ => False
  | UB u => tstep lt eqb show c s = UB u
  | OutOfFuel => tstep lt eqb show c s = OutOfFuel
  end.
Proof. exact (fun T => @tno_events T). Qed.
Print Assumptions C237_eventless.

(** If no event fails, every statement does what it does in SetModel. *)
Theorem C237_all_well : forall (T : Type) (ok : nat -> bool) (cost : nat) (lt eqb : T -> T -> bool) (show : T -> list ascii) c s k, (forall n, ok n = true) ->
  match fsstep ok cost lt eqb show c s k with
  | Ok (s', _, ev) => exists s0 ev0, tstep lt eqb show c s = Ok (s0, ev0) /\ alike s0 s' /\ ev = map Saw ev0
  | Throw _ => False
  | UB u => tstep lt eqb show c s = UB u
  | OutOfFuel => tstep lt eqb show c s = OutOfFuel
  end.
Proof. exact (fun T => @tall_well T). Qed.
Print Assumptions C237_all_well.

(** add of 2 to {1, 3} when the copy fails and when it does not; adding 3, which is there, has no event. *)
Example C237_example :
  let s : tstore Z := fun _ => [1; 3] in
  let step ok := fsstep ok 1 Z.ltb Z.eqb (fun _ => []) in
  match step (fun k => negb (Nat.eqb k 1)) (TAdd 0%nat 2) s 0%nat with
  | Ok (s', k', ev) => s' 0%nat = [1; 3] /\ k' = 2%nat /\ ev = [Failed 1]
  | _ => False
  end /\
  match step (fun _ => true) (TAdd 0%nat 2) s 0%nat with
  | Ok (s', k', ev) => s' 0%nat = [1; 2; 3] /\ k' = 2%nat /\ ev = [Saw (TBool true)]
  | _ => False
  end /\
  match step (fun _ => false) (TAdd 0%nat 3) s 0%nat with
  | Ok (s', k', ev) => s' 0%nat = [1; 3] /\ k' = 0%nat /\ ev = [Saw (TBool false)]
  | _ => False
  end /\
  teventless (T := Z) (TRemove 0%nat 3) /\ stands Z.ltb s (fun _ x => x = 1 \/ x = 3).
Proof.
  split; [vm_compute; auto|]. split; [vm_compute; auto|]. split; [vm_compute; auto|]. split; [exact Logic.I|].
  intros v. split; [|cbn; unfold INT_MAX; lia]. split; [repeat constructor|]. intros x. cbn. intuition.
Qed.

(** Not so: pop on {1, 2, 3} leaves {2, 3} when the copy of 1 throws: the element is lost. *)
Theorem C238_pop_refuted : exists (ok : nat -> bool) (s : tstore Z) s' k' n,
  fsstep ok 1 Z.ltb Z.eqb (fun _ => []) (TPop 0%nat) s 0%nat = Ok (s', k', [Failed n]) /\ s 0%nat = [1; 2; 3] /\ s' 0%nat = [2; 3].
Proof. exact tpop_witness. Qed.
Print Assumptions C238_pop_refuted.

(** Not so: v = w, v = {1, 2, 3}, w = {4}, leaves v empty when the copy of 4 throws. *)
Theorem C238_copy_refuted : exists (ok : nat -> bool) (s : tstore Z) s' k' n,
  fsstep ok 1 Z.ltb Z.eqb (fun _ => []) (TCopy 0%nat 1%nat) s 0%nat = Ok (s', k', [Failed n]) /\ s 0%nat = [1; 2; 3] /\ s 1%nat = [4] /\ s' 0%nat = [].
Proof. exact tcopy_witness. Qed.
Print Assumptions C238_copy_refuted.

(** Not so: extending {1} by 5, 4 leaves {1, 5} when there is no memory for 4. *)
Theorem C238_extend_refuted : exists (ok : nat -> bool) (s : tstore Z) s' k' n,
  fsstep ok 1 Z.ltb Z.eqb (fun _ => []) (TExtend 0%nat [5; 4]) s 0%nat = Ok (s', k', [Failed n]) /\ s 0%nat = [1] /\ s' 0%nat = [1; 5].
Proof. exact textend_witness. Qed.
Print Assumptions C238_extend_refuted.

(** Whenever the copy that pop returns throws, the least element is gone. *)
Theorem C238_pop_stopped : forall (T : Type) (ok : nat -> bool) (cost : nat) (lt eqb : T -> T -> bool) (show : T -> list ascii) v s k j x a,
  s v = x :: a -> Z.of_nat (length (s v)) <= INT_MAX -> (j < cost)%nat -> plenty ok k (k + j)%nat -> ok (k + j)%nat = false ->
  fsstep ok cost lt eqb show (TPop v) s k = Ok (tset s v a, S (k + j), [Failed (k + j)]).
Proof. exact (fun T => @tpop_stopped T). Qed.
Print Assumptions C238_pop_stopped.

(** Whenever a copy or an allocation of v = w throws, v is empty. *)
Theorem C238_copy_stopped : forall (T : Type) (ok : nat -> bool) (cost : nat) (lt eqb : T -> T -> bool) (show : T -> list ascii) v w s k j,
  v <> w -> (j < cost * length (s w) + (length (s w) - length (s v)))%nat -> plenty ok k (k + j)%nat -> ok (k + j)%nat = false ->
  fsstep ok cost lt eqb show (TCopy v w) s k = Ok (tset s v [], S (k + j), [Failed (k + j)]).
Proof. exact (fun T => @tcopy_stopped T). Qed.
Print Assumptions C238_copy_stopped.

(** When the copy or the allocation for x throws, extend has inserted exactly the elements of the range before x. *)
Theorem C238_extend_stopped : forall (T : Type) (ok : nat -> bool) (cost : nat) (lt eqb : T -> T -> bool) (show : T -> list ascii), strict_total lt ->
  forall v pre x post s e k j n, stands lt s e -> Z.of_nat (length (s v) + length (pre ++ x :: post)) <= INT_MAX ->
  ~ e v x -> ~ In x pre -> card (either (e v) (fun y => In y pre)) (Z.of_nat (length (s v) + n)) -> (j <= cost)%nat ->
  plenty ok k (k + S cost * n + j)%nat -> ok (k + S cost * n + j)%nat = false ->
  exists s', fsstep ok cost lt eqb show (TExtend v (pre ++ x :: post)) s k = Ok (s', S (k + S cost * n + j), [Failed (k + S cost * n + j)]) /\
             stands lt s' (zset e v (either (e v) (fun y => In y pre))).
Proof. exact (fun T => @textend_stopped T). Qed.
Print Assumptions C238_extend_stopped.

(** The hypotheses of C238_extend_stopped: {1} extended by 1, 5, 4 with no memory for 4, which is event 2; those of the others at event 0. *)
Example C238_example :
  let s : tstore Z := fun _ => [1] in
  let e : zstore Z := fun _ x => x = 1 in
  let ok k := negb (Nat.eqb k 2) in
  stands Z.ltb s e /\ ~ e 0%nat 4 /\ ~ In 4 [1; 5] /\ card (either (e 0%nat) (fun y => In y [1; 5])) (Z.of_nat (length (s 0%nat) + 1)) /\
  plenty ok 0 (0 + 2 * 1 + 0)%nat /\ ok (0 + 2 * 1 + 0)%nat = false /\
  match fsstep ok 1 Z.ltb Z.eqb (fun _ => []) (TExtend 0%nat ([1; 5] ++ 4 :: [])) s 0%nat with
  | Ok (s', k', ev) => s' 0%nat = [1; 5] /\ k' = 3%nat /\ ev = [Failed 2]
  | _ => False
  end.
Proof.
  split; [intros v; split; [split; [repeat constructor|intros x; cbn; intuition]|cbn; unfold INT_MAX; lia]|].
  split; [cbn; lia|]. split; [cbn; lia|]. split.
  { exists [1; 5]. split; [repeat constructor; cbn; intuition lia|]. split; [|reflexivity]. intros x. unfold either. cbn. intuition. }
  split; [intros j H; destruct j as [|[|j]]; [reflexivity|reflexivity|lia]|]. vm_compute. auto.
Qed.

(** A statement other than v = w, v.pop() and v.extend(...) that is stopped by a failing event leaves all Sets as they were. *)
Theorem C239_unchanged : forall (T : Type) (ok : nat -> bool) (cost : nat) (lt eqb : T -> T -> bool) (show : T -> list ascii) c s k s' k' n ev, tsteady c ->
  fsstep ok cost lt eqb show c s k = Ok (s', k', Failed n :: ev) -> alike s s'.
Proof. exact (fun T => @tsteady_fails T). Qed.
Print Assumptions C239_unchanged.

(** v ^= w fails at its last copy, u = v | w at its first allocation. *)
Example C239_example :
  let s : tstore Z := fun v => match v with O => [1; 2] | _ => [2; 3] end in
  let step n := fsstep (fun k => negb (Nat.eqb k n)) 1 Z.ltb Z.eqb (fun _ => []) in
  match step 3%nat (TXorA 0%nat 1%nat) s 0%nat with
  | Ok (s', k', ev) => s' 0%nat = [1; 2] /\ s' 1%nat = [2; 3] /\ k' = 4%nat /\ ev = [Failed 3]
  | _ => False
  end /\
  match step 0%nat (TOr 2%nat 0%nat 1%nat) s 0%nat with
  | Ok (s', k', ev) => s' 2%nat = [2; 3] /\ ev = [Failed 0]
  | _ => False
  end /\
  tsteady (T := Z) (TXorA 0%nat 1%nat) /\ tsteady (T := Z) (TOr 2%nat 0%nat 1%nat).
Proof. vm_compute. intuition. Qed.

(** A program that catches all exceptions does on Sets what it does on mathematical sets, statements failing now and then. *)
Theorem C240_run : forall (T : Type) (ok : nat -> bool) (cost : nat) (lt eqb : T -> T -> bool) (show : T -> list ascii), strict_total lt -> decides eqb ->
  forall prog s e k s' k' ev, stands lt s e -> Forall tint_stmt prog -> fsrun ok cost lt eqb show prog s k = Ok (s', k', ev) ->
  exists e', survives (zstep lt show) (zleft lt) prog e e' ev /\ stands lt s' e'.
Proof. exact (fun T => @fsrun_ok T). Qed.
Print Assumptions C240_run.

(** It is undefined only through a move of a Set to itself or through extending a Set by itself. *)
Theorem C240_undefined : forall (T : Type) (ok : nat -> bool) (cost : nat) (lt eqb : T -> T -> bool) (show : T -> list ascii), strict_total lt -> decides eqb ->
  forall prog s e k u, stands lt s e -> Forall tint_stmt prog -> fsrun ok cost lt eqb show prog s k = UB u ->
  exists pre c post e' ev, prog = pre ++ c :: post /\ survives (zstep lt show) (zleft lt) pre e e' ev /\
    ((exists v, c = TMove v v) \/ (exists v, c = TExtendSet v v)).
Proof. exact (fun T => @fsrun_undef T). Qed.
Print Assumptions C240_undefined.

(** There is no third way for it to end. *)
Theorem C240_total : forall (T : Type) (ok : nat -> bool) (cost : nat) (lt eqb : T -> T -> bool) (show : T -> list ascii), strict_total lt -> decides eqb ->
  forall prog s e k, stands lt s e -> Forall tint_stmt prog ->
  match fsrun ok cost lt eqb show prog s k with Ok _ | UB _ => True | Throw _ | OutOfFuel => False end.
Proof. exact (fun T => @fsrun_goes_on T). Qed.
Print Assumptions C240_total.

(** xs = {2, 1}; xs.pop() fails and loses 1; ys = {3}; ys = xs fails and empties ys; xs.add(7). *)
Example C240_example :
  let prog := [TInit 0%nat [2; 1]; TPop 0%nat; TInit 1%nat [3]; TCopy 1%nat 0%nat; TAdd 0%nat 7; TSize 1%nat] in
  let ok k := negb (Nat.eqb k 4) && negb (Nat.eqb k 7) in
  Forall tint_stmt prog /\ stands Z.ltb (fun _ : nat => @nil Z) (fun _ _ => False) /\
  match fsrun ok 1 Z.ltb Z.eqb (fun _ => []) prog (fun _ => []) 0%nat with
  | Ok (s, k, ev) => s 0%nat = [2; 7] /\ s 1%nat = [] /\ ev = [Failed 4; Failed 7; Saw (TBool true); Saw (TNum 0)]
  | _ => False
  end.
Proof.
  split; [repeat constructor; cbn; unfold INT_MAX; lia|]. split; [intros v; split; [split; [constructor|cbn; tauto]|cbn; unfold INT_MAX; lia]|].
  vm_compute. intuition.
Qed.

(** The number of allocations and element copies of a statement that ends without exception. *)
Theorem C241_count : forall (T : Type) (ok : nat -> bool) (cost : nat) (lt eqb : T -> T -> bool) (show : T -> list ascii) c s k s' k' ev, (forall v, Z.of_nat (length (s v)) <= INT_MAX) ->
  fsstep ok cost lt eqb show c s k = Ok (s', k', ev) -> calm TThrow ev -> k' = (k + tevent_count cost c s s')%nat.
Proof. exact (fun T => @tcounted T). Qed.
Print Assumptions C241_count.

(** v | w of {1, 2} and {2, 3} makes three nodes; v = w makes no node but copies two elements; pop copies one. *)
Example C241_example :
  let s : tstore Z := fun v => match v with O => [1; 2] | _ => [2; 3] end in
  let count c := match fsstep (fun _ => true) 1 Z.ltb Z.eqb (fun _ => []) c s 0%nat with
                 | Ok (s', k', ev) => Some (k', ev) | _ => None end in
  count (TOr 2%nat 0%nat 1%nat) = Some (6%nat, []) /\ count (TCopy 0%nat 1%nat) = Some (2%nat, []) /\
  count (TPop 0%nat) = Some (1%nat, [Saw (TElem 1)]) /\ calm (Ev := tevent Z) TThrow [Saw (TElem 1)] /\
  (forall v, Z.of_nat (length (s v)) <= INT_MAX).
Proof.
  split; [vm_compute; reflexivity|]. split; [vm_compute; reflexivity|]. split; [vm_compute; reflexivity|].
  split; [intros x [<-|[]] e; discriminate|]. intros [|v]; cbn; unfold INT_MAX; lia.
Qed.
