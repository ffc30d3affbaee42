(** Dicts whose allocations and copies of keys and values may throw: C242..C246. *)
From Coq Require Import ZArith Ascii String List Bool Lia.
From Verif Require Import IntMemSpec Outcome ListModel SetModel DictModel ListSpec SetSpec DictSpec FailModel FailRunModel FailRunSpec SetFailModel DictFailModel DictFailSpec DictFail DictFailCost.
Import ListNotations.
Open Scope Z_scope.

(** A statement ends as it does when nothing fails, or with the exception of the first event that failed; it is undefined only if it is undefined when nothing fails. *)
Theorem C242_outcome : forall (K V : Type) (ok : nat -> bool) (ltk eqk : K -> K -> bool) (ltv eqv : V -> V -> bool) (showk : K -> list ascii) (showv : V -> list ascii), strict_total ltk ->
  forall c s e k, mstands ltk s e -> mint_stmt c ->
  ends ok (mstep ltk eqk ltv eqv showk showv c s) (fun s' => exists e', fleft ltk c e e' /\ mstands ltk s' e') k (fmstep ok ltk eqk ltv eqv showk showv c s k).
Proof. exact (fun K V => @mstep_left K V). Qed.
Print Assumptions C242_outcome.

(** Moving, v[k] and get, contains, remove, clear, size, comparing, iterating and printing never fail. *)
Theorem C242_eventless : forall (K V : Type) (ok : nat -> bool) (ltk eqk : K -> K -> bool) (ltv eqv : V -> V -> bool) (showk : K -> list ascii) (showv : V -> list ascii) c s k, meventless c ->
  match fmstep ok ltk eqk ltv eqv showk showv c s k with
  | Ok (s', k', ev) => k' = k /\ exists s0 ev0, mstep ltk eqk ltv eqv showk showv c s = Ok (s0, ev0) /\ alike s0 s' /\ ev = map Saw ev0
  | Throw _ => False
  | UB u => mstep ltk eqk ltv eqv showk showv c s = UB u
  | OutOfFuel => mstep ltk eqk ltv eqv showk showv c s = OutOfFuel
  end.
Proof. exact (fun K V => @mno_events K V). Qed.
Print Assumptions C242_eventless.

(** If no event fails, every statement does what it does in DictModel. *)
Theorem C242_all_well : forall (K V : Type) (ok : nat -> bool) (ltk eqk : K -> K -> bool) (ltv eqv : V -> V -> bool) (showk : K -> list ascii) (showv : V -> list ascii) c s k, (forall n, ok n = true) ->
  match fmstep ok ltk eqk ltv eqv showk showv c s k with
  | Ok (s', _, ev) => exists s0 ev0, mstep ltk eqk ltv eqv showk showv c s = Ok (s0, ev0) /\ alike s0 s' /\ ev = map Saw ev0
  | Throw _ => False
  | UB u => mstep ltk eqk ltv eqv showk showv c s = UB u
  | OutOfFuel => mstep ltk eqk ltv eqv showk showv c s = OutOfFuel
  end.
Proof. exact (fun K V => @mall_well K V). Qed.
Print Assumptions C242_all_well.

(** add to {1: 10, 3: 30}: key 2 when the copy of the key in the node fails, and when it does not; key 3, which is there, when the temporary pair cannot be made. *)
Example C242_example :
  let s : mstore Z Z := fun _ => [(1, 10); (3, 30)] in
  let step ok := fmstep ok Z.ltb Z.eqb Z.ltb Z.eqb (fun _ => []) (fun _ => []) in
  match step (fun k => negb (Nat.eqb k 3)) (MAdd 0%nat 2 20) s 0%nat with
  | Ok (s', k', ev) => s' 0%nat = [(1, 10); (3, 30)] /\ k' = 4%nat /\ ev = [Failed 3]
  | _ => False
  end /\
  match step (fun _ => true) (MAdd 0%nat 2 20) s 0%nat with
  | Ok (s', k', ev) => s' 0%nat = [(1, 10); (2, 20); (3, 30)] /\ k' = 4%nat /\ ev = [Saw (MBool true)]
  | _ => False
  end /\
  match step (fun k => Nat.eqb k 0) (MAdd 0%nat 3 0) s 0%nat with
  | Ok (s', k', ev) => s' 0%nat = [(1, 10); (3, 30)] /\ k' = 2%nat /\ ev = [Failed 1]
  | _ => False
  end /\
  meventless (K := Z) (V := Z) (MRemove 0%nat 3) /\
  mstands Z.ltb s (fun _ k => if k =? 1 then Some 10 else if k =? 3 then Some 30 else None).
Proof.
  split; [vm_compute; auto|]. split; [vm_compute; auto|]. split; [vm_compute; auto|]. split; [exact Logic.I|].
  intros v. split; [|cbn; unfold INT_MAX; lia]. split; [repeat constructor|]. intros k x. cbn [In].
  destruct (Z.eqb_spec k 1); [subst; intuition congruence|]. destruct (Z.eqb_spec k 3); [subst; intuition congruence|]. intuition congruence.
Qed.

(** Not so: pop on {1: 10, 2: 20} leaves {2: 20} when the copy of a key throws: the entry is lost. *)
Theorem C243_pop_refuted : exists (ok : nat -> bool) (s : mstore Z Z) s' k' n,
  fmstep ok Z.ltb Z.eqb Z.ltb Z.eqb (fun _ => []) (fun _ => []) (MPop 0%nat) s 0%nat = Ok (s', k', [Failed n]) /\
  s 0%nat = [(1, 10); (2, 20)] /\ s' 0%nat = [(2, 20)].
Proof. exact mpop_witness. Qed.
Print Assumptions C243_pop_refuted.

(** Not so: v = w, v = {1: 10, 2: 20}, w = {4: 40}, leaves v empty when the copy of 4 throws. *)
Theorem C243_copy_refuted : exists (ok : nat -> bool) (s : mstore Z Z) s' k' n,
  fmstep ok Z.ltb Z.eqb Z.ltb Z.eqb (fun _ => []) (fun _ => []) (MCopy 0%nat 1%nat) s 0%nat = Ok (s', k', [Failed n]) /\
  s 0%nat = [(1, 10); (2, 20)] /\ s 1%nat = [(4, 40)] /\ s' 0%nat = [].
Proof. exact mcopy_witness. Qed.
Print Assumptions C243_copy_refuted.

(** Not so: extending {1: 10} by 5: 50, 4: 40 leaves {1: 10, 5: 50} when there is no memory for the second. *)
Theorem C243_extend_refuted : exists (ok : nat -> bool) (s : mstore Z Z) s' k' n,
  fmstep ok Z.ltb Z.eqb Z.ltb Z.eqb (fun _ => []) (fun _ => []) (MExtend 0%nat [(5, 50); (4, 40)]) s 0%nat = Ok (s', k', [Failed n]) /\
  s 0%nat = [(1, 10)] /\ s' 0%nat = [(1, 10); (5, 50)].
Proof. exact mextend_witness. Qed.
Print Assumptions C243_extend_refuted.

(** Whenever the copy of the key or of the value that pop returns throws, the entry with the least key is gone. *)
Theorem C243_pop_stopped : forall (K V : Type) (ok : nat -> bool) (ltk eqk : K -> K -> bool) (ltv eqv : V -> V -> bool) (showk : K -> list ascii) (showv : V -> list ascii) v s k j p a,
  s v = p :: a -> Z.of_nat (length (s v)) <= INT_MAX -> (j < 2)%nat -> plenty ok k (k + j)%nat -> ok (k + j)%nat = false ->
  fmstep ok ltk eqk ltv eqv showk showv (MPop v) s k = Ok (mset s v a, S (k + j), [Failed (k + j)]).
Proof. exact (fun K V => @mpop_stopped K V). Qed.
Print Assumptions C243_pop_stopped.

(** Whenever a copy or an allocation of v = w throws, v is empty. *)
Theorem C243_copy_stopped : forall (K V : Type) (ok : nat -> bool) (ltk eqk : K -> K -> bool) (ltv eqv : V -> V -> bool) (showk : K -> list ascii) (showv : V -> list ascii) v w s k j,
  v <> w -> (j < 2 * length (s w) + (length (s w) - length (s v)))%nat -> plenty ok k (k + j)%nat -> ok (k + j)%nat = false ->
  fmstep ok ltk eqk ltv eqv showk showv (MCopy v w) s k = Ok (mset s v [], S (k + j), [Failed (k + j)]).
Proof. exact (fun K V => @mcopy_stopped K V). Qed.
Print Assumptions C243_copy_stopped.

(** When a copy or the allocation for the new key i throws, extend has inserted exactly the entries of the range before it. *)
Theorem C243_extend_stopped : forall (K V : Type) (ok : nat -> bool) (ltk eqk : K -> K -> bool) (ltv eqv : V -> V -> bool) (showk : K -> list ascii) (showv : V -> list ascii), strict_total ltk ->
  forall v pre i x post s e m k j n, mstands ltk s e -> Z.of_nat (length (s v) + length (pre ++ (i, x) :: post)) <= INT_MAX ->
  e v i = None -> (forall y, ~ In (i, y) pre) -> extended (e v) pre m -> card (has m) (Z.of_nat (length (s v) + n)) -> (j < 3)%nat ->
  plenty ok k (k + 3 * n + j)%nat -> ok (k + 3 * n + j)%nat = false ->
  exists s', fmstep ok ltk eqk ltv eqv showk showv (MExtend v (pre ++ (i, x) :: post)) s k = Ok (s', S (k + 3 * n + j), [Failed (k + 3 * n + j)]) /\
             mstands ltk s' (fset e v m).
Proof. exact (fun K V => @mextend_stopped K V). Qed.
Print Assumptions C243_extend_stopped.

(** The hypotheses of C243_extend_stopped: {1: 10} extended by 1: 0, 4: 40 with no memory for the second, which is event 0; those of the others at event 0. *)
Example C243_example :
  let s : mstore Z Z := fun _ => [(1, 10)] in
  let e : @fstore Z Z := fun _ k => if k =? 1 then Some 10 else None in
  let ok k := negb (Nat.eqb k 0) in
  mstands Z.ltb s e /\ e 0%nat 4 = None /\ (forall y, ~ In (4, y) [(1, 0)]) /\ extended (e 0%nat) [(1, 0)] (e 0%nat) /\
  card (has (e 0%nat)) (Z.of_nat (length (s 0%nat) + 0)) /\ plenty ok 0 (0 + 3 * 0 + 0)%nat /\ ok (0 + 3 * 0 + 0)%nat = false /\
  match fmstep ok Z.ltb Z.eqb Z.ltb Z.eqb (fun _ => []) (fun _ => []) (MExtend 0%nat ([(1, 0)] ++ (4, 40) :: [])) s 0%nat with
  | Ok (s', k', ev) => s' 0%nat = [(1, 10)] /\ k' = 1%nat /\ ev = [Failed 0]
  | _ => False
  end.
Proof.
  split; [intros v; split; [split; [repeat constructor|]|cbn; unfold INT_MAX; lia]|].
  { intros k x. cbn [In]. destruct (Z.eqb_spec k 1); [subst|]; intuition congruence. }
  split; [reflexivity|]. split; [intros y [Y|[]]; congruence|]. split.
  { intros k. split; [auto|]. intros N x. rewrite N. split; [discriminate|]. intros (a & b & X & _).
    destruct a as [|p a]; [injection X as <- <- _; discriminate|]. destruct a; discriminate. }
  split.
  { exists [1]. split; [repeat constructor; cbn; intuition lia|]. split; [|reflexivity]. intros k. unfold has. cbn [In].
    destruct (Z.eqb_spec k 1) as [->|N]; split; eauto; [intros [X|[]]; congruence|intros (x & X); discriminate]. }
  split; [intros j L; lia|]. vm_compute. auto.
Qed.

(** A statement other than v = w, v.pop() and v.extend(...) that is stopped by a failing event leaves all Dicts as they were. *)
Theorem C244_unchanged : forall (K V : Type) (ok : nat -> bool) (ltk eqk : K -> K -> bool) (ltv eqv : V -> V -> bool) (showk : K -> list ascii) (showv : V -> list ascii) c s k s' k' n ev, msteady c ->
  fmstep ok ltk eqk ltv eqv showk showv c s k = Ok (s', k', Failed n :: ev) -> alike s s'.
Proof. exact (fun K V => @msteady_fails K V). Qed.
Print Assumptions C244_unchanged.

(** v[2] = 0 when the assignment throws; items() when the last copy of the second pair does. *)
Example C244_example :
  let s : mstore Z Z := fun _ => [(1, 10); (2, 20)] in
  let step n := fmstep (fun k => negb (Nat.eqb k n)) Z.ltb Z.eqb Z.ltb Z.eqb (fun _ => []) (fun _ => []) in
  match step 0%nat (MSet 0%nat 2 0) s 0%nat with
  | Ok (s', k', ev) => s' 0%nat = [(1, 10); (2, 20)] /\ k' = 1%nat /\ ev = [Failed 0]
  | _ => False
  end /\
  match step 5%nat (MItems 0%nat) s 0%nat with
  | Ok (s', k', ev) => s' 0%nat = [(1, 10); (2, 20)] /\ k' = 6%nat /\ ev = [Failed 5]
  | _ => False
  end /\
  msteady (K := Z) (V := Z) (MSet 0%nat 2 0) /\ msteady (K := Z) (V := Z) (MItems 0%nat).
Proof. vm_compute. intuition. Qed.

(** A program that catches all exceptions does on Dicts what it does on finite maps, statements failing now and then. *)
Theorem C245_run : forall (K V : Type) (ok : nat -> bool) (ltk eqk : K -> K -> bool) (ltv eqv : V -> V -> bool) (showk : K -> list ascii) (showv : V -> list ascii),
  strict_total ltk -> strict_total ltv -> decides eqk -> decides eqv ->
  forall prog s e k s' k' ev, mstands ltk s e -> Forall mint_stmt prog -> fmrun ok ltk eqk ltv eqv showk showv prog s k = Ok (s', k', ev) ->
  exists e', survives (fstep ltk ltv showk showv) (fleft ltk) prog e e' ev /\ mstands ltk s' e'.
Proof. exact (fun K V => @fmrun_ok K V). Qed.
Print Assumptions C245_run.

(** It is undefined only through a move of a Dict to itself, through extending a Dict by itself, or through min or max of an empty Dict. *)
Theorem C245_undefined : forall (K V : Type) (ok : nat -> bool) (ltk eqk : K -> K -> bool) (ltv eqv : V -> V -> bool) (showk : K -> list ascii) (showv : V -> list ascii),
  strict_total ltk -> strict_total ltv -> decides eqk -> decides eqv ->
  forall prog s e k u, mstands ltk s e -> Forall mint_stmt prog -> fmrun ok ltk eqk ltv eqv showk showv prog s k = UB u ->
  exists pre c post e' ev, prog = pre ++ c :: post /\ survives (fstep ltk ltv showk showv) (fleft ltk) pre e e' ev /\
    ((exists v, c = MMove v v) \/ (exists v, c = MExtendDict v v) \/ (exists v, nothing (has (e' v)) /\ (c = MMin v \/ c = MMax v))).
Proof. exact (fun K V => @fmrun_undef K V). Qed.
Print Assumptions C245_undefined.

(** There is no third way for it to end. *)
Theorem C245_total : forall (K V : Type) (ok : nat -> bool) (ltk eqk : K -> K -> bool) (ltv eqv : V -> V -> bool) (showk : K -> list ascii) (showv : V -> list ascii),
  strict_total ltk -> strict_total ltv -> decides eqk -> decides eqv ->
  forall prog s e k, mstands ltk s e -> Forall mint_stmt prog ->
  match fmrun ok ltk eqk ltv eqv showk showv prog s k with Ok _ | UB _ => True | Throw _ | OutOfFuel => False end.
Proof. exact (fun K V => @fmrun_goes_on K V). Qed.
Print Assumptions C245_total.

(** xs = {2: 20, 1: 10}; xs.pop() fails at the value and loses key 1; ys = xs fails; ys.min() is then undefined, since a failing copy has emptied ys. *)
Example C245_example :
  let prog := [MInit 0%nat [(2, 20); (1, 10)]; MPop 0%nat; MInit 1%nat [(3, 30)]; MCopy 1%nat 0%nat; MSize 1%nat] in
  let ok k := negb (Nat.eqb k 7) && negb (Nat.eqb k 12) in
  let run p := fmrun ok Z.ltb Z.eqb Z.ltb Z.eqb (fun _ => []) (fun _ => []) p (fun _ => []) 0%nat in
  Forall mint_stmt prog /\ mstands Z.ltb (fun _ : nat => @nil (Z * Z)) (fun _ _ => None) /\
  match run prog with
  | Ok (s, k, ev) => s 0%nat = [(2, 20)] /\ s 1%nat = [] /\ ev = [Failed 7; Failed 12; Saw (MNum 0)]
  | _ => False
  end /\
  run (prog ++ [MMin 1%nat]) = UB BadDeref.
Proof.
  split; [repeat constructor; cbn; unfold INT_MAX; lia|].
  split; [intros v; split; [split; [constructor|intros k x; cbn; split; [tauto|discriminate]]|cbn; unfold INT_MAX; lia]|].
  split; [vm_compute; intuition|]. vm_compute. reflexivity.
Qed.

(** The number of allocations and copies of a statement that ends without exception. *)
Theorem C246_count : forall (K V : Type) (ok : nat -> bool) (ltk eqk : K -> K -> bool) (ltv eqv : V -> V -> bool) (showk : K -> list ascii) (showv : V -> list ascii) c s k s' k' ev,
  fmstep ok ltk eqk ltv eqv showk showv c s k = Ok (s', k', ev) -> calm MThrow ev -> k' = (k + mevent_count c s s' (length ev))%nat.
Proof. exact (fun K V => @mcounted K V). Qed.
Print Assumptions C246_count.

(** add of a key that is there copies key and value for nothing; add of a new one copies the key twice; values() of {1: 10, 2: 10} makes one node; items() two. *)
Example C246_example :
  let s : mstore Z Z := fun _ => [(1, 10); (2, 10)] in
  let count c := match fmstep (fun _ => true) Z.ltb Z.eqb Z.ltb Z.eqb (fun _ => []) (fun _ => []) c s 0%nat with
                 | Ok (s', k', ev) => Some (k', ev) | _ => None end in
  count (MAdd 0%nat 1 0) = Some (2%nat, [Saw (MBool false)]) /\ count (MAdd 0%nat 3 0) = Some (4%nat, [Saw (MBool true)]) /\
  count (MValues 0%nat) = Some (2%nat, [Saw (MVal 10)]) /\ count (MItems 0%nat) = Some (6%nat, [Saw (MPair (1, 10)); Saw (MPair (2, 10))]) /\
  calm (Ev := mevent Z Z) MThrow [Saw (MVal 10)].
Proof.
  split; [vm_compute; reflexivity|]. split; [vm_compute; reflexivity|]. split; [vm_compute; reflexivity|]. split; [vm_compute; reflexivity|].
  intros x [<-|[]] e; discriminate.
Qed.
