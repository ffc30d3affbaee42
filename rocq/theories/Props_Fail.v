(** Lists whose allocations and element copies may throw: C227..C231. *)
From Coq Require Import ZArith Ascii String List Bool Lia.
From Verif Require Import Outcome ListModel ListProgModel ListSpec ListProgSpec FailModel ListFailModel ListFailSpec IntMemSpec ListFail ListFailCost.
Import ListNotations.
Open Scope Z_scope.

(** A statement ends as it does when nothing fails, or with the exception of the first event that failed. *)
Theorem C227_outcome : forall (T : Type) (ok : nat -> bool) (grow : nat -> nat -> nat) (nothrow : bool) (moved : T -> T) (eqb lt : T -> T -> bool) (show : T -> list ascii) (d : T) c s k s' k' ev,
  flstep ok grow nothrow moved eqb lt show d c s k = Ok (s', k', ev) ->
  ((k <= k')%nat /\ plenty ok k k' /\ exists e' ev0, lstep eqb lt show d c (contents s) = Ok (e', ev0) /\ same e' (contents s') /\ ev = map FSaw ev0) \/
  (exists n, ev = [FFailed n] /\ (k <= n)%nat /\ k' = S n /\ ok n = false /\ plenty ok k n /\ leftover nothrow moved c (contents s) (contents s')).
Proof. exact (fun T => @step_done T). Qed.
Print Assumptions C227_outcome.

(** A statement is undefined only if it is undefined when nothing fails. *)
Theorem C227_undefined : forall (T : Type) (ok : nat -> bool) (grow : nat -> nat -> nat) (nothrow : bool) (moved : T -> T) (eqb lt : T -> T -> bool) (show : T -> list ascii) (d : T) c s k u,
  flstep ok grow nothrow moved eqb lt show d c s k = UB u -> lstep eqb lt show d c (contents s) = UB u.
Proof. exact (fun T => @step_ub T). Qed.
Print Assumptions C227_undefined.

(** Moving, reading, removing, -=, /=, rotating, reversing, sorting, erasing, mapping, clearing, comparing and printing never fail. *)
Theorem C227_eventless : forall (T : Type) (ok : nat -> bool) (grow : nat -> nat -> nat) (nothrow : bool) (moved : T -> T) (eqb lt : T -> T -> bool) (show : T -> list ascii) (d : T) c s k, eventless c ->
  match flstep ok grow nothrow moved eqb lt show d c s k with
  | Ok (s', k', ev) => k' = k /\ exists e' ev0, lstep eqb lt show d c (contents s) = Ok (e', ev0) /\ same e' (contents s') /\ ev = map FSaw ev0
  | Throw _ => False
  | UB u => lstep eqb lt show d c (contents s) = UB u
  | OutOfFuel => lstep eqb lt show d c (contents s) = OutOfFuel
  end.
Proof. exact (fun T => @no_events T). Qed.
Print Assumptions C227_eventless.

(** If no event fails every statement does what it always does. *)
Theorem C227_all_well : forall (T : Type) (ok : nat -> bool) (grow : nat -> nat -> nat) (nothrow : bool) (moved : T -> T) (eqb lt : T -> T -> bool) (show : T -> list ascii) (d : T) c s k, (forall n, ok n = true) ->
  match flstep ok grow nothrow moved eqb lt show d c s k with
  | Ok (s', _, ev) => exists e' ev0, lstep eqb lt show d c (contents s) = Ok (e', ev0) /\ same e' (contents s') /\ ev = map FSaw ev0
  | Throw _ => False
  | UB u => lstep eqb lt show d c (contents s) = UB u
  | OutOfFuel => lstep eqb lt show d c (contents s) = OutOfFuel
  end.
Proof. exact (fun T => @all_well T). Qed.
Print Assumptions C227_all_well.

(** xs = [1, 2]; xs += 3 with the allocation (event 0) succeeding and the copy of 3 (event 1) failing, and with nothing failing. *)
Example C227_example :
  let s : flstore := fun _ => Rvec [1; 2] 2 in
  match flstep (fun k => negb (Nat.eqb k 1)) (fun n _ => (2 * n)%nat) true (fun _ => 0) Z.eqb Z.ltb (fun _ => []) 0 (LAppend 0%nat 3) s 0%nat with
  | Ok (s', k', ev) => relems (s' 0%nat) = [1; 2] /\ k' = 2%nat /\ ev = [FFailed 1]
  | _ => False
  end /\
  match flstep (fun _ => true) (fun n _ => (2 * n)%nat) true (fun _ => 0) Z.eqb Z.ltb (fun _ => []) 0 (LAppend 0%nat 3) s 0%nat with
  | Ok (s', k', ev) => relems (s' 0%nat) = [1; 2; 3] /\ rroom (s' 0%nat) = 4%nat /\ k' = 2%nat /\ ev = []
  | _ => False
  end /\
  eventless (T := Z) (LSort 0%nat).
Proof. vm_compute. intuition. Qed.

(** Not so: v = w, v = [1, 2, 3], w = [4, 5], leaves v = [4, 2, 3] when the copy of 5 throws. *)
Theorem C228_copy_refuted : exists ok grow moved (s : flstore) s' k' n,
  (forall v, (length (relems (s v)) <= rroom (s v))%nat) /\
  flstep ok grow true moved Z.eqb Z.ltb (fun _ => []) 0 (LCopy 0%nat 1%nat) s 0%nat = Ok (s', k', [FFailed n]) /\
  contents s 0%nat = [1; 2; 3] /\ contents s 1%nat = [4; 5] /\ contents s' 0%nat = [4; 2; 3].
Proof. exact copy_witness. Qed.
Print Assumptions C228_copy_refuted.

(** Not so: v.filter(even), v = [1, 2, 4, 5], leaves v = [2, 2, 4, 5] when the copy of 4 throws. *)
Theorem C228_filter_refuted : exists ok grow moved (s : flstore) s' k' n,
  (forall v, (length (relems (s v)) <= rroom (s v))%nat) /\
  flstep ok grow true moved Z.eqb Z.ltb (fun _ => []) 0 (LFilter 0%nat Z.even) s 0%nat = Ok (s', k', [FFailed n]) /\
  contents s 0%nat = [1; 2; 4; 5] /\ contents s' 0%nat = [2; 2; 4; 5].
Proof. exact filter_witness. Qed.
Print Assumptions C228_filter_refuted.

(** Not so: v += w and v.extend(w), v = [1, 2], w = [3], elements whose move is noexcept and leaves 0, leave v = [0, 0] when the copy of 3 throws. *)
Theorem C228_append_refuted : exists ok grow (s : flstore) n,
  (forall v, (length (relems (s v)) <= rroom (s v))%nat) /\ contents s 0%nat = [1; 2] /\ contents s 1%nat = [3] /\
  (exists s' k', flstep ok grow true (fun _ => 0) Z.eqb Z.ltb (fun _ => []) 0 (LAppendList 0%nat 1%nat) s 0%nat = Ok (s', k', [FFailed n]) /\ contents s' 0%nat = [0; 0]) /\
  (exists s' k', flstep ok grow true (fun _ => 0) Z.eqb Z.ltb (fun _ => []) 0 (LExtend 0%nat 1%nat) s 0%nat = Ok (s', k', [FFailed n]) /\ contents s' 0%nat = [0; 0]).
Proof. exact append_witness. Qed.
Print Assumptions C228_append_refuted.

(** v = w, with storage for the elements of w, stopped at the copy of element j of w: the first j elements are those of w. *)
Theorem C228_copy_stopped : forall (T : Type) (ok : nat -> bool) (grow : nat -> nat -> nat) (nothrow : bool) (moved : T -> T) (eqb lt : T -> T -> bool) (show : T -> list ascii) (d : T) v w s k j,
  v <> w -> (length (contents s w) <= rroom (s v))%nat -> (j < length (contents s w))%nat -> plenty ok k (k + j)%nat -> ok (k + j)%nat = false ->
  let i := Nat.min j (length (contents s v)) in
  exists s', flstep ok grow nothrow moved eqb lt show d (LCopy v w) s k = Ok (s', S (k + j), [FFailed (k + j)]) /\
             same (lset (contents s) v (firstn i (contents s w) ++ skipn i (contents s v))) (contents s').
Proof. exact (fun T => @copy_stopped T). Qed.
Print Assumptions C228_copy_stopped.

(** v.filter(p) stopped at the copy of the element to be kept number j: the first j places hold the elements to be kept. *)
Theorem C228_filter_stopped : forall (T : Type) (ok : nat -> bool) (grow : nat -> nat -> nat) (nothrow : bool) (moved : T -> T) (eqb lt : T -> T -> bool) (show : T -> list ascii) (d : T) v p s k j,
  (j < length (filter p (contents s v)))%nat -> plenty ok k (k + j)%nat -> ok (k + j)%nat = false ->
  exists s', flstep ok grow nothrow moved eqb lt show d (LFilter v p) s k = Ok (s', S (k + j), [FFailed (k + j)]) /\
             same (lset (contents s) v (firstn j (filter p (contents s v)) ++ skipn j (contents s v))) (contents s').
Proof. exact (fun T => @filter_stopped T). Qed.
Print Assumptions C228_filter_stopped.

(** v += w, without storage for the elements of w and with a noexcept move, stopped at any copy: all elements of v are moved from. *)
Theorem C228_append_stopped : forall (T : Type) (ok : nat -> bool) (grow : nat -> nat -> nat) (nothrow : bool) (moved : T -> T) (eqb lt : T -> T -> bool) (show : T -> list ascii) (d : T) v w s k j,
  v <> w -> nothrow = true -> sized (contents s) ->
  Z.of_nat (length (contents s v)) / 2 + Z.of_nat (length (contents s w)) / 2 < INT_MAX / 2 ->
  (rroom (s v) < length (contents s v) + length (contents s w))%nat -> (j < length (contents s w))%nat ->
  plenty ok k (k + S j)%nat -> ok (k + S j)%nat = false ->
  exists s', flstep ok grow nothrow moved eqb lt show d (LAppendList v w) s k = Ok (s', S (k + S j), [FFailed (k + S j)]) /\
             same (lset (contents s) v (map moved (contents s v))) (contents s').
Proof. exact (fun T => @append_stopped T). Qed.
Print Assumptions C228_append_stopped.

(** The same for extend. *)
Theorem C228_extend_stopped : forall (T : Type) (ok : nat -> bool) (grow : nat -> nat -> nat) (nothrow : bool) (moved : T -> T) (eqb lt : T -> T -> bool) (show : T -> list ascii) (d : T) v w s k j,
  v <> w -> nothrow = true -> sized (contents s) ->
  Z.of_nat (length (contents s v)) + Z.of_nat (length (contents s w)) <= INT_MAX ->
  (rroom (s v) < length (contents s v) + length (contents s w))%nat -> (j < length (contents s w))%nat ->
  plenty ok k (k + S j)%nat -> ok (k + S j)%nat = false ->
  exists s', flstep ok grow nothrow moved eqb lt show d (LExtend v w) s k = Ok (s', S (k + S j), [FFailed (k + S j)]) /\
             same (lset (contents s) v (map moved (contents s v))) (contents s').
Proof. exact (fun T => @extend_stopped T). Qed.
Print Assumptions C228_extend_stopped.

(** The hypotheses of C228_append_stopped and C228_copy_stopped for Lists [1, 2] and [3, 4, 5], the copy of 4 failing. *)
Example C228_example :
  let s : flstore := fun v => match v with O => Rvec [1; 2] 3 | _ => Rvec [3; 4; 5] 3 end in
  let ok k := negb (Nat.eqb k 2) in
  plenty ok 0 2 /\ ok 2%nat = false /\ (rroom (s 0%nat) < length (contents s 0%nat) + length (contents s 1%nat))%nat /\
  match flstep ok (fun n m => (n + m)%nat) true (fun _ => 0) Z.eqb Z.ltb (fun _ => []) 0 (LAppendList 0%nat 1%nat) s 0%nat with
  | Ok (s', k', ev) => contents s' 0%nat = [0; 0] /\ contents s' 1%nat = [3; 4; 5] /\ ev = [FFailed 2]
  | _ => False
  end /\
  match flstep ok (fun n m => (n + m)%nat) true (fun _ => 0) Z.eqb Z.ltb (fun _ => []) 0 (LCopy 0%nat 1%nat) s 0%nat with
  | Ok (s', k', ev) => contents s' 0%nat = [3; 4] /\ ev = [FFailed 2]
  | _ => False
  end.
Proof. split; [intros j H; destruct j as [|[|j]]; [reflexivity|reflexivity|lia]|]. vm_compute. intuition. Qed.

(** A statement stopped by a failing event leaves all Lists as they were, unless it is v = w, v.filter(p), v += w or v.extend(w). *)
Theorem C229_unchanged : forall (T : Type) (ok : nat -> bool) (grow : nat -> nat -> nat) (nothrow : bool) (moved : T -> T) (eqb lt : T -> T -> bool) (show : T -> list ascii) (d : T) c s k s' k' n ev, steady nothrow c ->
  flstep ok grow nothrow moved eqb lt show d c s k = Ok (s', k', FFailed n :: ev) -> same (contents s) (contents s').
Proof. exact (fun T => @steady_fails T). Qed.
Print Assumptions C229_unchanged.

(** v += w and v.extend(w) leave all Lists as they were if there is storage for all elements, or if the allocation is what failed. *)
Theorem C229_append : forall (T : Type) (ok : nat -> bool) (grow : nat -> nat -> nat) (nothrow : bool) (moved : T -> T) (eqb lt : T -> T -> bool) (show : T -> list ascii) (d : T) c v w s k s' k' n, c = LAppendList v w \/ c = LExtend v w ->
  (length (contents s v) + length (contents s w) <= rroom (s v))%nat \/ n = k ->
  flstep ok grow nothrow moved eqb lt show d c s k = Ok (s', k', [FFailed n]) -> same (contents s) (contents s').
Proof. exact (fun T => @append_unharmed T). Qed.
Print Assumptions C229_append.

(** u = v + x fails at its last copy; v *= 2 fails in the buffer; v.extend(w) has no storage and no noexcept move. *)
Example C229_example :
  let s : flstore := fun v => match v with O => Rvec [1; 2] 2 | _ => Rvec [3] 1 end in
  (let ok k := negb (Nat.eqb k 8) in
   match flstep ok (fun n m => (n + m)%nat) true (fun _ => 0) Z.eqb Z.ltb (fun _ => []) 0 (LPlusElem 1%nat 0%nat 7) s 0%nat with
   | Ok (s', k', ev) => contents s' 0%nat = [1; 2] /\ contents s' 1%nat = [3] /\ ev = [FFailed 8]
   | _ => False
   end) /\
  (let ok k := negb (Nat.eqb k 6) in
   match flstep ok (fun n m => (n + m)%nat) true (fun _ => 0) Z.eqb Z.ltb (fun _ => []) 0 (LTimes 0%nat 2) s 0%nat with
   | Ok (s', k', ev) => contents s' 0%nat = [1; 2] /\ ev = [FFailed 6]
   | _ => False
   end) /\
  (let ok k := negb (Nat.eqb k 3) in
   match flstep ok (fun n m => (n + m)%nat) false (fun _ => 0) Z.eqb Z.ltb (fun _ => []) 0 (LExtend 0%nat 1%nat) s 0%nat with
   | Ok (s', k', ev) => contents s' 0%nat = [1; 2] /\ ev = [FFailed 3]
   | _ => False
   end) /\
  steady (T := Z) true (LTimes 0%nat 2) /\ steady (T := Z) false (LExtend 0%nat 1%nat).
Proof. vm_compute. intuition. Qed.

(** A program that catches all exceptions does on Lists what it does on sequences, statements failing now and then. *)
Theorem C230_run : forall (T : Type) (ok : nat -> bool) (grow : nat -> nat -> nat) (nothrow : bool) (moved : T -> T) (eqb lt : T -> T -> bool) (show : T -> list ascii) (d : T), decides eqb -> strict_weak lt ->
  forall prog s k s' k' ev, sized (contents s) -> Forall int_stmt prog -> flrun ok grow nothrow moved eqb lt show d prog s k = Ok (s', k', ev) ->
  hrun eqb lt show nothrow moved prog (contents s) (contents s') ev /\ sized (contents s').
Proof. exact (fun T ok grow nothrow moved eqb lt show d D W => @run_ok T ok grow nothrow moved eqb lt show d W D). Qed.
Print Assumptions C230_run.

(** It is undefined only through a statement that is undefined for the sequences it is run on. *)
Theorem C230_undefined : forall (T : Type) (ok : nat -> bool) (grow : nat -> nat -> nat) (nothrow : bool) (moved : T -> T) (eqb lt : T -> T -> bool) (show : T -> list ascii) (d : T), decides eqb -> strict_weak lt ->
  forall prog s k u, sized (contents s) -> Forall int_stmt prog -> flrun ok grow nothrow moved eqb lt show d prog s k = UB u ->
  exists pre c post e ev, prog = pre ++ c :: post /\ hrun eqb lt show nothrow moved pre (contents s) e ev /\ lundef c e.
Proof. exact (fun T ok grow nothrow moved eqb lt show d D W => @run_undefined T ok grow nothrow moved eqb lt show d W D). Qed.
Print Assumptions C230_undefined.

(** There is no third way for it to end. *)
Theorem C230_total : forall (T : Type) (ok : nat -> bool) (grow : nat -> nat -> nat) (nothrow : bool) (moved : T -> T) (eqb lt : T -> T -> bool) (show : T -> list ascii) (d : T), decides eqb -> strict_weak lt ->
  forall prog s k, sized (contents s) -> Forall int_stmt prog ->
  match flrun ok grow nothrow moved eqb lt show d prog s k with Ok _ | UB _ => True | Throw _ | OutOfFuel => False end.
Proof. exact (fun T ok grow nothrow moved eqb lt show d D W => @run_goes_on T ok grow nothrow moved eqb lt show d W D). Qed.
Print Assumptions C230_total.

(** xs = {1, 2}; xs += 3 fails; ys = xs; ys += 4; xs.filter(even) fails; print xs, ys. *)
Example C230_example :
  let prog := [LInit 0%nat [1; 2]; LAppend 0%nat 3; LCopy 1%nat 0%nat; LAppend 1%nat 4; LFilter 1%nat Z.even; LSize 1%nat] in
  let ok k := negb (Nat.eqb k 4) && negb (Nat.eqb k 11) in
  Forall int_stmt prog /\
  match flrun ok (fun n m => (n + m)%nat) true (fun _ => 0) Z.eqb Z.ltb (fun _ => []) 0 prog (fun _ => Rvec [] 0) 0%nat with
  | Ok (s, k, ev) => contents s 0%nat = [1; 2] /\ contents s 1%nat = [2; 2; 4] /\ ev = [FFailed 4; FFailed 11; FSaw (LNum 3)]
  | _ => False
  end.
Proof. split; [repeat constructor; cbn; unfold INT_MAX; lia|]. vm_compute. intuition. Qed.

(** The number of allocations and element copies of a statement that ends without exception. *)
Theorem C231_count : forall (T : Type) (ok : nat -> bool) (grow : nat -> nat -> nat) (nothrow : bool) (moved : T -> T) (eqb lt : T -> T -> bool) (show : T -> list ascii) (d : T) c s k s' k' ev, sized (contents s) ->
  flstep ok grow nothrow moved eqb lt show d c s k = Ok (s', k', ev) -> normal ev -> k' = (k + event_count grow nothrow c s s')%nat.
Proof. exact (fun T => @counted T). Qed.
Print Assumptions C231_count.

(** In particular u = v + x makes 2n + 5 of them for n elements that can be moved, n > 0: three allocations and 2n + 2 copies. *)
Theorem C231_plus : forall (T : Type) (ok : nat -> bool) (grow : nat -> nat -> nat) (nothrow : bool) (moved : T -> T) (eqb lt : T -> T -> bool) (show : T -> list ascii) (d : T) u v x s k s' k' ev, sized (contents s) -> nothrow = true -> contents s v <> [] ->
  flstep ok grow nothrow moved eqb lt show d (LPlusElem u v x) s k = Ok (s', k', ev) -> normal ev -> k' = (k + 2 * length (contents s v) + 5)%nat.
Proof. exact (fun T => @plus_counted T). Qed.
Print Assumptions C231_plus.

(** And v *= n makes 3nm + 2 for m elements, nm > 0: two allocations, and every element of the result is made three times. *)
Theorem C231_times : forall (T : Type) (ok : nat -> bool) (grow : nat -> nat -> nat) (nothrow : bool) (moved : T -> T) (eqb lt : T -> T -> bool) (show : T -> list ascii) (d : T) v n s k s' k' ev, sized (contents s) -> 0 < n -> contents s v <> [] ->
  flstep ok grow nothrow moved eqb lt show d (LTimes v n) s k = Ok (s', k', ev) -> normal ev -> k' = (k + 3 * (Z.to_nat n * length (contents s v)) + 2)%nat.
Proof. exact (fun T => @times_counted T). Qed.
Print Assumptions C231_times.

(** [1, 2, 3] + 4 makes 11 events, [1, 2, 3] *= 2 makes 20, a slice of three elements makes 10 when the capacity doubles. *)
Example C231_example :
  let s : flstore := fun _ => Rvec [1; 2; 3] 3 in
  let count c := match flstep (fun _ => true) (fun n _ => (2 * n + (if Nat.eqb n 0 then 1 else 0))%nat) true (fun _ => 0) Z.eqb Z.ltb (fun _ => []) 0 c s 0%nat with
                 | Ok (s', k', ev) => Some (k', ev) | _ => None end in
  count (LPlusElem 1%nat 0%nat 4) = Some (11%nat, []) /\ count (LTimes 0%nat 2) = Some (20%nat, []) /\
  count (LSlice 1%nat 0%nat 0 3 1) = Some (10%nat, []) /\
  normal (T := Z) [] /\ sized (contents s).
Proof. split; [vm_compute; reflexivity|]. split; [vm_compute; reflexivity|]. split; [vm_compute; reflexivity|]. split; [intros x []|]. intros v. cbn. unfold INT_MAX. lia. Qed.
