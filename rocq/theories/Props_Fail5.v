(** Strs when memory may run out: C248..C251. *)
From Coq Require Import ZArith Ascii String List Bool Lia.
From Verif Require Import IntMemSpec Outcome IntModel StrModel StrSpec StrProgModel StrProgSpec FailModel FailRunModel FailRunSpec StrFailModel StrFailSpec StrFail StrFailCost.
Import ListNotations.
Open Scope Z_scope.

(** A call that uses no string stream does what it does with enough memory, or throws std::bad_alloc and leaves every Str and every List<Str> as it was. It is undefined only if it is undefined anyway. *)
Theorem C248_outcome : forall (ok : nat -> bool) (grow : nat -> nat -> nat) p q c s k, unstreamed c (ftexts s) ->
  xends ok (xstep p q c (ftexts s)) (ftexts s) k (fxstep ok grow p q c s k).
Proof. exact step_ends. Qed.
Print Assumptions C248_outcome.

(** Moving, indexing, size, find, count, comparing, iterating and printing allocate nothing. *)
Theorem C248_eventless : forall (ok : nat -> bool) (grow : nat -> nat -> nat) p q c s k s' k' ev, xeventless c ->
  fxstep ok grow p q c s k = Ok (s', k', ev) -> k' = k.
Proof. exact eventless_count. Qed.
Print Assumptions C248_eventless.

(** If no allocation fails, every statement, with string streams too, does what it does in StrProgModel. *)
Theorem C248_all_well : forall (ok : nat -> bool) (grow : nat -> nat -> nat) q p c s k s0 ev0, (forall n, (k <= n)%nat -> ok n = true) ->
  xstep p q c (ftexts s) = Ok (s0, ev0) ->
  exists s' k', fxstep ok grow p q c s k = Ok (s', k', map Saw ev0) /\ agree s0 (ftexts s').
Proof. exact all_well. Qed.
Print Assumptions C248_all_well.

(** u = v * 4 for v = "abcde": the buffer is allocated, the copy that is returned fails; u, which was "x", is as before. With memory it is a text of 20 characters. *)
Example C248_example :
  let s := FXStore (fun v => Xstr (if Nat.eqb v 1 then ["a"; "b"; "c"; "d"; "e"]%char else ["x"%char]) 15) (fun _ => Rvec [] 0) in
  let step ok := fxstep ok (fun n _ => (2 * n)%nat) ConstBenign Strict (XTimes 0 1 4) s 0%nat in
  match step (fun k => Nat.eqb k 0) with
  | Ok (s', k', ev) => strs (ftexts s') 0%nat = ["x"%char] /\ k' = 2%nat /\ ev = [Failed 1]
  | _ => False
  end /\
  match step (fun _ => true) with
  | Ok (s', k', ev) => length (strs (ftexts s') 0%nat) = 20%nat /\ k' = 2%nat /\ ev = []
  | _ => False
  end /\
  unstreamed (XTimes 0 1 4) (ftexts s) /\ xeventless (XMove 0 1).
Proof. vm_compute. intuition. Qed.

(** Not so: format and replace of the empty text write to a string stream, which catches the exception; they return a text that is cut off, and nothing tells the caller. *)
Theorem C249_refuted : ~ (forall ok grow p q c s k s' k' ev, short (ftexts s) -> xint c -> fxstep ok grow p q c s k = Ok (s', k', ev) ->
  (exists n, In (Failed n) ev) \/ exists s0 ev0, xstep p q c (ftexts s) = Ok (s0, ev0) /\ agree s0 (ftexts s') /\ ev = map Saw ev0).
Proof. exact not_or_throws. Qed.
Print Assumptions C249_refuted.

(** What they do instead: the text, or std::bad_alloc, or the text up to a place where the stream needed memory, which is after 15 or 512 * 2^i characters. *)
Theorem C249_exact : forall (ok : nat -> bool) (grow : nat -> nat -> nat) p q c s k, ~ unstreamed c (ftexts s) ->
  exists u t, declares c u /\ xstep p q c (ftexts s) = Ok (set_str (ftexts s) u t, []) /\
              xtruncates ok c t (ftexts s) k (fxstep ok grow p q c s k).
Proof. exact step_truncates. Qed.
Print Assumptions C249_exact.

(** Str("{}").format(t) for a text t of 16 characters, when the first allocation fails: 15 characters, no exception. *)
Theorem C249_format : forall grow p q,
  exists s', fxstep (fun k => negb (Nat.eqb k 0)) grow p q (XFormat 0 1 [XTextArg sixteen]) (bare (fun _ => ["{"; "}"]%char)) 0 = Ok (s', 1%nat, []) /\
  strs (ftexts s') 0%nat = firstn 15 sixteen /\
  xstep p q (XFormat 0 1 [XTextArg sixteen]) (ftexts (bare (fun _ => ["{"; "}"]%char))) = Ok (set_str (ftexts (bare (fun _ => ["{"; "}"]%char))) 0 sixteen, []).
Proof. exact format_silent. Qed.
Print Assumptions C249_format.

(** v.replace("", "-") for a text v of 16 characters, when the first allocation fails: 16 characters instead of 33. *)
Theorem C249_replace : forall grow p q,
  let s := bare (fun v => match v with 1%nat => sixteen | 3%nat => ["-"%char] | _ => [] end) in
  exists s', fxstep (fun k => negb (Nat.eqb k 0)) grow p q (XReplace 0 1 2 3) s 0 = Ok (s', 3%nat, []) /\
  length (strs (ftexts s') 0%nat) = 16%nat /\
  exists t, xstep p q (XReplace 0 1 2 3) (ftexts s) = Ok (set_str (ftexts s) 0 t, []) /\ length t = 33%nat.
Proof. exact replace_silent. Qed.
Print Assumptions C249_replace.

(** The statements of C249_exact. *)
Example C249_example :
  let s := bare (fun v => match v with 1%nat => sixteen | 3%nat => ["-"%char] | _ => [] end) in
  ~ unstreamed (XFormat 0 1 [XTextArg sixteen]) (ftexts s) /\ ~ unstreamed (XReplace 0 1 2 3) (ftexts s) /\
  truncated (ftexts s) (XReplace 0 1 2 3) (repeat "-"%char 33) (repeat "-"%char 16).
Proof.
  intros s. split; [intros []|]. split; [intros X; apply X; reflexivity|].
  refine (tr_replace (ftexts s) 0%nat 1%nat 2%nat 3%nat (repeat "-"%char 33) 15 _ _ _); [reflexivity|left; reflexivity|cbn; lia].
Qed.

(** A program that catches every exception behaves as one on plain texts: each statement does what it is for, or fails and leaves everything as it was, or, for format and replace of the empty text, makes a text that is cut off; up to a statement that is undefined, or to a text too long for an int. *)
Theorem C250_run : forall (ok : nat -> bool) (grow : nat -> nat -> nat) q prog s k, short (ftexts s) -> Forall xint prog ->
  (exists s' k' ev, fxrun ok grow ConstBenign q prog s k = Ok (s', k', ev) /\ xsurvives prog (ftexts s) (ftexts s') ev) \/
  (exists before c after s1 ev1, prog = before ++ c :: after /\ xsurvives before (ftexts s) s1 ev1 /\ short s1 /\ undefined c s1 /\
     exists w, fxrun ok grow ConstBenign q prog s k = UB w) \/
  (exists before after s1 ev1, prog = before ++ after /\ after <> [] /\ xsurvives before (ftexts s) s1 ev1 /\ ~ short s1).
Proof. exact fails_cases. Qed.
Print Assumptions C250_run.

(** Str u("0123456789abcdef"); u = u + u fails; Str w = u.reverse() goes through; u.size() is still 16. *)
Example C250_example :
  let t := list_ascii_of_string "0123456789abcdef" in
  let prog := [XInitStd 0 t; XPlus 0 0 0; XReverse 1 0; XSize 0] in
  match fxrun (fun k => negb (Nat.eqb k 2)) (fun n _ => (2 * n)%nat) ConstBenign Strict prog (bare (fun _ => [])) 0 with
  | Ok (s', k', ev) => strs (ftexts s') 0%nat = t /\ strs (ftexts s') 1%nat = rev t /\ k' = 5%nat /\ ev = [Failed 2; Saw (XNum 16)]
  | _ => False
  end /\ short (ftexts (bare (fun _ => []))) /\ Forall xint prog.
Proof.
  split; [vm_compute; auto|]. split; [apply bare_short; intros; cbn; lia|]. repeat constructor.
Qed.

(** The number of allocations of a statement that ends without exception, for all statements but replace, split, format and to_integer. *)
Theorem C251_count : forall (ok : nat -> bool) (grow : nat -> nat -> nat) p q c s k s' k' ev, short (ftexts s) -> counted c <> None ->
  fxstep ok grow p q c s k = Ok (s', k', ev) -> calm StrProgModel.XThrow ev -> k' = (k + xevent_count c s (made c s'))%nat.
Proof. exact xcounted. Qed.
Print Assumptions C251_count.

(** As long as no text has more than 15 characters, none of these that make a Str allocates anything. *)
Theorem C251_small : forall (ok : nat -> bool) (grow : nat -> nat -> nat) p q c u s k s' k' ev, short (ftexts s) -> counted c = Some (Some u) ->
  fxstep ok grow p q c s k = Ok (s', k', ev) -> calm StrProgModel.XThrow ev ->
  (forall v, (length (strs (ftexts s) v) <= 15)%nat) -> (length (strs (ftexts s') u) <= 15)%nat -> k' = k.
Proof. exact small_free. Qed.
Print Assumptions C251_small.

(** A copy of 16 characters is one allocation, v + w two, v.erase(0, 8) only that of the buffer; every second character of 40 makes a buffer that grows once. *)
Example C251_example :
  let s := bare (fun v => match v with 1%nat => sixteen | 2%nat => sixteen ++ sixteen ++ repeat "b"%char 8 | _ => [] end) in
  let count c := match fxstep (fun _ => true) (fun n _ => (2 * n)%nat) ConstBenign Strict c s 0%nat with Ok (s', k', ev) => Some (k', length ev) | _ => None end in
  count (XCopy 0 1) = Some (1%nat, 0%nat) /\ count (XPlus 0 1 2) = Some (2%nat, 0%nat) /\ count (XErase 0 1 0 8) = Some (1%nat, 0%nat) /\
  count (XSlice 0 2 0 40 2) = Some (2%nat, 0%nat) /\ count (XSlice 0 2 0 40 4) = Some (0%nat, 0%nat) /\ counted (XCopy 0 1) = Some (Some 0%nat) /\
  short (ftexts s).
Proof.
  do 6 (split; [vm_compute; reflexivity|]). apply bare_short. intros [|[|[|]]]; cbn; lia.
Qed.
