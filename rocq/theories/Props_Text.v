(** Properties C172-C174: programs over Str and List<Str>. Theorems only; each is an instance of a
    lemma proved elsewhere and is followed by its assumptions and by a concrete case. *)
From Coq Require Import String Ascii ZArith List Bool Lia.
From Verif Require Import Outcome IntModel ListModel ListSpec StrModel StrSpec StrProgModel StrProgSpec StrProg ExTools.
Import ListNotations.
Open Scope Z_scope.

(** One statement, when every string is shorter than INT_MAX. *)
Theorem C172_step : forall q c s s' ev, short s -> xint c ->
  xstep ConstBenign q c s = Ok (s', ev) <-> astep c s s' ev.
Proof. exact step_exact. Qed.
Print Assumptions C172_step.

(** A run on texts is a run of the code. *)
Theorem C172_run : forall q prog s s' ev, Forall xint prog -> arun prog s s' ev ->
  xrun ConstBenign q prog s = Ok (s', ev).
Proof. exact run_complete. Qed.
Print Assumptions C172_run.

(** And there is one, unless a call is reached that the code leaves undefined, or a string of INT_MAX characters arises. *)
Theorem C172_cases : forall q prog s, short s -> Forall xint prog ->
  (exists s' ev, arun prog s s' ev /\ xrun ConstBenign q prog s = Ok (s', ev)) \/
  (exists before c after s1 ev1, prog = before ++ c :: after /\ arun before s s1 ev1 /\ short s1 /\ undefined c s1 /\
     exists u, xrun ConstBenign q prog s = UB u) \/
  (exists before after s1 ev1, prog = before ++ after /\ after <> [] /\ arun before s s1 ev1 /\ ~ short s1).
Proof. exact run_cases. Qed.
Print Assumptions C172_cases.

(** The run on texts is determined. *)
Theorem C172_unique : forall (q : policy) prog s s' ev s'' ev', Forall xint prog ->
  arun prog s s' ev -> arun prog s s'' ev' -> s' = s'' /\ ev = ev'.
Proof. exact arun_unique. Qed.
Print Assumptions C172_unique.

Example C172_case : forall q, Forall xint word_program /\ short (XStore (fun _ => []) (fun _ => [])) /\
  exists s, xrun ConstBenign q word_program (XStore (fun _ => []) (fun _ => [])) =
    Ok (s, [XNum 3; XText (chars """the-quick-fox"""); XText (chars """xof"""); XThrow IndexOutOfRange; XNum 2; XNum (-1); XText (chars "42"); XBool true]).
Proof.
  intros q. split; [|split].
  - repeat constructor; cbn; unfold INT_MIN, INT_MAX; lia.
  - split; cbn; [|split; [|constructor]]; intros; unfold INT_MAX; lia.
  - destruct q; eexists; vm_compute; reflexivity.
Qed.

Theorem C173_undefined_refuted : exists c s, short s /\ xint c /\ forall q, exists u, xstep ConstBenign q c s = UB u.
Proof. exact some_undefined. Qed.
Print Assumptions C173_undefined_refuted.

(** The predicate lists them: find and contains with a negative start or with stop < start, >> INT_MIN, erase with stop < start, a product above INT_MAX, a slice whose index overflows, self-move. *)
Theorem C173_undefined_exact : forall q c s, short s -> xint c ->
  (exists u, xstep ConstBenign q c s = UB u) <-> undefined c s.
Proof. exact undefined_exact. Qed.
Print Assumptions C173_undefined_exact.

Example C173_case : let s := XStore (fun _ => chars "abc") (fun _ => []) in
  short s /\ undefined (XErase 0 0 2 1) s /\ undefined (XFind 0 1 (-1) 2) s /\ ~ undefined (XErase 0 0 1 2) s /\ undefined (XTimes 0 0 INT_MAX) s.
Proof. cbn. repeat split; intros; try (constructor); unfold INT_MAX; cbn; try lia. Qed.

Theorem C174_declarations : forall q prog s, Forall (fun c => ~ writes c) prog -> xrun ConstUB q prog s = xrun ConstBenign q prog s.
Proof. exact run_const. Qed.
Print Assumptions C174_declarations.

Theorem C174_writes_refuted : forall q c s, writes c -> xstep ConstUB q c s = UB ConstWrite.
Proof. exact write_undefined. Qed.
Print Assumptions C174_writes_refuted.

Example C174_case : Forall (fun c => ~ writes c) word_program /\ writes (XAssign 0 1) /\ writes (XMoveAssign 0 1) /\ writes (XMove 0 1).
Proof. split; [repeat constructor; cbn; tauto|]. cbn. auto. Qed.
