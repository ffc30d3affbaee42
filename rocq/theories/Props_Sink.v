(** Printing to streams whose buffers take only so many characters: C258..C261. *)
From Coq Require Import ZArith Ascii String List Bool Lia.
From Verif Require Import Outcome Show IntModel IntSpec FracModel FracSpec ListModel DictModel StrModel TupleModel FloatModel ComplexModel OStreamModel PrintSpec OStreamSpec
  SinkModel SinkSpec PrintFacts OStreamFacts ExTools Sink.
Import ListNotations.
Open Scope Z_scope.

(** Whatever the formatting state: [w] is what a stream without limit would write. *)
Theorem C258_any : forall m t x s, sound s ->
  exists w, written (put t x (front s)) = written (front s) ++ w /\ as_far_as_possible m s w (put t x (front s)) (sput m t x s).
Proof. exact printed_so_far. Qed.
Print Assumptions C258_any.

(** With the usual formatting state [w] is the text of the value. *)
Theorem C258_text : forall m t x s, held t x -> decimal (front s) -> width (front s) = 0 -> sound s ->
  as_far_as_possible m s (text t x) (appended (text t x) (wide t x) (front s)) (sput m t x s).
Proof. exact printed_text. Qed.
Print Assumptions C258_text.

(** Values printed one after the other. *)
Theorem C258_many : forall m l s, Forall (fun a => held (projT1 a) (projT2 a)) l -> decimal (front s) -> width (front s) = 0 -> sound s ->
  let w := flat_map (fun a => text (projT1 a) (projT2 a)) l in
  as_far_as_possible m s w (appended w (existsb (fun a => wide (projT1 a) (projT2 a)) l) (front s)) (sput_all m l s).
Proof. exact printed_many. Qed.
Print Assumptions C258_many.

(** Tuples. *)
Theorem C258_tuple : forall m us (t : tuple thing us) s, each held t -> decimal (front s) -> width (front s) = 0 -> sound s ->
  as_far_as_possible m s (tuple_print text t) (appended (tuple_print text t) (any wide t) (front s)) (tuple_sput m (sput m) t s).
Proof. exact printed_tuple. Qed.
Print Assumptions C258_tuple.

(** Complex, whatever the texts of doubles are. *)
Theorem C258_complex : forall m show z s, width (front s) = 0 -> sound s ->
  as_far_as_possible m s (cx_print show z) (appended (cx_print show z) false (front s)) (cx_sput m show z s).
Proof. exact printed_complex. Qed.
Print Assumptions C258_complex.

Example C258_example : let x := [MkInt 1 [2; 1]; MkInt (-1) [3]] in let s n := Sink plain (Some n) false false in let m := OMask true false in
  held (TList TInt) x /\ decimal plain /\ width plain = 0 /\ text (TList TInt) x = chars "[12, -3]" /\
  sput m (TList TInt) x (s 8%nat) = Done (Sink (OStream (chars "[12, -3]") 0 "0"%char SRight Dec false) (Some 0%nat) false false) /\
  sput m (TList TInt) x (s 6%nat) = Refused (Sink (OStream (chars "[12, -") 0 "0"%char SRight Dec false) (Some 0%nat) true false) /\
  sput (OMask false false) (TList TInt) x (s 6%nat) = Done (Sink (OStream (chars "[12, -") 0 "0"%char SRight Dec false) (Some 0%nat) true true) /\
  sput m TFraction (Frac (-22) 7) (s 2%nat) = Refused (Sink (OStream (chars "-2") 0 " "%char SRight Dec false) (Some 0%nat) true false) /\
  sput m TMachine 7 (s_setw 5 (s 3%nat)) = Refused (Sink (OStream (chars "   ") 0 " "%char SRight Dec false) (Some 0%nat) true false).
Proof. split; [repeat (constructor; try (apply canonical_check; reflexivity))|]. vm_compute. auto 20. Qed.

(** With exceptions for badbit: thrown exactly if not everything was taken. *)
Theorem C259_badbit : forall m t x s w, sound s -> written (put t x (front s)) = written (front s) ++ w -> on_bad m = true ->
  (is_refused (sput m t x s) <-> ~ takes (length w) (room s)).
Proof. exact refused_bad. Qed.
Print Assumptions C259_badbit.

(** Without exceptions: the stream is bad exactly then. *)
Theorem C259_none : forall m t x s w, sound s -> written (put t x (front s)) = written (front s) ++ w -> on_bad m = false -> on_failed m = false ->
  ~ is_refused (sput m t x s) /\ (bad (left_by (sput m t x s)) = true <-> ~ takes (length w) (room s)).
Proof. exact refused_none. Qed.
Print Assumptions C259_none.

(** With exceptions for failbit only, values that end with a bracket or a quote: thrown exactly if more than the last character was not taken. *)
Theorem C259_failbit : forall m t x s w n, bracketed t -> sound s -> on_bad m = false -> on_failed m = true ->
  written (put t x (front s)) = written (front s) ++ w -> room s = Some n -> (n < length w)%nat ->
  (is_refused (sput m t x s) <-> (S n < length w)%nat).
Proof. exact bracket_last. Qed.
Print Assumptions C259_failbit.

Example C259_example : let s n := Sink plain (Some n) false false in
  written (put TStr (chars "ab") plain) = written plain ++ chars """ab""" /\ takes 4 (Some 4%nat) /\ ~ takes 4 (Some 3%nat) /\ bracketed TStr /\
  sput (OMask true false) TStr (chars "ab") (s 4%nat) = Done (Sink (OStream (chars """ab""") 0 " "%char SRight Dec false) (Some 0%nat) false false) /\
  sput (OMask true false) TStr (chars "ab") (s 3%nat) = Refused (Sink (OStream (chars """ab") 0 " "%char SRight Dec false) (Some 0%nat) true false) /\
  sput (OMask false true) TStr (chars "ab") (s 3%nat) = Done (Sink (OStream (chars """ab") 0 " "%char SRight Dec false) (Some 0%nat) true false) /\
  sput (OMask false true) TStr (chars "ab") (s 2%nat) = Refused (Sink (OStream (chars """a") 0 " "%char SRight Dec false) (Some 0%nat) true true) /\
  sput (OMask false false) TStr (chars "ab") (s 2%nat) = Done (Sink (OStream (chars """a") 0 " "%char SRight Dec false) (Some 0%nat) true true).
Proof. split; [reflexivity|]. split; [cbn; lia|]. split; [cbn; lia|]. split; [exact I|]. vm_compute. auto 10. Qed.

(** Nothing is written to a stream that is not good. Exceptions are thrown if the stream is bad and any are enabled. *)
Theorem C260_written : forall m t x s, held t x -> ~ sound s ->
  let r := sput m t x s in written (front (left_by r)) = written (front s) /\ room (left_by r) = room s /\ bad (left_by r) = bad s /\
  (is_refused r <-> bad s = true /\ (on_bad m = true \/ on_failed m = true)).
Proof. exact nothing_written. Qed.
Print Assumptions C260_written.

(** Without an Int of two digits or more nothing else changes, except that failbit joins badbit. *)
Theorem C260_untouched : forall m t x s, held t x -> wide t x = false -> ~ sound s ->
  left_by (sput m t x s) = if bad s then Sink (front s) (room s) true true else s.
Proof. exact untouched. Qed.
Print Assumptions C260_untouched.

(** Printing 12 to a bad stream changes its fill character and its width: after clear(), an empty string is printed as "0". *)
Theorem C260_refuted : exists x s, held TInt x /\ bad s = true /\ front s = plain /\
  let s' := left_by (sput (OMask false false) TInt x s) in
  fill (front s') = "0"%char /\ width (front s') = 1 /\
  s_text (OMask false false) [] (cleared None s) = Done (cleared None s) /\
  written (front (left_by (s_text (OMask false false) [] (cleared None s')))) = chars "0" /\
  written (front (left_by (s_int (OMask false false) 7 (s_setw 3 (cleared None s))))) = chars "  7" /\
  written (front (left_by (s_int (OMask false false) 7 (s_setw 3 (cleared None s'))))) = chars "007".
Proof. exact failed_fill. Qed.
Print Assumptions C260_refuted.

Example C260_example : let s := Sink (setw 4 plain) None true false in let x := [Frac 1 2] in
  held (TList TFraction) x /\ wide (TList TFraction) x = false /\ ~ sound s /\ ~ sound (Sink plain None false true) /\
  sput (OMask false true) (TList TFraction) x s = Refused (Sink (setw 4 plain) None true true) /\
  sput (OMask false false) (TList TFraction) x s = Done (Sink (setw 4 plain) None true true) /\
  sput (OMask false true) (TList TFraction) x (Sink plain None false true) = Done (Sink plain None false true).
Proof.
  split; [constructor; [vm_compute; intuition congruence|constructor]|]. split; [reflexivity|]. split; [intros (B & _); discriminate|]. split; [intros (_ & B); discriminate|].
  vm_compute. auto 10.
Qed.

(** Without exceptions for badbit, or with width 0 before, and without an Int of two digits or more. *)
Theorem C261_width : forall m t x s, held t x -> wide t x = false -> sound s -> on_bad m = false \/ width (front s) = 0 ->
  width (front (left_by (sput m t x s))) = 0.
Proof. exact width_reset. Qed.
Print Assumptions C261_width.

(** An Int that is cut off leaves the width 1. *)
Theorem C261_refuted : exists x s, held TInt x /\ sound s /\ front s = plain /\ room s = Some 1%nat /\
  width (front (left_by (sput (OMask false false) TInt x s))) = 1.
Proof. exact width_left. Qed.
Print Assumptions C261_refuted.

(** A List that is cut off at its beginning keeps the width if the exception is thrown. *)
Theorem C261_thrown_refuted : exists s, sound s /\ room s = Some 0%nat /\
  is_refused (sput (OMask true false) (TList TMachine) [1] s) /\ width (front (left_by (sput (OMask true false) (TList TMachine) [1] s))) = 3 /\
  width (front (left_by (sput (OMask false false) (TList TMachine) [1] s))) = 0.
Proof. exact width_thrown. Qed.
Print Assumptions C261_thrown_refuted.

Example C261_example : let s := Sink (setw 4 plain) (Some 2%nat) false false in
  held (TSet TMachine) [1; 2] /\ wide (TSet TMachine) [1; 2] = false /\ sound s /\
  sput (OMask false false) (TSet TMachine) [1; 2] s = Done (Sink (OStream (chars "  ") 0 " "%char SRight Dec false) (Some 0%nat) true true).
Proof. split; [repeat constructor|]. split; [reflexivity|]. split; [split; reflexivity|]. vm_compute. reflexivity. Qed.
