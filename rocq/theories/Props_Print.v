(** Properties C138-C143 and C247: printed text and the formatting state of streams. Theorems only; each
    is an instance of a lemma proved elsewhere and is followed by its assumptions and by a
    concrete case. [ty] are the types built from int, Int, Fraction and Str with List, Deque,
    Set and Dict; [text] is what [os << x] writes to a new stream. *)
From Coq Require Import String Ascii ZArith List Bool Lia.
From Verif Require Import Outcome Show IntModel IntSpec FracModel FracSpec FracMore ListModel DictModel StrModel TupleModel OStreamModel PrintSpec OStreamSpec
  PrintFacts QuoteText OStreamFacts ExTools.
Import ListNotations.
Open Scope Z_scope.

Theorem C138_text_determines_value : forall t x y, held t x -> held t y -> unquoted t x -> unquoted t y -> text t x = text t y -> x = y.
Proof. exact text_determines. Qed.
Print Assumptions C138_text_determines_value.

Theorem C138_tuples : forall us (t s : tuple thing us), each held t -> each held s -> each unquoted t -> each unquoted s ->
  tuple_print text t = tuple_print text s -> t = s.
Proof. exact tuple_determines. Qed.
Print Assumptions C138_tuples.

Example C138_case : let t := TList (TDict TStr TInt) in let x := [[(chars "a, b", MkInt 1 [2; 1]); (chars "c", MkInt (-1) [3])]; []] in
  held t x /\ unquoted t x /\ text t x = chars "[{""a, b"": 12, ""c"": -3}, {}]" /\
  let p := TCons (u := TFraction) (Frac (-1) 2) (TCons (u := TMachine) 5 TNil) in
  each held p /\ each unquoted p /\ tuple_print text p = chars "(-1/2, 5)".
Proof.
  split; [|split; [|split; [reflexivity|]]].
  - repeat (constructor; cbn; try (apply canonical_check; reflexivity); auto).
  - repeat constructor; cbn; intros H; repeat (destruct H as [H|H]; [discriminate|]); contradiction.
  - split; [|split; [cbn; auto|reflexivity]]. cbn. split; auto. apply valid_check. reflexivity.
Qed.

(** Quotes inside strings are not escaped. *)
Theorem C139_containers_of_strings_refuted : let one := [chars "a"", ""b"] in let two := [chars "a"; chars "b"] in
  text (TList TStr) one = text (TList TStr) two /\ one <> two /\
  text (TDeque TStr) one = text (TDeque TStr) two /\ text (TSet TStr) one = text (TSet TStr) two.
Proof. exact quotes_collide. Qed.
Print Assumptions C139_containers_of_strings_refuted.

Theorem C139_dictionaries_refuted : let one := [(0, chars "a"", 1: ""b")] in let two := [(0, chars "a"); (1, chars "b")] in
  text (TDict TMachine TStr) one = text (TDict TMachine TStr) two /\ one <> two.
Proof. exact quotes_collide_dict. Qed.
Print Assumptions C139_dictionaries_refuted.

(** A List of Str prints as some other List of Str exactly when it has two elements or more, or one that contains quote, comma, space, quote. *)
Theorem C139_exact : forall l, (exists m, m <> l /\ text (TList TStr) m = text (TList TStr) l) <->
  (2 <= length l)%nat \/ exists a b, l = [a ++ chars """, """ ++ b].
Proof. exact list_another. Qed.
Print Assumptions C139_exact.

(** The same for Deques. *)
Theorem C139_deque_exact : forall l, (exists m, m <> l /\ text (TDeque TStr) m = text (TDeque TStr) l) <->
  (2 <= length l)%nat \/ exists a b, l = [a ++ chars """, """ ++ b].
Proof. exact deque_another. Qed.
Print Assumptions C139_deque_exact.

(** Lists, Deques and Sets of Strs that do not contain a comma right behind a quote are determined by their texts. *)
Theorem C139_otherwise : forall l m, Forall (fun s => forall a b, s <> a ++ """"%char :: ","%char :: b) l -> Forall (fun s => forall a b, s <> a ++ """"%char :: ","%char :: b) m ->
  text (TList TStr) l = text (TList TStr) m \/ text (TDeque TStr) l = text (TDeque TStr) m \/ text (TSet TStr) l = text (TSet TStr) m -> l = m.
Proof. exact texts_differ. Qed.
Print Assumptions C139_otherwise.

Example C139_case : text (TList TStr) [chars "say ""a"""; chars "b, ""c"] = chars "[""say ""a"""", ""b, ""c""]" /\
  Forall (fun s => forall a b, s <> a ++ """"%char :: ","%char :: b) [chars "say ""a"""; chars "b, ""c"] /\
  text (TList TStr) [chars "a"", "; chars "b"] = text (TList TStr) [chars "a"; chars ", ""b"].
Proof.
  split; [reflexivity|]. split; [|reflexivity].
  repeat constructor; intros a b H; cbn in H; repeat (destruct a as [|? a]; [discriminate H|]; cbn [app] in H; first [discriminate H|injection H; clear H; intros H _]).
Qed.

(** A stream that prints in decimal, with width 0: the text is appended; the fill character may change (C141). *)
Theorem C140_one : forall t x os, held t x -> decimal os -> width os = 0 -> put t x os = appended (text t x) (wide t x) os.
Proof. exact put_default. Qed.
Print Assumptions C140_one.

Theorem C140_many : forall l os, Forall (fun a => held (projT1 a) (projT2 a)) l -> decimal os -> width os = 0 ->
  put_all l os = appended (flat_map (fun a => text (projT1 a) (projT2 a)) l) (existsb (fun a => wide (projT1 a) (projT2 a)) l) os.
Proof. exact put_many. Qed.
Print Assumptions C140_many.

Theorem C140_tuple : forall us (t : tuple thing us) os, each held t -> decimal os -> width os = 0 ->
  tuple_put put t os = appended (tuple_print text t) (any wide t) os.
Proof. exact put_tuple. Qed.
Print Assumptions C140_tuple.

Example C140_case : written (put_all [existT thing TInt (MkInt 1 [2; 1]); existT thing (TList TMachine) [7; -8]] plain) = chars "12[7, -8]" /\
  held TInt (MkInt 1 [2; 1]) /\ held (TList TMachine) [7; -8] /\ decimal plain /\ width plain = 0.
Proof. split; [reflexivity|]. split; [apply canonical_check; reflexivity|]. repeat constructor. Qed.

(** The fill character is left alone exactly when no Int of two digits or more is printed, or it was 0 before. *)
Theorem C141_fill : forall t x os, held t x -> decimal os -> (fill (put t x os) = fill os <-> wide t x = false \/ fill os = "0"%char).
Proof. exact fill_kept. Qed.
Print Assumptions C141_fill.

Theorem C141_rest : forall t x os, held t x -> decimal os ->
  width (put t x os) = 0 /\ adjust (put t x os) = adjust os /\ base (put t x os) = base os /\ showpos (put t x os) = showpos os.
Proof. exact rest_kept. Qed.
Print Assumptions C141_rest.

(** After printing 12, an [int] printed with setw(3) is padded with zeros. *)
Theorem C141_fill_refuted : exists x os, held TInt x /\ decimal os /\ width os = 0 /\ fill (put TInt x os) <> fill os /\
  written (put TMachine 7 (setw 3 os)) = chars "  7" /\
  written (put TMachine 7 (setw 3 (put TInt x os))) = chars "12007".
Proof. exact fill_leaks. Qed.
Print Assumptions C141_fill_refuted.

(** Only the first piece is padded. *)
Theorem C142_exact : forall t x os, held t x -> decimal os ->
  put t x os = appended (aligned os (firstn (lead_length t x) (text t x)) ++ skipn (lead_length t x) (text t x)) (wide t x) os.
Proof. exact put_padded. Qed.
Print Assumptions C142_exact.

(** Padding applies to the whole value when it is a single piece: an [int], a whole Fraction, an Int of one digit. *)
Theorem C142_whole : forall t x os, held t x -> decimal os -> (lead_length t x >= length (text t x))%nat ->
  put t x os = appended (aligned os (text t x)) (wide t x) os.
Proof. exact width_whole. Qed.
Print Assumptions C142_whole.

Theorem C142_width_refuted : exists x os, held TInt x /\ decimal os /\
  written (put TInt x os) <> written os ++ aligned os (text TInt x) /\ written (put TInt x os) = chars "   -5" /\ width os = 4 /\ written os = [] /\
  written (put (TList TMachine) [1; 2] os) = chars "   [1, 2]".
Proof. exact width_partial. Qed.
Print Assumptions C142_width_refuted.

Example C142_case : decimal (setw 4 plain) /\ (lead_length TMachine (-5)%Z >= length (text TMachine (-5)%Z))%nat /\
  written (put TMachine (-5) (setw 4 plain)) = chars "  -5" /\
  written (put TMachine (-5) (OStream [] 4 "*"%char SInternal Dec false)) = chars "-**5" /\
  written (put TMachine (-5) (OStream [] 4 "*"%char SLeft Dec false)) = chars "-5**".
Proof. split; [split; reflexivity|]. split; [cbn; lia|]. vm_compute. auto. Qed.

(** With std::hex the decimal digits are written; with std::oct a leading 8 or 9 becomes 10 or 11 and the other digits stay. *)
Theorem C143_exact : forall x os, canonical x -> width os = 0 -> base os <> Dec ->
  exists sg d r, int_print x = sg ++ d :: r /\ (sg = [] \/ sg = ["-"%char]) /\ digit_of d <> None /\
  written (int_put x os) = written os ++ sg ++
    (match base os, d with Oct, "8"%char => chars "10" | Oct, "9"%char => chars "11" | _, _ => [d] end) ++ r.
Proof. exact int_base. Qed.
Print Assumptions C143_exact.

Theorem C143_base_refuted : exists x os y, repr x 10 /\ base os = Hex /\ width os = 0 /\
  written (put TMachine 10 os) = chars "a" /\ written (put TInt x os) = chars "10" /\
  repr y 80 /\ written (put TMachine 80 (OStream [] 0 " "%char SRight Oct false)) = chars "120" /\
  written (put TInt y (OStream [] 0 " "%char SRight Oct false)) = chars "100" /\
  written (put TFraction (Frac (-1) 2) os) = chars "ffffffff/2".
Proof. exact base_ignored. Qed.
Print Assumptions C143_base_refuted.

Example C143_case : canonical (MkInt (-1) [0; 9]) /\ base (OStream [] 0 " "%char SRight Oct false) <> Dec /\
  written (int_put (MkInt (-1) [0; 9]) (OStream [] 0 " "%char SRight Oct false)) = chars "-110".
Proof. split; [apply canonical_check; reflexivity|]. split; [discriminate|]. vm_compute. auto. Qed.

(** With std::showpos every int is written with its sign; an Int that is not zero is written with its minus sign, if any, then a plus sign. *)
Theorem C247_exact : forall t x os, held t x -> plussed os -> width os = 0 -> put t x os = appended (plus_text t x) (wide t x) os.
Proof. exact put_plus. Qed.
Print Assumptions C247_exact.

(** An Int is written like the int of the same value exactly when it is positive. *)
Theorem C247_int : forall x z os, repr x z -> plussed os -> width os = 0 ->
  (written (put TInt x os) = written (put TMachine z os) <-> 0 < z).
Proof. exact plus_positive. Qed.
Print Assumptions C247_int.

Theorem C247_showpos_refuted : exists x y os, repr x (-12) /\ repr y 0 /\ plussed os /\ width os = 0 /\ written os = [] /\
  written (put TMachine (-12) os) = chars "-12" /\ written (put TInt x os) = chars "-+12" /\
  written (put TMachine 0 os) = chars "+0" /\ written (put TInt y os) = chars "0".
Proof. exact plus_minus. Qed.
Print Assumptions C247_showpos_refuted.

Example C247_case : plussed (OStream [] 0 " "%char SRight Dec true) /\ held (TList TFraction) [Frac (-1) 2; Frac 3 1] /\
  written (put (TList TFraction) [Frac (-1) 2; Frac 3 1] (OStream [] 0 " "%char SRight Dec true)) = chars "[-1/+2, +3]".
Proof. split; [split; reflexivity|]. split; [apply Forall_cons; [|apply Forall_cons; [|apply Forall_nil]]; (vm_compute; intuition congruence)|]. vm_compute. auto. Qed.
