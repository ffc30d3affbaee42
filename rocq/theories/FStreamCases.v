(** Concrete cases for streams with formatting state. *)
From Coq Require Import String ZArith List Bool Ascii Lia.
From Verif Require Import Outcome IntModel IntSpec IntBase IntIO IntMore StreamModel IntStream FloatModel FracModel FracSpec
  ComplexModel OStreamModel FStreamModel FStreamSpec FStreamFacts ExTools.
Import ListNotations.
Open Scope Z_scope.

Lemma default_state : (forall i x, plain i -> int_fextract i x = lifted i (int_extract (bare i) x)) /\
  (forall fuel i f, skipws i = true -> ibase i = Dec -> frac_fextract fuel i f = lifted i (frac_extract fuel (bare i) f)) /\
  (forall strtod fuel i z, skipws i = true -> cx_fextract strtod fuel i z = lifted i (cx_extract strtod fuel (bare i) z)) /\
  (forall s w k b b' x, let r := int_fextract (FIStream s w k b) x in
     int_fextract (FIStream s w k b') x = (fst r, (FIStream (bare (fst (snd r))) (iwidth (fst (snd r))) (skipws (fst (snd r))) b', snd (snd r)))).
Proof.
  split; [apply int_plain|split; [apply frac_plain|split; [apply cx_plain|]]]. intros s w k b b' x r. unfold r, int_fextract, f_string, lead.
  cbn [bare skipws iwidth]. destruct (good s); cbn [negb].
  - destruct (if k then drop_while isspace (buf s) else buf s) as [|c l].
    + destruct (int_of_chars (c_str [])), k; reflexivity.
    + cbv zeta. set (t := if 0 <? w then _ else _). destruct (int_of_chars (c_str t)); reflexivity.
  - destruct (int_of_chars (c_str [])); reflexivity.
Qed.

Lemma width_leaks : exists i1 i2 y, frac_fextract 9 (FIStream (IStream (chars "1/2 12345") false false) 3 true Dec) (Frac 7 1) = (Ok tt, (i1, Frac 1 2)) /\ iwidth i1 = 3 /\
  int_fextract i1 (MkInt 0 []) = (Ok tt, (i2, y)) /\ repr y 123 /\ buf (bare i2) = chars "45".
Proof.
  do 3 eexists. split; [vm_compute; reflexivity|]. split; [reflexivity|]. split; [vm_compute; reflexivity|]. split; [apply repr_check; reflexivity|reflexivity].
Qed.

Lemma state_kept : (forall fuel i f, kept i (fst (snd (frac_fextract fuel i f)))) /\
  (forall strtod fuel i z, kept i (fst (snd (cx_fextract strtod fuel i z)))).
Proof. split; [apply frac_keeps|apply cx_keeps]. Qed.

Lemma noskip_refuted : (exists i j y j', let s := IStream (chars " 5") false false in i = FIStream s 0 true Dec /\
    int_fextract i (MkInt 0 []) = (Ok tt, (j, y)) /\ repr y 5 /\ int_fextract (set_skip false i) (MkInt 0 []) = (Throw WrongIntegerLiteral, (j', (MkInt 0 [])))) /\
  (exists strtod i z j j', let s := IStream (chars "1+2 j") false false in i = FIStream s 0 true Dec /\
    cx_fextract strtod 9 i cx_zero = (Ok tt, (j, z)) /\ cx_fextract strtod 9 (set_skip false i) cx_zero = (Throw WrongComplexLiteral, (j', cx_zero))).
Proof.
  split.
  - do 4 eexists. split; [reflexivity|]. split; [vm_compute; reflexivity|]. split; [apply repr_check; reflexivity|]. vm_compute; reflexivity.
  - exists (fun _ => (d0, false)). do 4 eexists. split; [reflexivity|]. split; reflexivity.
Qed.

Lemma int_noskip_space : forall i x c r, good (bare i) = true -> skipws i = false -> buf (bare i) = c :: r -> isspace c = true ->
  exists j, int_fextract i x = (Throw WrongIntegerLiteral, (j, x)) /\ buf (bare j) = c :: r /\ failbit (bare j) = true /\ skipws j = false.
Proof. intros i x c r G K B S. destruct (int_noskip i x G K) as (H & _). rewrite B in H. exact (H S). Qed.
Lemma int_noskip_plain : forall i x, good (bare i) = true -> skipws i = false -> no_space_first (buf (bare i)) ->
  same_but_skip false (int_fextract (set_skip true i) x) (int_fextract i x).
Proof. intros i x G K N. exact (proj2 (int_noskip i x G K) N). Qed.

Lemma base_refuted : (printed_in Hex (Frac 10 1) = chars "a" /\
    exists j, frac_fextract 9 (input_in Hex (printed_in Hex (Frac 10 1))) (Frac 7 1) = (Throw WrongFractionLiteral, (j, Frac 7 1))) /\
  (printed_in Oct (Frac (-1) 1) = chars "37777777777" /\
    exists j, frac_fextract 9 (input_in Oct (printed_in Oct (Frac (-1) 1))) (Frac 7 1) = (Ok tt, (j, Frac INT_MAX 1))).
Proof. repeat split; try (vm_compute; reflexivity); eexists; vm_compute; reflexivity. Qed.

Lemma hex_neg_both : forall f f0 fuel, valid f -> num f < 0 -> (0 < fuel)%nat ->
  ((exists j, frac_fextract fuel (input_in Hex (printed_in Hex f)) f0 = (Ok tt, (j, Frac INT_MAX 1))) \/
   (exists j, frac_fextract fuel (input_in Hex (printed_in Hex f)) f0 = (Throw WrongFractionLiteral, (j, f0)))) /\
  ((exists j, frac_fextract fuel (input_in Hex (printed_in Hex f)) f0 = (Ok tt, (j, Frac INT_MAX 1))) <-> num f < - (6 * 16 ^ 7)).
Proof. intros. split; [apply hex_negative|apply hex_negative_exact]; auto. Qed.
