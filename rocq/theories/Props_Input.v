(** Properties C176-C179 and C212: reading from streams whose formatting state (field width, skipws, number base) is not the
    default one. Theorems only; each is an instance of a lemma proved elsewhere and is followed by its assumptions
    and by a concrete case. *)
From Coq Require Import String ZArith QArith List Ascii Bool Lia.
From Verif Require Import Outcome IntModel IntSpec IntBase IntIO IntMore StreamModel IntStream FloatModel FracModel FracSpec ComplexModel OStreamModel
  FStreamModel FStreamSpec FStreamFacts FStreamText FStreamCases ExTools.
Import ListNotations.
Open Scope Z_scope.

(** With a field width n the number is read off the first n characters of the word; the rest of the word stays, the width is used up. *)
Theorem C176_prefix : forall ws t rest n b x z, forallb isspace ws = true -> t <> [] -> forallb (fun c => negb (isspace c)) t = true ->
  forallb (fun c => negb (code c =? 0)) t = true -> stops (fun c => negb (isspace c)) rest -> 0 < n -> literal (firstn (Z.to_nat n) t) = Some z ->
  exists y s, repr y z /\ buf s = skipn (Z.to_nat n) t ++ rest /\ failbit s = false /\
    int_fextract (FIStream (IStream (ws ++ t ++ rest) false false) n true b) x = (Ok tt, (FIStream s 0 true b, y)).
Proof. exact int_width_ok. Qed.
Print Assumptions C176_prefix.

(** If those characters are not a literal the call throws and the variable keeps its value. *)
Theorem C176_bad : forall ws t rest n b x, forallb isspace ws = true -> t <> [] -> forallb (fun c => negb (isspace c)) t = true ->
  forallb (fun c => negb (code c =? 0)) t = true -> stops (fun c => negb (isspace c)) rest -> 0 < n -> literal (firstn (Z.to_nat n) t) = None ->
  exists s, buf s = skipn (Z.to_nat n) t ++ rest /\ failbit s = false /\
    int_fextract (FIStream (IStream (ws ++ t ++ rest) false false) n true b) x = (Throw WrongIntegerLiteral, (FIStream s 0 true b, x)).
Proof. exact int_width_bad. Qed.
Print Assumptions C176_bad.

(** Reading a number in two pieces. *)
Theorem C176_pieces : forall ws ds rest n b x1 x2 z, forallb isspace ws = true -> forallb is_digit_char ds = true -> 0 < n < Z.of_nat (length ds) ->
  stops (fun c => negb (isspace c)) rest -> literal ds = Some z ->
  exists y1 y2 p q i1 s2, repr y1 p /\ repr y2 q /\ z = p * 10 ^ (Z.of_nat (length ds) - n) + q /\
    int_fextract (FIStream (IStream (ws ++ ds ++ rest) false false) n true b) x1 = (Ok tt, (i1, y1)) /\
    int_fextract i1 x2 = (Ok tt, (FIStream s2 0 true b, y2)) /\ buf s2 = rest.
Proof. exact int_pieces. Qed.
Print Assumptions C176_pieces.

(** In the default state this is the operator of the properties on default streams, for the three classes; the base never matters for an Int. *)
Theorem C176_default : (forall i x, plain i -> int_fextract i x = lifted i (int_extract (bare i) x)) /\
  (forall fuel i f, skipws i = true -> ibase i = Dec -> frac_fextract fuel i f = lifted i (frac_extract fuel (bare i) f)) /\
  (forall strtod fuel i z, skipws i = true -> cx_fextract strtod fuel i z = lifted i (cx_extract strtod fuel (bare i) z)) /\
  (forall s w k b b' x, let r := int_fextract (FIStream s w k b) x in
     int_fextract (FIStream s w k b') x = (fst r, (FIStream (bare (fst (snd r))) (iwidth (fst (snd r))) (skipws (fst (snd r))) b', snd (snd r)))).
Proof. exact default_state. Qed.
Print Assumptions C176_default.

Example C176_case : exists y1 y2 i1 i2, repr y1 (-12) /\ repr y2 345 /\
  int_fextract (FIStream (IStream (chars " -12345 6") false false) 3 true Dec) (MkInt 0 []) = (Ok tt, (i1, y1)) /\ iwidth i1 = 0 /\
  int_fextract i1 (MkInt 0 []) = (Ok tt, (i2, y2)) /\ buf (bare i2) = chars " 6" /\
  literal (firstn 3 (chars "-12345")) = Some (-12).
Proof.
  do 4 eexists. repeat match goal with |- _ /\ _ => split end; [| |vm_compute; reflexivity|reflexivity|vm_compute; reflexivity|reflexivity|reflexivity];
  apply repr_check; reflexivity.
Qed.

(** After reading the Fraction 1/2 with setw(3) the width is still 3, and the Int that follows is cut off after three digits. *)
Theorem C177_width_refuted : exists i1 i2 y, frac_fextract 9 (FIStream (IStream (chars "1/2 12345") false false) 3 true Dec) (Frac 7 1) = (Ok tt, (i1, Frac 1 2)) /\ iwidth i1 = 3 /\
  int_fextract i1 (MkInt 0 []) = (Ok tt, (i2, y)) /\ repr y 123 /\ buf (bare i2) = chars "45".
Proof. exact width_leaks. Qed.
Print Assumptions C177_width_refuted.

(** Reading a Fraction or a Complex never changes the formatting state, whatever the outcome. *)
Theorem C177_kept : (forall fuel i f, kept i (fst (snd (frac_fextract fuel i f)))) /\
  (forall strtod fuel i z, kept i (fst (snd (cx_fextract strtod fuel i z)))).
Proof. exact state_kept. Qed.
Print Assumptions C177_kept.

(** Reading an Int uses the width up whenever there is something to read. *)
Theorem C177_int : forall i x, good (bare i) = true -> (exists c, In c (buf (bare i)) /\ isspace c = false) -> iwidth (fst (snd (int_fextract i x))) = 0.
Proof. exact int_resets. Qed.
Print Assumptions C177_int.

(** With nothing to read the Int call throws, sets eofbit and failbit and keeps the variable; the width is kept with skipws and reset without it. *)
Theorem C177_nothing : forall i x, good (bare i) = true -> (if skipws i then forallb isspace (buf (bare i)) = true else buf (bare i) = []) ->
  int_fextract i x = (Throw WrongIntegerLiteral, (FIStream (IStream [] true true) (if skipws i then iwidth i else 0) (skipws i) (ibase i), x)).
Proof. exact int_nothing. Qed.
Print Assumptions C177_nothing.

(** On a stream that is not good the Int call throws, sets failbit, and changes nothing else. *)
Theorem C177_not_good : forall i x, good (bare i) = false -> exists s,
  int_fextract i x = (Throw WrongIntegerLiteral, (FIStream s (iwidth i) (skipws i) (ibase i), x)) /\ buf s = buf (bare i) /\ failbit s = true /\ eofbit s = eofbit (bare i).
Proof. exact int_not_good. Qed.
Print Assumptions C177_not_good.

Example C177_case : iwidth (fst (snd (int_fextract (FIStream (IStream (chars " 12345") false false) 3 true Dec) (MkInt 0 [])))) = 0 /\
  fst (snd (frac_fextract 9 (FIStream (IStream (chars " 12345") false false) 3 true Dec) (Frac 7 1))) = FIStream (IStream [] true true) 3 true Dec /\
  iwidth (fst (snd (int_fextract (FIStream (IStream (chars "  ") false false) 3 true Dec) (MkInt 0 [])))) = 3 /\
  iwidth (fst (snd (int_fextract (FIStream (IStream [] false false) 3 false Dec) (MkInt 0 [])))) = 0.
Proof. repeat split; vm_compute; reflexivity. Qed.

(** A leading space stops an Int with noskipws, and a space in front of the j stops a Complex; both are read by default. *)
Theorem C178_noskipws_refuted : (exists i j y j', let s := IStream (chars " 5") false false in i = FIStream s 0 true Dec /\
    int_fextract i (MkInt 0 []) = (Ok tt, (j, y)) /\ repr y 5 /\ int_fextract (set_skip false i) (MkInt 0 []) = (Throw WrongIntegerLiteral, (j', (MkInt 0 [])))) /\
  (exists strtod i z j j', let s := IStream (chars "1+2 j") false false in i = FIStream s 0 true Dec /\
    cx_fextract strtod 9 i cx_zero = (Ok tt, (j, z)) /\ cx_fextract strtod 9 (set_skip false i) cx_zero = (Throw WrongComplexLiteral, (j', cx_zero))).
Proof. exact noskip_refuted. Qed.
Print Assumptions C178_noskipws_refuted.

(** A Fraction is read the same way with skipws on or off. *)
Theorem C178_fraction : forall k fuel i f, same_but_skip k (frac_fextract fuel i f) (frac_fextract fuel (set_skip k i) f).
Proof. exact frac_noskip. Qed.
Print Assumptions C178_fraction.

(** A Complex is read the same way, or the noskipws call throws and the variable keeps its value. *)
Theorem C178_complex : forall strtod fuel i z, skipws i = true ->
  same_but_skip false (cx_fextract strtod fuel i z) (cx_fextract strtod fuel (set_skip false i) z) \/
  (exists s, cx_fextract strtod fuel (set_skip false i) z = (Throw WrongComplexLiteral, (set_skip false (with_bare s i), z))).
Proof. exact cx_noskip. Qed.
Print Assumptions C178_complex.

(** With noskipws an Int behind white space is never read: the call throws, nothing is consumed, failbit is set. *)
Theorem C178_int_space : forall i x c r, good (bare i) = true -> skipws i = false -> buf (bare i) = c :: r -> isspace c = true ->
  exists j, int_fextract i x = (Throw WrongIntegerLiteral, (j, x)) /\ buf (bare j) = c :: r /\ failbit (bare j) = true /\ skipws j = false.
Proof. exact int_noskip_space. Qed.
Print Assumptions C178_int_space.

(** Otherwise it is read as usual. *)
Theorem C178_int_plain : forall i x, good (bare i) = true -> skipws i = false -> no_space_first (buf (bare i)) ->
  same_but_skip false (int_fextract (set_skip true i) x) (int_fextract i x).
Proof. exact int_noskip_plain. Qed.
Print Assumptions C178_int_plain.

Example C178_case : no_space_first (chars "5 6") /\
  snd (snd (frac_fextract 9 (FIStream (IStream (chars "  3/4") false false) 0 false Dec) (Frac 7 1))) = Frac 3 4 /\
  snd (snd (frac_fextract 9 (FIStream (IStream (chars "  3/ 4") false false) 0 true Dec) (Frac 7 1))) = Frac 7 1.
Proof. repeat split; vm_compute; reflexivity. Qed.

(** 10 printed in hexadecimal is refused, and -1 printed in octal is read as 2147483647. *)
Theorem C179_base_refuted : (printed_in Hex (Frac 10 1) = chars "a" /\
    exists j, frac_fextract 9 (input_in Hex (printed_in Hex (Frac 10 1))) (Frac 7 1) = (Throw WrongFractionLiteral, (j, Frac 7 1))) /\
  (printed_in Oct (Frac (-1) 1) = chars "37777777777" /\
    exists j, frac_fextract 9 (input_in Oct (printed_in Oct (Frac (-1) 1))) (Frac 7 1) = (Ok tt, (j, Frac INT_MAX 1))).
Proof. exact base_refuted. Qed.
Print Assumptions C179_base_refuted.

(** In octal exactly the fractions that are not negative come back; the negative ones are read, without an exception, as INT_MAX. *)
Theorem C179_octal : forall f f0 fuel, valid f -> (0 < fuel)%nat ->
  ((exists j, frac_fextract fuel (input_in Oct (printed_in Oct f)) f0 = (Ok tt, (j, f))) <-> 0 <= num f) /\
  (num f < 0 -> exists j, frac_fextract fuel (input_in Oct (printed_in Oct f)) f0 = (Ok tt, (j, Frac INT_MAX 1))).
Proof. exact oct_back. Qed.
Print Assumptions C179_octal.

(** In hexadecimal a fraction that is not negative comes back exactly if its parts do not begin with a letter; otherwise the call throws. *)
Theorem C179_hexadecimal : forall f f0 fuel d e, valid f -> (0 < fuel)%nat -> first_digit 16 (num f) d -> first_digit 16 (den f) e ->
  ((exists j, frac_fextract fuel (input_in Hex (printed_in Hex f)) f0 = (Ok tt, (j, f))) <-> (d <= 9 /\ (den f = 1 \/ e <= 9))) /\
  (d <= 9 /\ (den f = 1 \/ e <= 9) \/ exists j, frac_fextract fuel (input_in Hex (printed_in Hex f)) f0 = (Throw WrongFractionLiteral, (j, f0))).
Proof. exact hex_back. Qed.
Print Assumptions C179_hexadecimal.

(** A negative one never does: it is refused, or read as INT_MAX when it is below -6*16^7. *)
Theorem C179_hexadecimal_negative : forall f f0 fuel, valid f -> num f < 0 -> (0 < fuel)%nat ->
  ((exists j, frac_fextract fuel (input_in Hex (printed_in Hex f)) f0 = (Ok tt, (j, Frac INT_MAX 1))) \/
   (exists j, frac_fextract fuel (input_in Hex (printed_in Hex f)) f0 = (Throw WrongFractionLiteral, (j, f0)))) /\
  ((exists j, frac_fextract fuel (input_in Hex (printed_in Hex f)) f0 = (Ok tt, (j, Frac INT_MAX 1))) <-> num f < - (6 * 16 ^ 7)).
Proof. exact hex_neg_both. Qed.
Print Assumptions C179_hexadecimal_negative.

Example C179_case : valid (Frac 31 26) /\ printed_in Hex (Frac 31 26) = chars "1f/1a" /\ first_digit 16 31 1 /\ first_digit 16 26 1 /\
  snd (snd (frac_fextract 9 (input_in Hex (chars "1f/1a")) (Frac 7 1))) = Frac 31 26 /\ first_digit 16 175 10.
Proof.
  split; [|split; [vm_compute; reflexivity|split; [|split; [|split]]]]; try (exists 1; lia); try (vm_compute; reflexivity).
  repeat split; vm_compute; congruence.
Qed.

(** An integer in the base of the stream, with digits in either case, an optional sign and in hexadecimal an optional prefix, is read as that number. *)
Theorem C212_whole : forall b n z rest f0 fuel, numeral b n z -> opens n -> fits1 z -> ends rest -> (0 < fuel)%nat ->
  exists s, frac_fextract fuel (input_in b (n ++ rest)) f0 = (Ok tt, (FIStream s 0 true b, Frac z 1)) /\ buf s = rest.
Proof. exact read_whole_in. Qed.
Print Assumptions C212_whole.

(** Two of them with a slash between them are read as their quotient. *)
Theorem C212_quotient : forall b n z m y rest f0 fuel, numeral b n z -> numeral b m y -> opens n -> opens m -> fits1 z -> fits1 y -> ends rest -> (0 < fuel)%nat ->
  exists s, buf s = rest /\ let o := frac_fextract fuel (input_in b (n ++ "/"%char :: m ++ rest)) f0 in
  (y = 0 -> o = (Throw DivideByZero, (FIStream s 0 true b, f0))) /\
  (y <> 0 -> exists r, o = (Ok tt, (FIStream s 0 true b, r)) /\ valid r /\ (qval r == inject_Z z / inject_Z y)%Q).
Proof. exact read_quotient_in. Qed.
Print Assumptions C212_quotient.

(** A number that begins with a letter is refused and nothing is taken from the stream. *)
Theorem C212_letter : forall b n z rest f0 fuel, numeral b n z -> ~ opens n -> (0 < fuel)%nat ->
  frac_fextract fuel (input_in b (n ++ rest)) f0 = (Throw WrongFractionLiteral, (input_in b (n ++ rest), f0)).
Proof. exact letter_refused. Qed.
Print Assumptions C212_letter.

(** Only one prefix is taken off: whatever follows a second one, the text is refused. *)
Theorem C212_prefix_twice : forall rest f0 fuel, (0 < fuel)%nat ->
  exists j, frac_fextract fuel (input_in Hex (chars "0x0x" ++ rest)) f0 = (Throw WrongFractionLiteral, (j, f0)).
Proof. exact prefix_twice. Qed.
Print Assumptions C212_prefix_twice.

Example C212_case : numeral Hex (chars "-0xFf") (-255) /\ opens (chars "-0xFf") /\ numeral Hex (chars "aB") 171 /\ ~ opens (chars "aB") /\ numeral Oct (chars "+017") 15 /\
  snd (snd (frac_fextract 9 (input_in Hex (chars "-0xFf/0X1E rest")) (Frac 7 1))) = Frac (-17) 2 /\
  snd (snd (frac_fextract 9 (input_in Oct (chars "+017/30")) (Frac 7 1))) = Frac 5 8 /\
  fst (frac_fextract 9 (input_in Hex (chars "1g")) (Frac 7 1)) = Throw WrongFractionLiteral.
Proof.
  repeat match goal with |- _ /\ _ => split end; try (vm_compute; reflexivity); try (vm_compute; auto; fail); try (vm_compute; intros [A|A]; discriminate).
  - apply (numeral_minus Hex (chars "0x") (chars "Ff") [15%nat; 15%nat]); [right; auto|discriminate|].
    repeat (apply Forall2_cons; [split; [reflexivity|(left; reflexivity) || (right; reflexivity)]|]). apply Forall2_nil.
  - apply (numeral_plain Hex [] (chars "aB") [10%nat; 11%nat]); [left; auto|discriminate|].
    repeat (apply Forall2_cons; [split; [reflexivity|(left; reflexivity) || (right; reflexivity)]|]). apply Forall2_nil.
  - apply (numeral_plus Oct [] (chars "017") [0%nat; 1%nat; 7%nat]); [left; auto|discriminate|].
    repeat (apply Forall2_cons; [split; [reflexivity|(left; reflexivity) || (right; reflexivity)]|]). apply Forall2_nil.
Qed.
