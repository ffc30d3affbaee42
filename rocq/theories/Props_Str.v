(** Properties C79-C97, C120-C125, C146 and C147: strings. Theorems only; each is an instance of a
    lemma proved elsewhere and is followed by its assumptions and by a concrete case. *)
From Coq Require Import String Ascii ZArith List Bool Lia Reals.
From Flocq Require Import BinarySingleNaN.
From Verif Require Import Outcome IntModel IntSpec IntBase ListModel ListSpec ListFacts ListMore StreamModel FloatModel FloatMore
  StrModel StrSpec StrFacts StrMore StrNum StrDec StrFloat StrSum StrError ExTools.
Import ListNotations.
Open Scope Z_scope.

Theorem C79_find : forall s p start stop, len s <= INT_MAX -> 0 <= start <= Z.min stop (len s) ->
  exists r, str_find s p start stop = Ok r /\ first_occurrence s p start (Z.min stop (len s)) r.
Proof. exact find_spec. Qed.
Print Assumptions C79_find.

Theorem C79_find_beyond : forall s p start stop, len s <= INT_MAX -> len s < start -> str_find s p start stop = Ok (-1).
Proof. exact find_beyond. Qed.
Print Assumptions C79_find_beyond.

Theorem C79_contains : forall s p start stop, len s <= INT_MAX -> 0 <= start <= Z.min stop (len s) ->
  exists b, str_contains s p start stop = Ok b /\
    (b = true <-> exists j, start <= j /\ j + len p <= Z.min stop (len s) /\ occurs s p j).
Proof. exact contains_spec. Qed.
Print Assumptions C79_contains.

(** The specification determines the result. *)
Theorem C79_unique : forall s p start stop r r', 0 <= start ->
  first_occurrence s p start stop r -> first_occurrence s p start stop r' -> r = r'.
Proof. exact first_occurrence_unique. Qed.
Print Assumptions C79_unique.

Example C79_case : str_find (chars "hello hello") (chars "lo") 0 INT_MAX = Ok 3 /\ str_find (chars "hello hello") (chars "lo") 4 INT_MAX = Ok 9 /\
  str_find (chars "hello hello") (chars "lo") 4 10 = Ok (-1) /\ str_find (chars "abc") (chars "") 3 3 = Ok 3 /\
  str_find (chars "abc") (chars "") 4 9 = Ok (-1) /\ str_contains (chars "abc") (chars "bc") 0 INT_MAX = Ok true.
Proof. vm_compute. repeat split. Qed.

Theorem C80_find_undefined_refuted : exists s p start stop, len s <= INT_MAX /\ INT_MIN <= start <= INT_MAX /\ INT_MIN <= stop <= INT_MAX /\
  exists u, str_find s p start stop = UB u.
Proof. exact find_refuted. Qed.
Print Assumptions C80_find_undefined_refuted.

(** Together with C79: exactly which ranges are undefined. *)
Theorem C80_find_undefined_exact : forall s p start stop, len s <= INT_MAX -> start <= len s -> start < 0 \/ stop < start ->
  exists u, str_find s p start stop = UB u.
Proof. exact find_undefined. Qed.
Print Assumptions C80_find_undefined_exact.

Theorem C81_count : forall s p, len s <= INT_MAX -> (p <> [] -> exists n, str_count s p = Ok (Z.of_nat n) /\ (exists js, apart s p 0 js /\ length js = n) /\
    forall js, apart s p 0 js -> (length js <= n)%nat) /\
  (p = [] -> len s < INT_MAX -> str_count s p = Ok (len s + 1)) /\
  (p = [] -> len s = INT_MAX -> str_count s p = UB SignedOverflow).
Proof. exact count_all. Qed.
Print Assumptions C81_count.

Example C81_case : str_count (chars "aaaaa") (chars "aa") = Ok 2 /\ str_count (chars "abc") [] = Ok 4 /\ str_count (chars "abc") (chars "d") = Ok 0.
Proof. vm_compute. repeat split. Qed.

Theorem C82_to_integer : forall p base s, len s < INT_MAX ->
  (~ (2 <= base <= 36) -> str_to_integer p s base = Throw BadBase) /\
  (2 <= base <= 36 -> forall z, int_literal base s z -> returns (str_to_integer p s base) z) /\
  (2 <= base <= 36 -> (forall z, ~ int_literal base s z) -> str_to_integer p s base = Throw BadIntegerLiteral).
Proof. exact to_integer_spec. Qed.
Print Assumptions C82_to_integer.

(** A text denotes one number. *)
Theorem C82_literal_unique : forall base s z z', 2 <= base <= 36 -> int_literal base s z -> int_literal base s z' -> z = z'.
Proof. exact int_literal_unique. Qed.
Print Assumptions C82_literal_unique.

Example C82_case : str_to_integer Benign (chars " -fF ") 16 = Ok (MkInt (-1) [5; 5; 2]) /\ int_literal 16 (chars " -fF ") (-255) /\
  str_to_integer Benign (chars "12x") 10 = Throw BadIntegerLiteral /\ str_to_integer Benign (chars "1") 37 = Throw BadBase /\
  str_to_integer Strict (chars "zz") 36 = Ok (MkInt 1 [5; 9; 2; 1]).
Proof.
  split; [reflexivity|]. split; [|split; [reflexivity|split; reflexivity]].
  exists [" "%char], ["-"%char], (chars "fF"), [" "%char], true, [15; 15]. split; [reflexivity|].
  split; [repeat constructor|]. split; [repeat constructor|]. split; [reflexivity|]. split; [|split; [discriminate|reflexivity]].
  constructor; [|constructor; [|constructor]]; (split; [lia|right; split; [lia|]]); [right|left]; reflexivity.
Qed.

Theorem C83_language : forall pow s, len s < INT_MAX ->
  (spelled inf_words [] s \/ spelled inf_words ["+"%char] s -> str_to_decimal pow s = Ok (B754_infinity false)) /\
  (spelled inf_words ["-"%char] s -> str_to_decimal pow s = Ok (B754_infinity true)) /\
  (spelled nan_words [] s \/ spelled nan_words ["+"%char] s \/ spelled nan_words ["-"%char] s -> str_to_decimal pow s = Ok B754_nan) /\
  (forall neg I F eneg E, dec_literal s neg I F eneg E -> positional 10 E <= INT_MAX -> exists x, str_to_decimal pow s = Ok x) /\
  ((forall neg I F eneg E, ~ dec_literal s neg I F eneg E) -> ~ huge_exponent s ->
   ~ (exists sg, (sg = [] \/ sg = ["+"%char] \/ sg = ["-"%char]) /\ (spelled inf_words sg s \/ spelled nan_words sg s)) ->
   str_to_decimal pow s = Throw BadDecimalLiteral).
Proof. exact to_decimal_language. Qed.
Print Assumptions C83_language.

Example C83_case : forall pow, str_to_decimal pow (chars "-Infinity") = Ok (B754_infinity true) /\
  str_to_decimal pow (chars "1.5e") = Throw BadDecimalLiteral /\ str_to_decimal pow (chars ".") = Throw BadDecimalLiteral /\
  str_to_decimal pow (chars "iNf") = Throw BadDecimalLiteral /\ exists x, str_to_decimal pow (chars " +1.50e-3 ") = Ok x.
Proof. intros pow. repeat split. eexists. reflexivity. Qed.

Theorem C84_value : forall pow s neg I F eneg E, len s <= INT_MAX -> dec_literal s neg I F eneg E -> positional 10 E <= INT_MAX ->
  str_to_decimal pow s = Ok (computed pow neg I F eneg E).
Proof. exact to_decimal_value. Qed.
Print Assumptions C84_value.

(** The accumulated mantissa is the integer written, below 2^53. *)
Theorem C84_digits_exact : forall s neg I F eneg E, dec_literal s neg I F eneg E -> positional 10 (I ++ F) <= 2 ^ 53 ->
  accumulated (I ++ F) = double_of_Z (positional 10 (I ++ F)).
Proof. exact digits_exact. Qed.
Print Assumptions C84_digits_exact.

Theorem C84_integer_exact : forall pow s neg I, len s <= INT_MAX -> pow (double_of_Z 10) (double_of_Z 0) = double_of_Z 1 ->
  dec_literal s neg I [] false [] -> positional 10 I <= 2 ^ 53 ->
  str_to_decimal pow s = Ok (signed neg (double_of_Z (positional 10 I))).
Proof. exact integer_exact. Qed.
Print Assumptions C84_integer_exact.

Example C84_case : forall pow, pow (double_of_Z 10) (double_of_Z 0) = double_of_Z 1 ->
  str_to_decimal pow (chars " -0042") = Ok (double_of_Z (-42)) /\ dec_literal (chars " -0042") true [0; 0; 4; 2] [] false [].
Proof.
  intros pow P.
  assert (dec_literal (chars " -0042") true [0; 0; 4; 2] [] false []) as D.
  { exists [" "%char], ["-"%char], (chars "0042"), [], []. split; [reflexivity|]. split; [repeat constructor|]. split; [constructor|]. split; [reflexivity|].
    split; [|left; auto]. left. split; [discriminate|]. split; [reflexivity|].
    repeat (constructor; [split; [lia|left; split; [lia|reflexivity]]|]). constructor. }
  split; [|exact D]. assert (len (chars " -0042") <= INT_MAX) as L by (vm_compute; discriminate).
  assert (positional 10 [0; 0; 4; 2] <= 2 ^ 53) as B by (vm_compute; discriminate).
  rewrite (integer_exact pow (chars " -0042") true [0; 0; 4; 2] L P D B). f_equal. apply B2SF_inj. vm_compute. reflexivity.
Qed.

Theorem C85_never_nan_refuted : exists s neg I F eneg E, dec_literal s neg I F eneg E /\
  forall pow, pow (double_of_Z 10) (double_of_Z 0) = double_of_Z 1 -> pow (double_of_Z 10) (double_of_Z 400) = B754_infinity false ->
  str_to_decimal pow s = Ok B754_nan.
Proof. exact nan_refuted. Qed.
Print Assumptions C85_never_nan_refuted.

Theorem C86_replace : forall s old new, len s <= INT_MAX -> old <> [] ->
  exists ps, pieces old s ps /\ str_replace s old new = Ok (glue new ps).
Proof. exact replace_spec. Qed.
Print Assumptions C86_replace.

Theorem C86_replace_empty : forall s new, (forall c, In c new -> byte c <> 0) ->
  str_replace s [] new = Ok (new ++ concat (map (fun c => c :: new) s)).
Proof. exact replace_empty. Qed.
Print Assumptions C86_replace_empty.

(** The pieces are determined, contain no occurrence, and make up the string. *)
Theorem C86_pieces : forall p, p <> [] -> forall s, exists ps, pieces p s ps /\ glue p ps = s /\ Forall (fun x => ~ contains x p) ps /\
  forall ps', pieces p s ps' -> ps' = ps.
Proof. exact pieces_all. Qed.
Print Assumptions C86_pieces.

Example C86_case : str_replace (chars "aaa-aa") (chars "aa") (chars "b") = Ok (chars "ba-b") /\ pieces (chars "aa") (chars "aaa-aa") [[]; chars "a-"; []] /\
  str_replace (chars "ab") [] (chars "-") = Ok (chars "-a-b-").
Proof.
  split; [reflexivity|]. split; [|reflexivity].
  destruct (split_all (chars "aaa-aa") (chars "aa") true ltac:(vm_compute; reflexivity) ltac:(discriminate)) as (qs & Q & _ & _ & E).
  cbv iota in E. vm_compute in E. injection E as <-. exact Q.
Qed.

Theorem C87_split : forall s sep keep, len s < INT_MAX -> sep <> [] ->
  exists ps, pieces sep s ps /\ glue sep ps = s /\ Forall (fun x => ~ contains x sep) ps /\
    str_split s sep keep = Ok (if keep then ps else filter (fun x => negb (str_is_empty x)) ps).
Proof. exact split_all. Qed.
Print Assumptions C87_split.

Theorem C87_join_of_split : forall s sep, len s < INT_MAX -> sep <> [] ->
  exists l, str_split s sep true = Ok l /\ str_join sep l = Ok s.
Proof. exact join_split. Qed.
Print Assumptions C87_join_of_split.

Theorem C87_join : forall sep l, len l <= INT_MAX -> str_join sep l = Ok (glue sep l).
Proof. exact join_spec. Qed.
Print Assumptions C87_join.

Theorem C87_empty_separator : forall s keep, str_split s [] keep = Throw EmptySeparator.
Proof. exact split_empty_sep. Qed.
Print Assumptions C87_empty_separator.

Example C87_case : str_split (chars "a,,b,") (chars ",") true = Ok [chars "a"; []; chars "b"; []] /\
  str_split (chars "a,,b,") (chars ",") false = Ok [chars "a"; chars "b"] /\ str_join (chars ", ") [chars "x"; chars "y"] = Ok (chars "x, y") /\
  str_split [] (chars ",") true = Ok [[]].
Proof. vm_compute. repeat split. Qed.

Theorem C88_split_of_join : forall c l, l <> [] -> Forall (fun x => ~ In c x) l -> len (glue [c] l) < INT_MAX ->
  str_split (glue [c] l) [c] true = Ok l.
Proof. exact split_join. Qed.
Print Assumptions C88_split_of_join.

Example C88_case : [chars "ab"; []; chars "c"] <> [] /\ Forall (fun x => ~ In ";"%char x) [chars "ab"; []; chars "c"] /\
  glue [";"%char] [chars "ab"; []; chars "c"] = chars "ab;;c" /\ str_split (chars "ab;;c") [";"%char] true = Ok [chars "ab"; []; chars "c"].
Proof. split; [discriminate|]. split; [|split; reflexivity]. repeat constructor; cbn; intuition discriminate. Qed.

Theorem C89_strip_blank : forall s, len s <= INT_MAX -> Forall (fun c => byte c < 128) s ->
  exists r, str_strip s (-1) = Ok r /\ trimmed (fun c => byte c <= 32) s r.
Proof. exact strip_blank. Qed.
Print Assumptions C89_strip_blank.

Theorem C89_strip_char : forall s ch, len s <= INT_MAX -> Forall (fun c => byte c < 128) s -> 0 <= ch < 128 ->
  exists r, str_strip s ch = Ok r /\ trimmed (fun c => byte c = ch) s r.
Proof. exact strip_char. Qed.
Print Assumptions C89_strip_char.

(** The specification determines the result. *)
Theorem C89_unique : forall f s r r', (forall c, f c \/ ~ f c) -> trimmed f s r -> trimmed f s r' -> r = r'.
Proof. exact trimmed_unique. Qed.
Print Assumptions C89_unique.

Example C89_case : str_strip (chars "  a b ") (-1) = Ok (chars "a b") /\ str_strip (chars "xxaxbx") 120 = Ok (chars "axb") /\
  str_strip (chars "   ") (-1) = Ok [] /\ Forall (fun c => byte c < 128) (chars "xxaxbx").
Proof. split; [reflexivity|]. split; [reflexivity|]. split; [reflexivity|]. repeat constructor. Qed.

Theorem C90_strip_high_bytes_refuted : exists s, (exists c, In c s /\ ~ byte c <= 32) /\ str_strip s (-1) = Ok [].
Proof. exact strip_refuted. Qed.
Print Assumptions C90_strip_high_bytes_refuted.

(** What strip() removes: blanks and every byte from 128 up. *)
Theorem C90_strip_high_bytes_exact : forall s, len s <= INT_MAX ->
  exists r, str_strip s (-1) = Ok r /\ trimmed (fun c => byte c <= 32 \/ 128 <= byte c) s r.
Proof. exact strip_any. Qed.
Print Assumptions C90_strip_high_bytes_exact.

Theorem C91_letters : forall s, Forall letter s -> Forall2 lower_form s (str_lower s) /\ Forall2 upper_form s (str_upper s).
Proof. exact case_letters. Qed.
Print Assumptions C91_letters.

(** For all strings. *)
Theorem C91_idempotent : forall s, str_lower (str_lower s) = str_lower s /\ str_upper (str_upper s) = str_upper s.
Proof. exact case_idem. Qed.
Print Assumptions C91_idempotent.

Example C91_case : Forall letter (chars "aBzZ") /\ str_lower (chars "aBzZ") = chars "abzz" /\ str_upper (chars "aBzZ") = chars "ABZZ".
Proof. split; [|split; reflexivity]. repeat (apply Forall_cons; [unfold letter, upper_letter, lower_letter; vm_compute; first [left; split; discriminate|right; split; discriminate]|]); constructor. Qed.

Theorem C92_others_changed_refuted : (exists c, ~ letter c /\ str_upper [c] <> [c]) /\ (exists c, ~ letter c /\ str_lower [c] <> [c]).
Proof. exact case_refuted. Qed.
Print Assumptions C92_others_changed_refuted.

(** What lower() does: sets bit 5 of every byte. *)
Theorem C92_lower_exact : forall s, Forall2 (fun c d => byte d = if Z.testbit (byte c) 5 then byte c else byte c + 32) s (str_lower s).
Proof. exact lower_bytes. Qed.
Print Assumptions C92_lower_exact.

(** What upper() does: clears bit 5 of every byte. *)
Theorem C92_upper_exact : forall s, Forall2 (fun c d => byte d = if Z.testbit (byte c) 5 then byte c - 32 else byte c) s (str_upper s).
Proof. exact upper_bytes. Qed.
Print Assumptions C92_upper_exact.

Theorem C93_shl : forall s n, len s <= INT_MAX -> exists r, str_shl s n = Ok r /\ rotated s r n.
Proof. exact str_shl_spec. Qed.
Print Assumptions C93_shl.

Theorem C93_shr : forall s n, len s <= INT_MAX -> INT_MIN < n <= INT_MAX -> exists r, str_shr s n = Ok r /\ rotated s r (- n).
Proof. exact str_shr_spec. Qed.
Print Assumptions C93_shr.

(** Excluded argument: undefined. *)
Theorem C93_shr_min : forall s, len s <= INT_MAX -> 1 < len s -> str_shr s INT_MIN = UB SignedOverflow.
Proof. exact str_shr_min. Qed.
Print Assumptions C93_shr_min.

Theorem C93_undo : forall s n, len s <= INT_MAX -> INT_MIN < n <= INT_MAX ->
  (exists r, str_shl s n = Ok r /\ str_shr r n = Ok s) /\ (exists r, str_shr s n = Ok r /\ str_shl r n = Ok s).
Proof. exact str_undo. Qed.
Print Assumptions C93_undo.

Theorem C93_reverse : forall s : list ascii, len s <= INT_MAX -> exists r, str_reverse s = Ok r /\ str_reverse r = Ok s /\ length r = length s /\
  forall i, (i < length s)%nat -> nth_error r i = nth_error s (length s - 1 - i).
Proof. exact str_reverse_spec. Qed.
Print Assumptions C93_reverse.

Example C93_case : str_shl (chars "abcde") 2 = Ok (chars "cdeab") /\ str_shr (chars "abcde") 7 = Ok (chars "deabc") /\
  str_shl (chars "abcde") (-1) = Ok (chars "eabcd") /\ str_reverse (chars "abc") = Ok (chars "cba").
Proof. vm_compute. repeat split. Qed.

Theorem C94_index : forall (s : list ascii) i, len s <= INT_MAX ->
  match position (len s) i with
  | Some k => exists c, nth_error s k = Some c /\ str_at s i = Ok c
  | None => str_at s i = Throw IndexOutOfRange
  end.
Proof. exact str_at_spec. Qed.
Print Assumptions C94_index.

Theorem C94_slice : forall (s : list ascii) start stop step, len s < INT_MAX ->
  let a := from_back (len s) start in let b := from_back (len s) stop in
  (step = 0 -> str_slice s start stop step = Throw SliceStepZero) /\
  (step <> 0 -> ~ (- len s <= start < len s) \/ ~ (- len s - 1 <= stop <= len s) ->
     str_slice s start stop step = Throw IndexOutOfRange) /\
  (step <> 0 -> - len s <= start < len s -> - len s - 1 <= stop <= len s ->
     (slice_fits a b step /\ exists r, str_slice s start stop step = Ok r /\ sliced s r a b step) \/
     (~ slice_fits a b step /\ str_slice s start stop step = UB SignedOverflow)).
Proof. exact str_slice_spec. Qed.
Print Assumptions C94_slice.

Theorem C94_erase : forall (s : list ascii) start stop, len s < INT_MAX ->
  (~ (0 <= start <= len s) \/ ~ (0 <= stop <= len s) -> str_erase s start stop = Throw IndexOutOfRange) /\
  (0 <= start <= stop -> stop <= len s -> exists a m b, s = a ++ m ++ b /\ len a = start /\ len a + len m = stop /\ str_erase s start stop = Ok (a ++ b)) /\
  (0 <= stop < start -> start <= len s -> str_erase s start stop = UB InvalidRange).
Proof. exact str_erase_spec. Qed.
Print Assumptions C94_erase.

Theorem C94_times : forall (s : list ascii) n, len s <= INT_MAX ->
  (n < 0 -> str_times s n = Throw NegativeTimes) /\
  (0 <= n -> len s * n <= INT_MAX -> str_times s n = Ok (concat (repeat s (Z.to_nat n)))) /\
  (0 <= n -> INT_MAX < len s * n -> str_times s n = UB SignedOverflow).
Proof. exact str_times_spec. Qed.
Print Assumptions C94_times.

Example C94_case : str_at (chars "hello") (-1) = Ok "o"%char /\ str_at (chars "hello") 5 = Throw IndexOutOfRange /\
  str_slice (chars "hello") (-1) (-6) (-2) = Ok (chars "olh") /\ str_erase (chars "hello") 1 3 = Ok (chars "hlo") /\
  str_times (chars "ab") 3 = Ok (chars "ababab") /\ str_times (chars "ab") (-1) = Throw NegativeTimes.
Proof. vm_compute. repeat split. Qed.

Theorem C95_starts_with : forall s p, str_starts_with s p = true <-> exists b, s = p ++ b.
Proof. exact starts_spec. Qed.
Print Assumptions C95_starts_with.

Theorem C95_ends_with : forall s p, str_ends_with s p = true <-> exists a, s = a ++ p.
Proof. exact ends_spec. Qed.
Print Assumptions C95_ends_with.

Example C95_case : str_starts_with (chars "hello") (chars "he") = true /\ str_ends_with (chars "hello") (chars "llo") = true /\
  str_ends_with (chars "lo") (chars "hello") = false /\ str_starts_with (chars "hello") (chars "el") = false.
Proof. vm_compute. repeat split. Qed.

Theorem C96_format : forall s args, formatted s args (str_format s args).
Proof. exact format_spec. Qed.
Print Assumptions C96_format.

(** The specification determines the result. *)
Theorem C96_unique : forall s args out out', formatted s args out -> formatted s args out' -> out = out'.
Proof. exact formatted_unique. Qed.
Print Assumptions C96_unique.

Example C96_case : str_format (chars "{} + {x} = {}!") [chars "1"; chars "{}"] = chars "1 + {} = {}!" /\
  str_format (chars "a}{b") [chars "1"] = chars "a}{b" /\ str_format (chars "{") [chars "1"; chars "2"] = chars "{" /\
  str_format (chars "{a{b}") [chars "1"; chars "2"] = chars "1".
Proof. vm_compute. repeat split. Qed.

Theorem C97_print : forall s, str_print s = """"%char :: s ++ [""""%char].
Proof. exact print_quotes. Qed.
Print Assumptions C97_print.

Theorem C97_line : forall l rest old, ~ In "010"%char l ->
  str_extract ConstBenign (IStream (l ++ "010"%char :: rest) false false) old = Ok (IStream rest false false, l).
Proof. exact lines. Qed.
Print Assumptions C97_line.

(** Any number of strings written one per line. *)
Theorem C97_lines : forall ls, Forall (fun l => ~ In "010"%char l) ls ->
  extract_lines ConstBenign (length ls) (IStream (concat (map (fun l => l ++ ["010"%char]) ls)) false false) = Ok (ls, IStream [] false false).
Proof. exact extract_lines_ok. Qed.
Print Assumptions C97_lines.

(** A last line without newline. *)
Theorem C97_last_line : forall l old, ~ In "010"%char l -> l <> [] ->
  str_extract ConstBenign (IStream l false false) old = Ok (IStream [] true false, l).
Proof. exact extract_last. Qed.
Print Assumptions C97_last_line.

(** At the end of input: failbit, empty string. *)
Theorem C97_end : forall old, str_extract ConstBenign (IStream [] false false) old = Ok (IStream [] true true, []).
Proof. exact extract_end. Qed.
Print Assumptions C97_end.

Example C97_case : str_print (chars "a b") = chars """a b""" /\
  extract_lines ConstBenign 3 (IStream (chars "ab" ++ ["010"%char] ++ ["010"%char] ++ chars "c d" ++ ["010"%char]) false false) =
    Ok ([chars "ab"; []; chars "c d"], IStream [] false false).
Proof. vm_compute. repeat split. Qed.

Theorem C120_replace_empty_any_refuted : exists s new, str_replace s [] new <> Ok (new ++ concat (map (fun c => c :: new) s)).
Proof. exact replace_nul_refuted. Qed.
Print Assumptions C120_replace_empty_any_refuted.

(** What happens: new up to its first null character follows each character. *)
Theorem C120_replace_empty_any_exact : forall s new, str_replace s [] new = Ok (new ++ concat (map (fun c => c :: c_str new) s)).
Proof. exact replace_empty_any. Qed.
Print Assumptions C120_replace_empty_any_exact.

Theorem C121_assignment_refuted : forall t, str_assign ConstUB t = UB ConstWrite /\ str_move ConstUB t = UB ConstWrite.
Proof. exact assign_refuted. Qed.
Print Assumptions C121_assignment_refuted.

(** Extraction writes the same member whenever the stream is readable. *)
Theorem C121_extraction_refuted : forall is old,
  (good is = true -> str_extract ConstUB is old = UB ConstWrite) /\
  (good is = false -> str_extract ConstUB is old = Ok (set_fail is, old)).
Proof. exact extract_all. Qed.
Print Assumptions C121_extraction_refuted.

(** With writes through const_cast allowed, assignment copies. *)
Theorem C121_assignment_benign : forall t, str_assign ConstBenign t = Ok t /\ str_move ConstBenign t = Ok (t, []).
Proof. exact assign_benign. Qed.
Print Assumptions C121_assignment_benign.

Theorem C122_to_decimal_defined_refuted : forall pow, str_to_decimal pow (list_ascii_of_string "1e9999999999") = UB SignedOverflow.
Proof. exact huge_witness. Qed.
Print Assumptions C122_to_decimal_defined_refuted.

(** Exactly the texts on which it is undefined. *)
Theorem C122_to_decimal_defined_exact : forall pow s, len s < INT_MAX ->
  ((exists u, str_to_decimal pow s = UB u) <-> huge_exponent s) /\
  (huge_exponent s -> str_to_decimal pow s = UB SignedOverflow) /\ str_to_decimal pow s <> OutOfFuel.
Proof. exact to_decimal_undefined. Qed.
Print Assumptions C122_to_decimal_defined_exact.

Theorem C123_malformed_full_refuted : exists s : list ascii, len s = INT_MAX /\ forall p base, 2 <= base <= 36 -> str_to_integer p s base = UB SignedOverflow.
Proof. exact malformed_full_refuted. Qed.
Print Assumptions C123_malformed_full_refuted.

Theorem C124_order : total_order str_cmp (lex_lt byte_lt).
Proof. exact str_order. Qed.
Print Assumptions C124_order.

Theorem C124_equality : decides str_eqb.
Proof. exact str_eqb_spec. Qed.
Print Assumptions C124_equality.

Theorem C124_hash : forall (h : list ascii -> Z) s t, str_eqb s t = true -> str_hash h s = str_hash h t.
Proof. exact hash_eq. Qed.
Print Assumptions C124_hash.

Example C124_case : str_cmp (chars "abc") (chars "abd") = Lt /\ str_cmp (chars "ab") (chars "abc") = Lt /\ str_cmp ["200"%char] (chars "z") = Gt /\
  str_eqb (chars "ab") (chars "ab") = true.
Proof. vm_compute. repeat split. Qed.

Theorem C125_nearest_decimals : forall pow s neg I F, len s <= INT_MAX ->
  (forall k, 0 <= k <= 22 -> pow (double_of_Z 10) (double_of_Z k) = double_of_Z (10 ^ k)) ->
  dec_literal s neg I F false [] -> positional 10 (I ++ F) <= 2 ^ 53 -> Z.of_nat (length F) <= 22 ->
  exists x, str_to_decimal pow s = Ok x /\ nearest x (denoted neg I F false []).
Proof. exact nearest_plain. Qed.
Print Assumptions C125_nearest_decimals.

Theorem C125_nearest_scaled : forall pow s neg I E, len s <= INT_MAX ->
  (forall k, 0 <= k <= 22 -> pow (double_of_Z 10) (double_of_Z k) = double_of_Z (10 ^ k)) ->
  dec_literal s neg I [] false E -> positional 10 I <= 2 ^ 53 -> positional 10 E <= 22 ->
  exists x, str_to_decimal pow s = Ok x /\ nearest x (denoted neg I [] false E).
Proof. exact nearest_scaled. Qed.
Print Assumptions C125_nearest_scaled.

Example C125_case : forall pow, (forall k, 0 <= k <= 22 -> pow (double_of_Z 10) (double_of_Z k) = double_of_Z (10 ^ k)) ->
  str_to_decimal pow (chars "-2.50") = Ok (ddiv (double_of_Z (-5)) (double_of_Z 2)) /\ dec_literal (chars "-2.50") true [2] [5; 0] false [].
Proof.
  intros pow P. assert (dec_literal (chars "-2.50") true [2] [5; 0] false []) as D.
  { exists [], ["-"%char], (chars "2.50"), [], []. split; [reflexivity|]. split; [constructor|]. split; [constructor|]. split; [reflexivity|].
    split; [|left; auto]. right; left. split; [discriminate|]. exists (chars "2"), (chars "50"). split; [reflexivity|].
    split; repeat (constructor; [split; [lia|left; split; [lia|reflexivity]]|]); constructor. }
  split; [|exact D]. assert (len (chars "-2.50") <= INT_MAX) as L by (vm_compute; discriminate).
  assert (positional 10 [] <= INT_MAX) as B by (vm_compute; discriminate).
  rewrite (to_decimal_value pow (chars "-2.50") true [2] [5; 0] false [] L D B).
  rewrite computed_plain by (apply (P 0); lia). change (len [5; 0]) with 2. rewrite P by lia. f_equal. apply B2SF_inj. vm_compute. reflexivity.
Qed.

(** [K] bounds the error of std::pow; n digits contribute 2n roundings, the scaling two more. *)
Theorem C146_factor : forall pow K s neg I F eneg E, (1 <= K <= 2)%R -> pow_within K pow ->
  len s <= INT_MAX -> dec_literal s neg I F eneg E ->
  Z.of_nat (length (I ++ F)) <= 300 -> positional 10 E <= 300 ->
  (denoted neg I F eneg E = 0 \/ / IZR (10 ^ 300) <= Rabs (denoted neg I F eneg E) <= IZR (10 ^ 300))%R ->
  exists x, str_to_decimal pow s = Ok x /\ is_finite x = true /\ (0 <= B2R x * denoted neg I F eneg E)%R /\
    within (K ^ 2 * (1 + unit_roundoff) ^ (2 * length (I ++ F) + 2)) (Rabs (B2R x)) (Rabs (denoted neg I F eneg E)).
Proof. exact near_stated. Qed.
Print Assumptions C146_factor.

(** With a std::pow off by at most one unit in the last place. *)
Theorem C146_error : forall pow s neg I F eneg E, pow_within (1 + 4 * unit_roundoff) pow ->
  len s <= INT_MAX -> dec_literal s neg I F eneg E ->
  Z.of_nat (length (I ++ F)) <= 300 -> positional 10 E <= 300 ->
  (denoted neg I F eneg E = 0 \/ / IZR (10 ^ 300) <= Rabs (denoted neg I F eneg E) <= IZR (10 ^ 300))%R ->
  exists x, str_to_decimal pow s = Ok x /\ is_finite x = true /\
    (Rabs (B2R x - denoted neg I F eneg E) <= (IZR (Z.of_nat (length (I ++ F))) + 5) * 4 * unit_roundoff * Rabs (denoted neg I F eneg E))%R.
Proof. exact error_stated. Qed.
Print Assumptions C146_error.

Example C146_case : let s := chars "-12345678901234567890.5e-3" in
  let I := [1; 2; 3; 4; 5; 6; 7; 8; 9; 0; 1; 2; 3; 4; 5; 6; 7; 8; 9; 0] in
  pow_within (1 + 4 * unit_roundoff) sample_pow /\ dec_literal s true I [5] true [3] /\ len s <= INT_MAX /\ positional 10 [3] <= 300 /\
  Z.of_nat (length (I ++ [5])) <= 300 /\ 2 ^ 53 < positional 10 (I ++ [5]) /\
  (/ IZR (10 ^ 300) <= Rabs (denoted true I [5%Z] true [3%Z]) <= IZR (10 ^ 300))%R.
Proof.
  cbv zeta. split; [apply sample_pow_within|]. split.
  { exists [], ["-"%char], (chars "12345678901234567890.5"), (chars "e-3"), []. split; [reflexivity|]. split; [constructor|]. split; [constructor|].
    split; [reflexivity|]. split.
    - right; left. split; [discriminate|]. exists (chars "12345678901234567890"), (chars "5"). split; [reflexivity|].
      split; repeat (constructor; [split; [lia|left; split; [lia|reflexivity]]|]); constructor.
    - right. split; [discriminate|]. exists "e"%char, ["-"%char], (chars "3"). split; [reflexivity|]. split; [left; reflexivity|]. split; [reflexivity|].
      repeat (constructor; [split; [lia|left; split; [lia|reflexivity]]|]); constructor. }
  split; [vm_compute; discriminate|]. split; [vm_compute; discriminate|]. split; [vm_compute; discriminate|]. split; [reflexivity|]. apply sample_range.
Qed.

(** 3e-1 is computed as 3 * 0.1, which is not the double nearest to 3/10. *)
Theorem C147_nearest_refuted : exists s neg I F eneg E, dec_literal s neg I F eneg E /\
  forall pow, pow (double_of_Z 10) (double_of_Z 0) = double_of_Z 1 -> nearest (pow (double_of_Z 10) (double_of_Z (-1))) (/ 10) ->
  forall x, str_to_decimal pow s = Ok x -> ~ nearest x (denoted neg I F eneg E).
Proof. exact not_nearest. Qed.
Print Assumptions C147_nearest_refuted.
