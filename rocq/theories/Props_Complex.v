(** Properties C100-C103 and C126-C137: complex numbers. Theorems only; each is an instance of a
    lemma proved elsewhere and is followed by its assumptions and by a concrete case. *)
From Coq Require Import String Ascii ZArith Reals List Bool Lia Lra.
From Flocq Require Import Core BinarySingleNaN.
From Verif Require Import Outcome IntModel StreamModel FloatModel FloatFacts FloatMore FracModel FracSpec FracIO
  ComplexModel ComplexSpec ComplexFloat ComplexFacts ComplexCases ComplexIO ComplexExact ComplexTexts ExTools.
Import ListNotations.
Open Scope Z_scope.

Theorem C100_add : forall a b, cfinite a -> cfinite b -> fits (B2R (re a) + B2R (re b)) -> fits (B2R (im a) + B2R (im b)) ->
  has (re (cx_add a b)) (rnd (B2R (re a) + B2R (re b))) /\ has (im (cx_add a b)) (rnd (B2R (im a) + B2R (im b))).
Proof. exact add_parts. Qed.
Print Assumptions C100_add.

Theorem C100_sub : forall a b, cfinite a -> cfinite b -> fits (B2R (re a) - B2R (re b)) -> fits (B2R (im a) - B2R (im b)) ->
  has (re (cx_sub a b)) (rnd (B2R (re a) - B2R (re b))) /\ has (im (cx_sub a b)) (rnd (B2R (im a) - B2R (im b))).
Proof. exact sub_parts. Qed.
Print Assumptions C100_sub.

Theorem C100_mul : forall a b, cfinite a -> cfinite b ->
  let (ar, ai) := (B2R (re a), B2R (im a)) in let (br, bi) := (B2R (re b), B2R (im b)) in
  fits (ar * br) -> fits (ai * bi) -> fits (ar * bi) -> fits (ai * br) ->
  fits (rnd (ar * br) - rnd (ai * bi)) -> fits (rnd (ar * bi) + rnd (ai * br)) ->
  has (re (cx_mul a b)) (rnd (rnd (ar * br) - rnd (ai * bi))) /\ has (im (cx_mul a b)) (rnd (rnd (ar * bi) + rnd (ai * br))).
Proof. exact mul_parts. Qed.
Print Assumptions C100_mul.

Theorem C100_div : forall a b, cfinite a -> cfinite b -> cx_eqb b cx_zero = false ->
  let (ar, ai) := (B2R (re a), B2R (im a)) in let (br, bi) := (B2R (re b), B2R (im b)) in
  let den := rnd (rnd (br * br) + rnd (bi * bi)) in
  let x := rnd (rnd (ar * br) + rnd (ai * bi)) in let y := rnd (rnd (ai * br) - rnd (ar * bi)) in
  fits (br * br) -> fits (bi * bi) -> fits (rnd (br * br) + rnd (bi * bi)) -> den <> 0%R ->
  fits (ar * br) -> fits (ai * bi) -> fits (rnd (ar * br) + rnd (ai * bi)) -> fits (x / den) ->
  fits (ai * br) -> fits (ar * bi) -> fits (rnd (ai * br) - rnd (ar * bi)) -> fits (y / den) ->
  exists q, cx_div a b = Ok q /\ has (re q) (rnd (x / den)) /\ has (im q) (rnd (y / den)).
Proof. exact div_parts. Qed.
Print Assumptions C100_div.

Theorem C100_pos : forall a, cx_pos a = a.
Proof. exact pos_same. Qed.
Print Assumptions C100_pos.

Theorem C100_neg : forall a, cfinite a -> has (re (cx_neg a)) (- B2R (re a)) /\ has (im (cx_neg a)) (- B2R (im a)).
Proof. exact neg_parts. Qed.
Print Assumptions C100_neg.

Theorem C100_conjugate : forall a, cfinite a -> re (cx_conjugate a) = re a /\ has (im (cx_conjugate a)) (- B2R (im a)).
Proof. exact conj_parts. Qed.
Print Assumptions C100_conjugate.

(** All doubles, infinities and NaN included. *)
Theorem C100_add_commutes : forall a b, cx_add a b = cx_add b a.
Proof. exact ComplexFacts.add_comm. Qed.
Print Assumptions C100_add_commutes.

Theorem C100_mul_commutes : forall a b, cx_mul a b = cx_mul b a.
Proof. exact ComplexFacts.mul_comm. Qed.
Print Assumptions C100_mul_commutes.

Theorem C100_neg_involution : forall a, cx_neg (cx_neg a) = a.
Proof. exact neg_neg. Qed.
Print Assumptions C100_neg_involution.

Theorem C100_conjugate_involution : forall a, cx_conjugate (cx_conjugate a) = a.
Proof. exact conj_conj. Qed.
Print Assumptions C100_conjugate_involution.

Example C100_case : cfinite (Cx (double_of_Z 1) (double_of_Z 2)) /\ fits (1 + 2) /\ cx_eqb (Cx (double_of_Z 1) (double_of_Z 2)) cx_zero = false /\
  cx_eqb (cx_mul (Cx (double_of_Z 1) (double_of_Z 2)) (Cx (double_of_Z 3) (double_of_Z (-1)))) (Cx (double_of_Z 5) (double_of_Z 5)) = true.
Proof.
  split; [split; reflexivity|]. split; [|split; vm_compute; reflexivity].
  replace (1 + 2)%R with (IZR 3) by (rewrite <- plus_IZR; reflexivity).
  assert (V : int_val (double_of_Z 3) 3) by (apply of_small; vm_compute; discriminate).
  exact (proj1 (has_fits _ _ V)).
Qed.

(** What == tests, for finite parts. *)
Theorem C101_equality : forall a b, cfinite a -> cfinite b ->
  cx_eqb a b = true <-> (Rabs (rnd (B2R (re a) - B2R (re b))) < bpow radix2 (-52))%R /\ (Rabs (rnd (B2R (im a) - B2R (im b))) < bpow radix2 (-52))%R.
Proof. exact eqb_exactly. Qed.
Print Assumptions C101_equality.

Theorem C101_symmetric : forall a b, cx_eqb a b = cx_eqb b a.
Proof. exact eqb_sym. Qed.
Print Assumptions C101_symmetric.

(** Reflexive exactly on finite values. *)
Theorem C101_reflexive : forall a, cx_eqb a a = true <-> cfinite a.
Proof. exact eqb_refl. Qed.
Print Assumptions C101_reflexive.

(** When every part is zero or at least 1 in magnitude, == is equality of the values, *)
Theorem C101_coarse : forall a b, coarse (re a) -> coarse (im a) -> coarse (re b) -> coarse (im b) ->
  cx_eqb a b = true <-> B2R (re a) = B2R (re b) /\ B2R (im a) = B2R (im b).
Proof. exact eqb_coarse. Qed.
Print Assumptions C101_coarse.

(** hence transitive, *)
Theorem C101_coarse_transitive : forall a b c, (forall z, In z [a; b; c] -> coarse (re z) /\ coarse (im z)) ->
  cx_eqb a b = true -> cx_eqb b c = true -> cx_eqb a c = true.
Proof. exact eqb_coarse_trans. Qed.
Print Assumptions C101_coarse_transitive.

(** and hash agrees with it for every std::hash<double> that is a function of the value. *)
Theorem C101_coarse_hash : forall (h : double -> Z) lxor shl1 a b, (forall x y, is_finite x = true -> is_finite y = true -> B2R x = B2R y -> h x = h y) ->
  coarse (re a) -> coarse (im a) -> coarse (re b) -> coarse (im b) -> cx_eqb a b = true -> cx_hash h lxor shl1 a = cx_hash h lxor shl1 b.
Proof. exact hash_coarse. Qed.
Print Assumptions C101_coarse_hash.

Example C101_case : coarse (double_of_Z 3) /\ cx_eqb (Cx (double_of_Z 3) (double_of_Z 0)) (cx_of (double_of_Z 3)) = true /\
  cx_eqb (Cx (double_of_Z 3) (double_of_Z 1)) (cx_of (double_of_Z 3)) = false.
Proof.
  split; [|split; vm_compute; reflexivity].
  assert (V : int_val (double_of_Z 3) 3) by (apply of_small; vm_compute; discriminate). exact (int_coarse _ _ V).
Qed.

(** 0, 2^-53 and 2^-52. *)
Theorem C101_transitive_refuted : cx_eqb (cx_of d0) (cx_of half_eps) = true /\ cx_eqb (cx_of half_eps) (cx_of one_eps) = true /\ cx_eqb (cx_of d0) (cx_of one_eps) = false.
Proof. exact (conj eq_zero_half (conj eq_half_one neq_zero_one)). Qed.
Print Assumptions C101_transitive_refuted.

(** Infinity. *)
Theorem C101_reflexive_refuted : cx_eqb (cx_of cinf) (cx_of cinf) = false.
Proof. exact inf_not_self. Qed.
Print Assumptions C101_reflexive_refuted.

(** Equal values with different hashes, for every std::hash<double> that tells 0 from 2^-53. *)
Theorem C101_hash_refuted : forall h : double -> Z, h half_eps <> h d0 -> forall shl1,
  cx_eqb (cx_of d0) (cx_of half_eps) = true /\ cx_hash h Z.lxor shl1 (cx_of d0) <> cx_hash h Z.lxor shl1 (cx_of half_eps).
Proof. exact hash_splits. Qed.
Print Assumptions C101_hash_refuted.

Example C101_refuted_case : exists h : double -> Z, h half_eps <> h d0.
Proof. exists (fun x => match x with B754_zero _ => 0 | _ => 1 end). vm_compute. discriminate. Qed.

(** Thrown exactly when both parts are below 2^-52 in magnitude. *)
Theorem C102_throws_exactly : forall a b, cfinite b ->
  cx_div a b = Throw DivideByZero <-> (Rabs (B2R (re b)) < bpow radix2 (-52) /\ Rabs (B2R (im b)) < bpow radix2 (-52))%R.
Proof. exact div_throws. Qed.
Print Assumptions C102_throws_exactly.

(** In particular for zero, of either sign. *)
Theorem C102_zero : forall a b, has (re b) 0 -> has (im b) 0 -> cx_div a b = Throw DivideByZero.
Proof. exact div_zero_throws. Qed.
Print Assumptions C102_zero.

(** No other outcome but a value. *)
Theorem C102_nothing_else : forall a b, cx_div a b = Throw DivideByZero \/ exists q, cx_div a b = Ok q.
Proof. exact div_total. Qed.
Print Assumptions C102_nothing_else.

Theorem C102_nonfinite : forall a b, ~ cfinite b -> exists q, cx_div a b = Ok q.
Proof. exact div_nonfinite. Qed.
Print Assumptions C102_nonfinite.

(** Every division by 2^-60 throws. *)
Theorem C102_throws_only_on_zero_refuted : has tiny (bpow radix2 (-60)) /\ forall a, cx_div a (cx_of tiny) = Throw DivideByZero.
Proof. exact (conj tiny_value tiny_div). Qed.
Print Assumptions C102_throws_only_on_zero_refuted.

Example C102_case : cfinite (cx_of (double_of_Z 2)) /\ match cx_div (cx_of (double_of_Z 6)) (cx_of (double_of_Z 2)) with Ok q => cx_eqb q (cx_of (double_of_Z 3)) | _ => false end = true /\
  cx_div (cx_of (double_of_Z 1)) cx_zero = Throw DivideByZero.
Proof. split; [split; reflexivity|]. split; vm_compute; reflexivity. Qed.

Theorem C103_add : forall a b m n p q, gauss a m n -> gauss b p q -> small (m + p) -> small (n + q) -> gauss (cx_add a b) (m + p) (n + q).
Proof. exact gauss_add. Qed.
Print Assumptions C103_add.

Theorem C103_sub : forall a b m n p q, gauss a m n -> gauss b p q -> small (m - p) -> small (n - q) -> gauss (cx_sub a b) (m - p) (n - q).
Proof. exact gauss_sub. Qed.
Print Assumptions C103_sub.

Theorem C103_mul : forall a b m n p q, gauss a m n -> gauss b p q ->
  small (m * p) -> small (n * q) -> small (m * q) -> small (n * p) -> small (m * p - n * q) -> small (m * q + n * p) ->
  gauss (cx_mul a b) (m * p - n * q) (m * q + n * p).
Proof. exact gauss_mul. Qed.
Print Assumptions C103_mul.

Theorem C103_neg : forall a m n, gauss a m n -> gauss (cx_neg a) (- m) (- n).
Proof. exact gauss_neg. Qed.
Print Assumptions C103_neg.

Theorem C103_conjugate : forall a m n, gauss a m n -> gauss (cx_conjugate a) m (- n).
Proof. exact gauss_conj. Qed.
Print Assumptions C103_conjugate.

Theorem C103_equality : forall a b m n p q, gauss a m n -> gauss b p q -> cx_eqb a b = true <-> m = p /\ n = q.
Proof. exact gauss_eqb. Qed.
Print Assumptions C103_equality.

(** An exact quotient k + l j of Gaussian integers is found exactly. *)
Theorem C103_div : forall a b k l p q, p <> 0 \/ q <> 0 -> gauss a (k * p - l * q) (k * q + l * p) -> gauss b p q ->
  let m := k * p - l * q in let n := k * q + l * p in let d := p * p + q * q in
  small k -> small l -> small (p * p) -> small (q * q) -> small d ->
  small (m * p) -> small (n * q) -> small (n * p) -> small (m * q) -> small (k * d) -> small (l * d) ->
  exists r, cx_div a b = Ok r /\ gauss r k l.
Proof. exact gauss_div. Qed.
Print Assumptions C103_div.

Example C103_case : gauss (Cx (double_of_Z 3) (double_of_Z (-4))) 3 (-4) /\ small (3 * 5 - -4 * 6) /\
  cx_eqb (cx_mul (Cx (double_of_Z 3) (double_of_Z (-4))) (Cx (double_of_Z 5) (double_of_Z 6))) (Cx (double_of_Z 39) (double_of_Z (-2))) = true.
Proof.
  split; [split; apply of_small; vm_compute; discriminate|]. split; [vm_compute; discriminate|]. vm_compute. reflexivity.
Qed.

(** The text of a number after any white space is read; what follows it is left in the stream. *)
Theorem C126_one : forall strtod t x y ws l z fuel,
  complex_literal (gives strtod) d0 t x y -> Forall blank ws -> ends l -> (length ws < fuel)%nat ->
  exists f, cx_extract strtod fuel (IStream (ws ++ t ++ l) false false) z = (Ok tt, (IStream l (is_nil l) f, Cx x y)) /\ (l <> [] -> f = false).
Proof. exact read_literal. Qed.
Print Assumptions C126_one.

(** A sequence of numbers separated by white space is read number by number. *)
Theorem C126_many : forall strtod items ws0 t0 x0 y0 fuel,
  Forall blank ws0 -> complex_literal (gives strtod) d0 t0 x0 y0 ->
  Forall (fun it => fst (fst it) <> [] /\ Forall blank (fst (fst it)) /\
            complex_literal (gives strtod) d0 (snd (fst it)) (re (snd it)) (im (snd it))) items ->
  (length ws0 + length (flat_map (fun it => fst (fst it)) items) < fuel)%nat ->
  exists s', cx_extract_all strtod fuel (S (length items))
    (IStream (ws0 ++ t0 ++ flat_map (fun it => fst (fst it) ++ snd (fst it)) items) false false)
    = Ok (Cx x0 y0 :: map snd items, s').
Proof. exact read_many. Qed.
Print Assumptions C126_many.

Example C126_case : complex_literal (gives sample) d0 (chars "1-2j") (double_of_Z 1) (double_of_Z (-2)) /\
  cx_extract sample 9 (stream " 1-2j 1") cx_zero = (Ok tt, (IStream (chars " 1") false false, Cx (double_of_Z 1) (double_of_Z (-2)))).
Proof.
  split.
  - apply (lit_both (gives sample) d0 (chars "1") (chars "-2")).
    + apply digit_number. vm_compute. split; discriminate.
    + reflexivity.
    + apply signed_digit; auto. vm_compute. split; discriminate.
    + reflexivity.
  - reflexivity.
Qed.

(** An exhausted or failed stream, or one with only white space left, is read forever; every other stream is not. *)
Theorem C127_terminates_refuted : forall strtod s z,
  (diverges (fun fuel => fst (cx_extract strtod fuel s z)) <-> (eofbit s = true \/ failbit s = true \/ Forall blank (buf s))) /\
  (~ (eofbit s = true \/ failbit s = true \/ Forall blank (buf s)) -> exists o, converges (fun fuel => fst (cx_extract strtod fuel s z)) o).
Proof. exact cx_divergence. Qed.
Print Assumptions C127_terminates_refuted.

Example C127_case : diverges (fun fuel => fst (cx_extract sample fuel (stream " ") cx_zero)) /\
  converges (fun fuel => fst (cx_extract sample fuel (stream " 1j") cx_zero)) (Ok tt).
Proof.
  split.
  - apply cx_divergence. right. right. repeat constructor. vm_compute. discriminate.
  - split; [discriminate|]. exists 2%nat. intros [|[|n]] H; [lia|lia|]. reflexivity.
Qed.

(** A character that cannot begin a number. *)
Theorem C128_reject_start : forall strtod ws c l z fuel, Forall blank ws -> 32 < code c -> starts_complex (code c) = false -> (length ws < fuel)%nat ->
  cx_extract strtod fuel (IStream (ws ++ c :: l) false false) z = (Throw WrongComplexLiteral, (IStream (c :: l) false false, z)).
Proof. exact reject_start. Qed.
Print Assumptions C128_reject_start.

Theorem C128_reject_after_imaginary : forall strtod ws t x c l z fuel, Forall blank ws -> number t -> gives strtod t x -> 32 < code c -> (length ws < fuel)%nat ->
  exists s', cx_extract strtod fuel (IStream (ws ++ t ++ "j"%char :: c :: l) false false) z = (Throw WrongComplexLiteral, (s', z)).
Proof. exact reject_after_imag. Qed.
Print Assumptions C128_reject_after_imaginary.

Theorem C128_reject_not_j : forall strtod ws t u x y c l z fuel, Forall blank ws -> number t -> gives strtod t x -> signed_number u -> gives strtod u y ->
  stop_char c -> 32 < code c -> c <> "j"%char -> (length ws < fuel)%nat ->
  exists s', cx_extract strtod fuel (IStream (ws ++ t ++ u ++ c :: l) false false) z = (Throw WrongComplexLiteral, (s', z)).
Proof. exact reject_not_j. Qed.
Print Assumptions C128_reject_not_j.

Theorem C128_reject_after_j : forall strtod ws t u x y c l z fuel, Forall blank ws -> number t -> gives strtod t x -> signed_number u -> gives strtod u y ->
  32 < code c -> (length ws < fuel)%nat ->
  exists s', cx_extract strtod fuel (IStream (ws ++ t ++ u ++ "j"%char :: c :: l) false false) z = (Throw WrongComplexLiteral, (s', z)).
Proof. exact reject_after_both. Qed.
Print Assumptions C128_reject_after_j.

(** A number followed by any character that is neither white space, j, a sign nor part of a number: the uninitialised char is read. *)
Theorem C128_junk_refuted : forall strtod ws t x c l z fuel,
  Forall blank ws -> number t -> gives strtod t x ->
  stop_char c -> 32 < code c -> is_sign_char c = false -> c <> "j"%char -> snd (strtod []) = true -> (length ws < fuel)%nat ->
  exists s', cx_extract strtod fuel (IStream (ws ++ t ++ c :: l) false false) z = (UB Indeterminate, (s', z)).
Proof. exact undefined_junk. Qed.
Print Assumptions C128_junk_refuted.

(** The j is missing and the input ends. *)
Theorem C128_no_j_refuted : forall strtod ws t u x y l z fuel, Forall blank ws -> number t -> gives strtod t x -> signed_number u -> gives strtod u y ->
  Forall (fun c => isspace c = true) l -> (length ws < fuel)%nat ->
  exists s', cx_extract strtod fuel (IStream (ws ++ t ++ u ++ l) false false) z = (UB Indeterminate, (s', z)).
Proof. exact undefined_no_j. Qed.
Print Assumptions C128_no_j_refuted.

(** The text 1z+2j, named in a comment of the source as handled. *)
Theorem C128_comment_refuted : forall strtod x z, gives strtod (chars "1") x -> snd (strtod []) = true ->
  exists s', cx_extract strtod 1 (stream "1z+2j") z = (UB Indeterminate, (s', z)).
Proof. exact junk_undefined. Qed.
Print Assumptions C128_comment_refuted.

Example C128_case : fst (cx_extract sample 9 (stream "z1") cx_zero) = Throw WrongComplexLiteral /\
  fst (cx_extract sample 9 (stream "1jj2j") cx_zero) = Throw WrongComplexLiteral /\
  fst (cx_extract sample 9 (stream "1+2zj") cx_zero) = Throw WrongComplexLiteral /\
  fst (cx_extract sample 9 (stream "1+2jj") cx_zero) = Throw WrongComplexLiteral /\
  fst (cx_extract sample 9 (stream "1z+2j") cx_zero) = UB Indeterminate /\
  fst (cx_extract sample 9 (stream "1+z2j") cx_zero) = UB Indeterminate /\
  fst (cx_extract sample 9 (stream "1+2 ") cx_zero) = UB Indeterminate.
Proof. repeat split; reflexivity. Qed.

(** The outcome on every text that is not blank: the numbers are the longest prefixes that can be continued to a floating-point literal; white space may precede the j of two numbers; the second number need not have a sign. *)
Theorem C129_outcome_exact : forall strtod ws c l z fuel,
  Forall blank ws -> 32 < code c -> (length ws < fuel)%nat ->
  let o := cx_extract strtod fuel (IStream (ws ++ c :: l) false false) z in
  let text := reads (gives strtod) (flawed strtod) d0 (c :: l) in
  (forall v, (fst o = Ok tt /\ snd (snd o) = v) <-> text (Value (re v) (im v)) \/ (text (Failed (re v)) /\ im v = d0)) /\
  (fst o = Throw WrongComplexLiteral <-> text Rejected) /\
  (fst o = UB Indeterminate <-> text Undefined) /\
  (fst o = Ok tt \/ (fst o = Throw WrongComplexLiteral \/ fst o = UB Indeterminate) /\ snd (snd o) = z).
Proof. exact extraction_exact. Qed.
Print Assumptions C129_outcome_exact.

(** A failed conversion shows in failbit. *)
Theorem C129_failbit : forall strtod ws c l x z fuel, Forall blank ws -> 32 < code c -> (length ws < fuel)%nat ->
  reads (gives strtod) (flawed strtod) d0 (c :: l) (Failed x) ->
  failbit (fst (snd (cx_extract strtod fuel (IStream (ws ++ c :: l) false false) z))) = true.
Proof. exact flawed_failbit. Qed.
Print Assumptions C129_failbit.

(** 1.5.5j is read as 1.5+0.5j. *)
Theorem C129_two_points_refuted : forall strtod x y z, gives strtod (chars "1.5") x -> gives strtod (chars ".5") y ->
  cx_extract strtod 1 (stream "1.5.5j") z = (Ok tt, (IStream [] true false, Cx x y)).
Proof. exact two_points. Qed.
Print Assumptions C129_two_points_refuted.

Theorem C129_space_refuted : forall strtod x y z, gives strtod (chars "1") x -> gives strtod (chars "+2") y ->
  cx_extract strtod 1 (stream "1+2 j") z = (Ok tt, (IStream [] true false, Cx x y)).
Proof. exact space_before_j. Qed.
Print Assumptions C129_space_refuted.

(** No exception for a sign alone; the target is overwritten. *)
Theorem C129_lone_sign_refuted : forall strtod x z, strtod (chars "+") = (x, true) ->
  cx_extract strtod 1 (stream "+z") z = (Ok tt, (IStream (chars "z") false true, cx_of x)).
Proof. exact lone_sign. Qed.
Print Assumptions C129_lone_sign_refuted.

Example C129_case : gives sample (chars "1.5") (ddiv (double_of_Z 3) (double_of_Z 2)) /\ gives sample (chars ".5") (ddiv (double_of_Z 1) (double_of_Z 2)) /\
  gives sample (chars "1") (double_of_Z 1) /\ gives sample (chars "+2") (double_of_Z 2) /\ sample (chars "+") = (double_of_Z 0, true).
Proof. repeat split; reflexivity. Qed.

Example C129_reads : reads (gives sample) (flawed sample) d0 (chars "1+2 j") (Value (double_of_Z 1) (double_of_Z 2)) /\
  reads (gives sample) (flawed sample) d0 (chars "+z") (Failed (double_of_Z 0)) /\ 32 < code "1"%char /\ 32 < code "+"%char.
Proof.
  assert (L1 : longest (chars "1") (chars "+2 j")) by (apply (collected_longest (chars "1+2 j")); reflexivity).
  assert (L2 : longest (chars "+2") (chars " j")) by (apply (collected_longest (chars "+2 j")); reflexivity).
  assert (L3 : longest (chars "+") (chars "z")) by (apply (collected_longest (chars "+z")); reflexivity).
  split; [|split; [|split; reflexivity]].
  - eapply (r_both _ _ _ "1"%char (chars "+2 j") (chars "1") (chars "+2 j") _ (chars "+2") (chars " ") []); try exact L1; try exact L2; try reflexivity.
    all: try exact I; try discriminate; try (repeat constructor; fail); try (left; vm_compute; split; discriminate).
    cbn. intros F. apply F. reflexivity.
  - eapply (r_flawed _ _ _ "+"%char (chars "z") (chars "+") (chars "z")); try exact L3; try reflexivity. right. left. reflexivity.
Qed.

(** Printed text is rejected, always. *)
Theorem C130_round_trip_refuted : forall strtod show a ws l z fuel, Forall blank ws -> (length ws < fuel)%nat ->
  exists s', cx_extract strtod fuel (IStream (ws ++ cx_print show a ++ l) false false) z = (Throw WrongComplexLiteral, (s', z)).
Proof. exact print_unreadable. Qed.
Print Assumptions C130_round_trip_refuted.

Example C130_case : fst (cx_extract sample 1 (stream "(1+2j)") cx_zero) = Throw WrongComplexLiteral.
Proof. reflexivity. Qed.

Theorem C131_zero_exponent : forall m b e, cx_eqb e cx_zero = true -> cx_pow m b e = Ok (Cx d1 d0).
Proof. exact pow_zero_exponent. Qed.
Print Assumptions C131_zero_exponent.

Theorem C131_zero_base : forall m b e, cx_eqb e cx_zero = false -> cx_eqb b cx_zero = true -> cx_pow m b e = Throw MathDomain.
Proof. exact pow_zero_base. Qed.
Print Assumptions C131_zero_base.

Theorem C131_polar : forall m b e, cx_eqb e cx_zero = false -> cx_eqb b cx_zero = false ->
  let r := m_hypot m (re b) (im b) in let phi := m_atan2 m (im b) (re b) in
  let rho := dmul (m_pow m r (re e)) (m_exp m (dmul (dopp phi) (im e))) in
  let theta := dadd (dmul (m_log m r) (im e)) (dmul phi (re e)) in
  cx_pow m b e = Ok (Cx (dmul rho (m_cos m theta)) (dmul rho (m_sin m theta))).
Proof. exact pow_polar. Qed.
Print Assumptions C131_polar.

(** 2^-60 as base is taken for 0, and as exponent too. *)
Theorem C131_tiny_refuted : forall m, has tiny (bpow radix2 (-60)) /\
  cx_pow m (cx_of tiny) (cx_of d1) = Throw MathDomain /\ forall b, cx_pow m b (cx_of tiny) = Ok (Cx d1 d0).
Proof. exact pow_tiny. Qed.
Print Assumptions C131_tiny_refuted.

Example C131_case : cx_eqb (cx_of d1) cx_zero = false /\ cx_eqb (Cx d0 d1) cx_zero = false /\ cx_eqb cx_zero cx_zero = true.
Proof. vm_compute. repeat split. Qed.

(** For any operator; the right operand may be the object itself. *)
Theorem C132_stored : forall op a b r, op a b = Ok r -> cx_assign op a b = (Ok tt, r).
Proof. exact assign_ok. Qed.
Print Assumptions C132_stored.

Theorem C132_unchanged : forall op a b e, op a b = Throw e -> cx_assign op a b = (Throw e, a).
Proof. exact assign_throw. Qed.
Print Assumptions C132_unchanged.

Theorem C132_div_by_zero : forall a, cx_assign cx_div a cx_zero = (Throw DivideByZero, a).
Proof. exact assign_div_zero. Qed.
Print Assumptions C132_div_by_zero.

Theorem C132_moved_from : forall a, cx_move a = (a, Cx d0 d0).
Proof. exact move_zero. Qed.
Print Assumptions C132_moved_from.

Example C132_case : match cx_assign cx_div (cx_of (double_of_Z 6)) (cx_of (double_of_Z 3)) with
  | (Ok _, r) => cx_eqb r (cx_of (double_of_Z 2)) | _ => false end = true.
Proof. vm_compute. reflexivity. Qed.

(** Exactly 1. *)
Theorem C133_div_self : forall b, cfinite b ->
  let x := B2R (re b) in let y := B2R (im b) in
  (bpow radix2 (-52) <= Rabs x \/ bpow radix2 (-52) <= Rabs y)%R ->
  fits (x * x) -> fits (y * y) -> fits (rnd (x * x) + rnd (y * y)) -> cx_div b b = Ok (Cx d1 d0).
Proof. exact div_by_self. Qed.
Print Assumptions C133_div_self.

Theorem C133_mul_one : forall a, cfinite a -> has (re (cx_mul a (cx_of d1))) (B2R (re a)) /\ has (im (cx_mul a (cx_of d1))) (B2R (im a)).
Proof. exact mul_by_one. Qed.
Print Assumptions C133_mul_one.

Theorem C133_div_one : forall a, cfinite a -> exists q, cx_div a (cx_of d1) = Ok q /\ has (re q) (B2R (re a)) /\ has (im q) (B2R (im a)).
Proof. exact div_by_one. Qed.
Print Assumptions C133_div_one.

Theorem C133_add_zero : forall a, cfinite a -> has (re (cx_add a cx_zero)) (B2R (re a)) /\ has (im (cx_add a cx_zero)) (B2R (im a)).
Proof. exact add_zero. Qed.
Print Assumptions C133_add_zero.

Theorem C133_sub_self : forall a, cfinite a -> cx_sub a a = cx_zero.
Proof. exact sub_same. Qed.
Print Assumptions C133_sub_self.

Example C133_case : cfinite (Cx (double_of_Z 3) (double_of_Z 4)) /\ match cx_div (Cx (double_of_Z 3) (double_of_Z 4)) (Cx (double_of_Z 3) (double_of_Z 4)) with Ok q => cx_eqb q (cx_of d1) | _ => false end = true.
Proof. split; [split; reflexivity|]. vm_compute. reflexivity. Qed.

(** 2^600 divided by itself is NaN; *)
Theorem C134_large_divisor_refuted : has huge (bpow radix2 600) /\ exists q, cx_div (cx_of huge) (cx_of huge) = Ok q /\ is_nan (re q) = true.
Proof. exact (conj huge_value huge_div). Qed.
Print Assumptions C134_large_divisor_refuted.

(** and with any divisor that has a part of magnitude 2^512 or more both parts of the result are zero or NaN. *)
Theorem C134_all_large_divisors_refuted : forall a b q, (bpow radix2 512 <= Rabs (B2R (re b)) \/ bpow radix2 512 <= Rabs (B2R (im b)))%R ->
  cx_div a b = Ok q -> (is_nan (re q) = true \/ has (re q) 0) /\ (is_nan (im q) = true \/ has (im q) 0).
Proof. exact div_big. Qed.
Print Assumptions C134_all_large_divisors_refuted.

Theorem C135_text : forall show a, cx_print show a =
  ["("%char] ++ show (re a) ++ [if dltb (im a) d0 then "-"%char else "+"%char] ++ show (dabs (im a)) ++ ["j"%char; ")"%char].
Proof. exact print_text. Qed.
Print Assumptions C135_text.

Example C135_case : cx_print (fun x => if dltb x (double_of_Z 2) then chars "1" else chars "2") (Cx (double_of_Z 1) (double_of_Z (-2))) = chars "(1-2j)".
Proof. vm_compute. reflexivity. Qed.

(** A real number at the end of the input is dropped. *)
Theorem C136_loop_real_refuted : forall strtod t x, number t -> gives strtod t x ->
  converges (fun fuel => cx_read_loop strtod fuel (IStream t false false)) (Ok []).
Proof. exact loop_real. Qed.
Print Assumptions C136_loop_real_refuted.

(** After any other number at the end of the input the loop never ends. *)
Theorem C136_loop_imaginary_refuted : forall strtod t y, number t -> gives strtod t y ->
  diverges (fun fuel => cx_read_loop strtod fuel (IStream (t ++ ["j"%char]) false false)).
Proof. exact loop_imag. Qed.
Print Assumptions C136_loop_imaginary_refuted.

Theorem C136_loop_both_refuted : forall strtod t u x y, number t -> gives strtod t x -> signed_number u -> gives strtod u y ->
  diverges (fun fuel => cx_read_loop strtod fuel (IStream (t ++ u ++ ["j"%char]) false false)).
Proof. exact loop_both. Qed.
Print Assumptions C136_loop_both_refuted.

Example C136_case : number (chars "1") /\ gives sample (chars "1") (double_of_Z 1) /\ signed_number (chars "+2") /\ gives sample (chars "+2") (double_of_Z 2).
Proof.
  split; [apply digit_number; vm_compute; split; discriminate|]. split; [reflexivity|]. split; [|reflexivity].
  apply signed_digit; auto. vm_compute. split; discriminate.
Qed.

(** u is 2^-53 and eta half the smallest positive double. *)
Theorem C137_mul : forall a b, cfinite a -> cfinite b ->
  let ar := B2R (re a) in let ai := B2R (im a) in let br := B2R (re b) in let bi := B2R (im b) in
  fits (ar * br) -> fits (ai * bi) -> fits (ar * bi) -> fits (ai * br) ->
  fits (rnd (ar * br) - rnd (ai * bi)) -> fits (rnd (ar * bi) + rnd (ai * br)) ->
  cfinite (cx_mul a b) /\
  (Rabs (B2R (re (cx_mul a b)) - (ar * br - ai * bi)) <= (2 * u + u * u) * (Rabs (ar * br) + Rabs (ai * bi)) + (3 + 2 * u) * eta)%R /\
  (Rabs (B2R (im (cx_mul a b)) - (ar * bi + ai * br)) <= (2 * u + u * u) * (Rabs (ar * bi) + Rabs (ai * br)) + (3 + 2 * u) * eta)%R.
Proof. exact mul_error. Qed.
Print Assumptions C137_mul.

Theorem C137_div : forall a b, cfinite a -> cfinite b -> cx_eqb b cx_zero = false ->
  let ar := B2R (re a) in let ai := B2R (im a) in let br := B2R (re b) in let bi := B2R (im b) in
  let D := (br * br + bi * bi)%R in
  let den := rnd (rnd (br * br) + rnd (bi * bi)) in
  let x := rnd (rnd (ar * br) + rnd (ai * bi)) in let y := rnd (rnd (ai * br) - rnd (ar * bi)) in
  fits (br * br) -> fits (bi * bi) -> fits (rnd (br * br) + rnd (bi * bi)) ->
  fits (ar * br) -> fits (ai * bi) -> fits (rnd (ar * br) + rnd (ai * bi)) -> fits (x / den) ->
  fits (ai * br) -> fits (ar * bi) -> fits (rnd (ai * br) - rnd (ar * bi)) -> fits (y / den) ->
  exists q, cx_div a b = Ok q /\ cfinite q /\
    (Rabs (B2R (re q) - (ar * br + ai * bi) / D) <= 8 * u * ((Rabs (ar * br) + Rabs (ai * bi)) / D) + (1 + 5 / D) * eta)%R /\
    (Rabs (B2R (im q) - (ai * br - ar * bi) / D) <= 8 * u * ((Rabs (ai * br) + Rabs (ar * bi)) / D) + (1 + 5 / D) * eta)%R.
Proof. exact div_error. Qed.
Print Assumptions C137_div.

Example C137_case : u = bpow radix2 (-53) /\ eta = bpow radix2 (-1075) /\ match cx_div (cx_of (double_of_Z 1)) (cx_of (double_of_Z 3)) with Ok q => is_finite (re q) | _ => false end = true.
Proof. split; [reflexivity|]. split; [reflexivity|]. vm_compute. reflexivity. Qed.
