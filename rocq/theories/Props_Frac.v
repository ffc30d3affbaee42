(** Properties C35-C46, C104, C105: fractions. Theorems only; each is an instance of a lemma
    proved elsewhere and is followed by its assumptions and by a concrete case. *)
From Coq Require Import String Ascii ZArith QArith Qabs List Bool Lia.
From Verif Require Import Outcome IntModel IntSpec IntProgModel StreamModel Show ShowFacts FloatModel FloatFacts
  FracModel FracProgModel FracSpec FracFacts FracGcd FracIO FracMore ExTools.
Import ListNotations.
Open Scope Z_scope.

(** int.hpp:109 computes std::floor((double)a / b); the model of Int subtraction uses exact floor division. The two agree on ints. *)
Theorem C05_floor_division_of_ints : forall a b, INT_MIN <= a <= INT_MAX -> INT_MIN <= b <= INT_MAX -> b <> 0 ->
  INT_MIN <= a / b <= INT_MAX ->
  floor_to_int (ddiv (double_of_Z a) (double_of_Z b)) = Ok (a / b).
Proof. exact floor_quot. Qed.
Print Assumptions C05_floor_division_of_ints.

Example C05_floor_case : floor_to_int (ddiv (double_of_Z (-7)) (double_of_Z 10)) = Ok (-1).
Proof. vm_compute. reflexivity. Qed.

Theorem C35_lowest_terms : forall fuel prog s s' ev, Forall int_args prog -> (forall v, valid (s v)) ->
  frun fuel prog s = Ok (s', ev) -> forall v, valid (s' v).
Proof. exact histories_valid. Qed.
Print Assumptions C35_lowest_terms.

Theorem C35_zero_denominator : forall n, frac_make n 0 = Throw DivideByZero.
Proof. exact zero_denominator. Qed.
Print Assumptions C35_zero_denominator.

Theorem C35_constructor : forall n d, fits n -> fits d -> d <> 0 ->
  (n <> INT_MIN /\ d <> INT_MIN -> is_rat (frac_make n d) (inject_Z n / inject_Z d)) /\
  (~ (n <> INT_MIN /\ d <> INT_MIN) -> frac_make n d = UB SignedOverflow).
Proof. exact make_exact. Qed.
Print Assumptions C35_constructor.

Example C35_case : exists s' ev,
  frun 99 [FMake 1%nat 6 (-4); FMake 2%nat 3 0; FMake 2%nat 10 15; FAssign AMul 1%nat 2%nat; FBin FLcm 3%nat 1%nat 2%nat; FPrint 1%nat; FPrint 3%nat]
    (fun _ => Frac 0 1) = Ok (s', ev) /\ s' 1%nat = Frac (-1) 1 /\
    ev = [EThrow DivideByZero; EText (chars "-1"); EText (chars "2")].
Proof. do 2 eexists. vm_compute. repeat split. Qed.

Theorem C36_add : forall x y, valid x -> valid y ->
  let safe := fits (num x * den y) /\ fits (den x * num y) /\ fits1 (num x * den y + den x * num y) /\ fits (den x * den y) in
  (safe -> is_rat (frac_add x y) (qval x + qval y)) /\ (~ safe -> frac_add x y = UB SignedOverflow).
Proof. exact add_exact. Qed.
Print Assumptions C36_add.

Theorem C36_sub : forall x y, valid x -> valid y ->
  let safe := fits (num x * den y) /\ fits (den x * num y) /\ fits1 (num x * den y - den x * num y) /\ fits (den x * den y) in
  (safe -> is_rat (frac_sub x y) (qval x - qval y)) /\ (~ safe -> frac_sub x y = UB SignedOverflow).
Proof. exact sub_exact. Qed.
Print Assumptions C36_sub.

Theorem C36_mul : forall x y, valid x -> valid y ->
  let safe := fits1 (num x * num y) /\ fits (den x * den y) in
  (safe -> is_rat (frac_mul x y) (qval x * qval y)) /\ (~ safe -> frac_mul x y = UB SignedOverflow).
Proof. exact mul_exact. Qed.
Print Assumptions C36_mul.

Theorem C36_div : forall x y, valid x -> valid y ->
  let safe := fits1 (num x * den y) /\ fits1 (den x * num y) in
  ((qval y == 0)%Q -> frac_div x y = Throw DivideByZero) /\
  (~ (qval y == 0)%Q -> safe -> is_rat (frac_div x y) (qval x / qval y)) /\
  (~ (qval y == 0)%Q -> ~ safe -> frac_div x y = UB SignedOverflow).
Proof. exact div_exact. Qed.
Print Assumptions C36_div.

(** Never overflows: the numerator of a valid fraction is not INT_MIN. *)
Theorem C36_neg_abs : forall x, valid x -> is_rat (frac_neg x) (- qval x) /\ is_rat (frac_abs x) (Qabs (qval x)).
Proof. exact neg_total. Qed.
Print Assumptions C36_neg_abs.

(** +=, -=, *=, /= and %= store the result of the operator; on an exception the target is unchanged. *)
Theorem C36_assignment : forall o x y,
  match frac_op o x y with
  | Ok r => frac_assign (frac_op o) x y = (Ok tt, r)
  | Throw e => frac_assign (frac_op o) x y = (Throw e, x)
  | UB u => frac_assign (frac_op o) x y = (UB u, x)
  | OutOfFuel => frac_assign (frac_op o) x y = (OutOfFuel, x)
  end.
Proof. exact assign_spec. Qed.
Print Assumptions C36_assignment.

(** Every program over Fraction variables that runs without overflow computes the rationals of the same program, with the same exceptions, comparisons and printed text. *)
Theorem C36_programs : forall fuel prog s e s' ev, Forall int_args prog -> frepresents s e -> frun fuel prog s = Ok (s', ev) ->
  exists e', qrun prog e e' ev /\ frepresents s' e'.
Proof. exact frun_refines. Qed.
Print Assumptions C36_programs.

Example C36_case : valid (Frac 1 2) /\ valid (Frac (-2) 3) /\
  frac_add (Frac 1 2) (Frac (-2) 3) = Ok (Frac (-1) 6) /\ frac_sub (Frac 1 2) (Frac (-2) 3) = Ok (Frac 7 6) /\
  frac_mul (Frac 1 2) (Frac (-2) 3) = Ok (Frac (-1) 3) /\ frac_div (Frac 1 2) (Frac (-2) 3) = Ok (Frac (-3) 4) /\
  frac_assign (frac_op ADiv) (Frac 1 2) (Frac 0 1) = (Throw DivideByZero, Frac 1 2) /\
  frac_add (Frac 1 65537) (Frac 1 65537) = UB SignedOverflow.
Proof. split; [apply valid_check; reflexivity|]. split; [apply valid_check; reflexivity|]. vm_compute. repeat split. Qed.

Theorem C37_small_operands : forall x y, valid x -> valid y -> small x -> small y ->
  is_rat (frac_add x y) (qval x + qval y) /\ is_rat (frac_sub x y) (qval x - qval y) /\
  is_rat (frac_mul x y) (qval x * qval y) /\
  (num y <> 0 -> is_rat (frac_div x y) (qval x / qval y) /\
     exists r, frac_mod x y = Ok r /\ valid r /\ qrem (qval x) (qval y) (qval r)) /\
  (exists l le g ge, frac_lt x y = Ok l /\ frac_le x y = Ok le /\ frac_gt x y = Ok g /\ frac_ge x y = Ok ge /\
    (l = true <-> qval x < qval y)%Q /\ (le = true <-> qval x <= qval y)%Q /\
    (g = true <-> qval y < qval x)%Q /\ (ge = true <-> qval y <= qval x)%Q) /\
  (frac_eqb x y = true <-> (qval x == qval y)%Q).
Proof. exact small_exact. Qed.
Print Assumptions C37_small_operands.

Example C37_case : valid (Frac 32767 32766) /\ small (Frac 32767 32766) /\ valid (Frac (-32767) 32765) /\
  frac_add (Frac 32767 32766) (Frac 32767 32765) = Ok (Frac 2147254277 1073577990).
Proof. split; [apply valid_check; reflexivity|]. split; [split; vm_compute; discriminate|]. split; [apply valid_check; reflexivity|]. vm_compute. reflexivity. Qed.

(** Operands and exact results fit in int, the calls are undefined. *)
Theorem C38_total_refuted : (valid (Frac 1 65536) /\ valid (Frac (-1) 65536) /\ (qval (Frac 1 65536) + qval (Frac (-1) 65536) == 0)%Q /\ frac_add (Frac 1 65536) (Frac (-1) 65536) = UB SignedOverflow) /\
  (valid (Frac 1 65536) /\ (qval (Frac 1 65536) - qval (Frac 1 65536) == 0)%Q /\ frac_sub (Frac 1 65536) (Frac 1 65536) = UB SignedOverflow) /\
  (valid (Frac 65537 65536) /\ valid (Frac 65536 65537) /\ (qval (Frac 65537 65536) * qval (Frac 65536 65537) == 1)%Q /\ frac_mul (Frac 65537 65536) (Frac 65536 65537) = UB SignedOverflow) /\
  (valid (Frac 65537 65536) /\ (qval (Frac 65537 65536) / qval (Frac 65537 65536) == 1)%Q /\ frac_div (Frac 65537 65536) (Frac 65537 65536) = UB SignedOverflow) /\
  (valid (Frac 65537 65536) /\ frac_lt (Frac 65537 65536) (Frac 65537 65536) = UB SignedOverflow).
Proof. exact not_total. Qed.
Print Assumptions C38_total_refuted.

Theorem C39_order : forall x y, valid x -> valid y ->
  fits (num x * den y) -> fits (den x * num y) -> fits (num x * den y - den x * num y) ->
  exists l le g ge, frac_lt x y = Ok l /\ frac_le x y = Ok le /\ frac_gt x y = Ok g /\ frac_ge x y = Ok ge /\
    (l = true <-> qval x < qval y)%Q /\ (le = true <-> qval x <= qval y)%Q /\
    (g = true <-> qval y < qval x)%Q /\ (ge = true <-> qval y <= qval x)%Q.
Proof. exact ord_exact. Qed.
Print Assumptions C39_order.

Example C39_case : frac_lt (Frac (-1) 2) (Frac 1 46341) = Ok true /\ frac_ge (Frac 1 3) (Frac 2 6) = Ok true.
Proof. vm_compute. repeat split. Qed.

Theorem C40_equality_moderate : forall x y, valid x -> valid y ->
  Z.abs (num x * den y) < 2 ^ 52 -> Z.abs (num y * den x) < 2 ^ 52 ->
  (frac_eqb x y = true <-> (qval x == qval y)%Q).
Proof. exact eq_moderate. Qed.
Print Assumptions C40_equality_moderate.

(** The comparison with 0 used by check_zero, gcd and lcm is always right. *)
Theorem C40_zero_test : forall x, valid x -> (frac_is0 x = true <-> (qval x == 0)%Q).
Proof. exact zero_tests. Qed.
Print Assumptions C40_zero_test.

Example C40_case : frac_eqb (Frac 1 3) (Frac 1 3) = true /\ frac_eqb (Frac 67108863 67108864) (Frac 33554431 33554432) = false /\
  Z.abs (67108863 * 33554432) < 2 ^ 52 /\ Z.abs (33554431 * 67108864) < 2 ^ 52.
Proof. vm_compute. repeat split. Qed.

Theorem C41_equality_refuted : valid (Frac 2147483647 2147483646) /\ valid (Frac 2147483646 2147483645) /\ frac_eqb (Frac 2147483647 2147483646) (Frac 2147483646 2147483645) = true /\ ~ (qval (Frac 2147483647 2147483646) == qval (Frac 2147483646 2147483645))%Q.
Proof. exact eq_false. Qed.
Print Assumptions C41_equality_refuted.

(** The half that holds: equal rationals compare equal, and hash alike for every hash of int. *)
Theorem C41_equal_rationals : forall x y, valid x -> valid y -> (qval x == qval y)%Q -> frac_eqb x y = true.
Proof. exact eq_reflects. Qed.
Print Assumptions C41_equal_rationals.

Theorem C41_hash : forall hi lx sh x y, valid x -> valid y -> (qval x == qval y)%Q -> frac_hash hi lx sh x = frac_hash hi lx sh y.
Proof. exact hash_congr. Qed.
Print Assumptions C41_hash.

Theorem C42_remainder : forall x y, valid x -> valid y ->
  let p := num x * den y in let q := num y * den x in
  let safe := fits p /\ fits q /\ fits (den x * den y) /\ ~ (p = INT_MIN /\ q = -1) in
  ((qval y == 0)%Q -> frac_mod x y = Throw DivideByZero) /\
  (~ (qval y == 0)%Q -> safe -> exists r, frac_mod x y = Ok r /\ valid r /\ qrem (qval x) (qval y) (qval r)) /\
  (~ (qval y == 0)%Q -> ~ safe -> frac_mod x y = UB SignedOverflow).
Proof. exact remainder. Qed.
Print Assumptions C42_remainder.

(** The specification [qrem] determines the remainder. *)
Theorem C42_remainder_unique : forall a b r r', qrem a b r -> qrem a b r' -> (r == r')%Q.
Proof. exact qrem_unique. Qed.
Print Assumptions C42_remainder_unique.

Example C42_case : frac_mod (Frac (-7) 2) (Frac 2 3) = Ok (Frac (-1) 6) /\ frac_mod (Frac 7 2) (Frac 0 1) = Throw DivideByZero.
Proof. vm_compute. repeat split. Qed.

Theorem C43_gcd : forall a b, valid a -> valid b ->
  exists o, converges (fun fuel => frac_gcd fuel a b) o /\
    ((o = UB SignedOverflow /\ ~ scaled_ok a b) \/ exists g, o = Ok g /\ valid g /\ qgcd (qval a) (qval b) (qval g)).
Proof. exact gcd_exact. Qed.
Print Assumptions C43_gcd.

Theorem C43_lcm : forall a b, valid a -> valid b ->
  exists o, converges (fun fuel => frac_lcm fuel a b) o /\
    ((o = UB SignedOverflow /\ ~ (scaled_ok a b /\ Z.abs (num a * num b) <= safe_bound)) \/
     exists l, o = Ok l /\ valid l /\ qlcm (qval a) (qval b) (qval l)).
Proof. exact lcm_exact. Qed.
Print Assumptions C43_lcm.

(** The specifications determine the results. *)
Theorem C43_gcd_unique : forall a b g g', qgcd a b g -> qgcd a b g' -> (g == g')%Q.
Proof. exact qgcd_unique. Qed.
Print Assumptions C43_gcd_unique.

Theorem C43_lcm_unique : forall a b l l', qlcm a b l -> qlcm a b l' -> (l == l')%Q.
Proof. exact qlcm_unique. Qed.
Print Assumptions C43_lcm_unique.

Example C43_case : frac_gcd 99 (Frac 3 4) (Frac (-5) 6) = Ok (Frac 1 12) /\ frac_lcm 99 (Frac 3 4) (Frac (-5) 6) = Ok (Frac 15 2) /\
  scaled_ok (Frac 3 4) (Frac (-5) 6) /\ frac_lcm 99 (Frac 0 1) (Frac 1 2) = Ok (Frac 0 1).
Proof. split; [vm_compute; reflexivity|]. split; [vm_compute; reflexivity|]. split; [|vm_compute; reflexivity]. unfold scaled_ok; vm_compute; repeat split; discriminate. Qed.

Theorem C44_text : forall f, valid f -> frac_print f = qtext (qval f).
Proof. exact print_text. Qed.
Print Assumptions C44_text.

(** [ws] is white space, [rest] is empty or starts with white space. At end of input the stream is left with failbit set (see C105). *)
Theorem C44_round_trip : forall ws f rest f0, Forall blank ws -> valid f -> ends rest ->
  exists k, forall fuel, (k <= fuel)%nat ->
  frac_extract fuel (IStream (ws ++ frac_print f ++ rest) false false) f0 =
    (Ok tt, (IStream rest (is_nil rest) (is_nil rest), f)).
Proof. exact print_read. Qed.
Print Assumptions C44_round_trip.

Theorem C44_read_whole : forall ws n a rest f0, Forall blank ws -> literal n = Some a -> fits1 a -> ends rest ->
  exists k, forall fuel, (k <= fuel)%nat ->
  frac_extract fuel (IStream (ws ++ n ++ rest) false false) f0 =
    (Ok tt, (IStream rest (is_nil rest) (is_nil rest), Frac a 1)).
Proof. exact read_whole. Qed.
Print Assumptions C44_read_whole.

Theorem C44_read_quotient : forall ws n a d b rest f0, Forall blank ws -> literal n = Some a -> literal d = Some b ->
  fits1 a -> fits1 b -> ends rest ->
  exists k, forall fuel, (k <= fuel)%nat ->
  let o := frac_extract fuel (IStream (ws ++ n ++ "/"%char :: d ++ rest) false false) f0 in
  let s' := IStream rest (is_nil rest) (is_nil rest) in
  (b = 0 -> o = (Throw DivideByZero, (s', f0))) /\
  (b <> 0 -> exists r, o = (Ok tt, (s', r)) /\ valid r /\ (qval r == inject_Z a / inject_Z b)%Q).
Proof. exact read_quotient. Qed.
Print Assumptions C44_read_quotient.

(** Any number of printed fractions, separated by nonempty white space. *)
Theorem C44_read_back : forall items ws0 x0,
  Forall blank ws0 -> valid x0 ->
  Forall (fun it => fst it <> [] /\ Forall blank (fst it) /\ valid (snd it)) items ->
  exists k s', forall fuel, (k <= fuel)%nat -> frac_extract_all fuel (S (List.length items))
    (IStream (ws0 ++ frac_print x0 ++ flat_map (fun it => fst it ++ frac_print (snd it)) items) false false)
    = Ok (x0 :: map snd items, s').
Proof. exact print_many. Qed.
Print Assumptions C44_read_back.

Example C44_case : frac_print (Frac (-3) 7) = chars "-3/7" /\
  frac_extract 9 (IStream (chars " +6/-14 5") false false) (Frac 0 1) = (Ok tt, (IStream (chars " 5") false false, Frac (-3) 7)) /\
  frac_extract_all 9 2 (IStream (chars "-3/7 5") false false) = Ok ([Frac (-3) 7; Frac 5 1], IStream [] true true).
Proof. vm_compute. repeat split. Qed.

Theorem C45_bad_start : forall ws c rest f0, Forall blank ws -> 32 < code c -> is_digit_char c = false -> is_sign_char c = false ->
  exists k s', forall fuel, (k <= fuel)%nat ->
  frac_extract fuel (IStream (ws ++ c :: rest) false false) f0 = (Throw WrongFractionLiteral, (s', f0)).
Proof. exact reject_start. Qed.
Print Assumptions C45_bad_start.

Theorem C45_bad_separator : forall ws n a c rest f0, Forall blank ws -> literal n = Some a -> fits a ->
  32 < code c -> is_digit_char c = false -> c <> "/"%char ->
  exists k, forall fuel, (k <= fuel)%nat -> exists s',
  frac_extract fuel (IStream (ws ++ n ++ c :: rest) false false) f0 = (Throw WrongFractionLiteral, (s', f0)).
Proof. exact reject_separator. Qed.
Print Assumptions C45_bad_separator.

Theorem C45_bad_denominator : forall ws n a rest f0, Forall blank ws -> literal n = Some a -> fits a ->
  match rest with [] => True | c :: _ => is_digit_char c = false /\ is_sign_char c = false end ->
  exists k, forall fuel, (k <= fuel)%nat -> exists s',
  frac_extract fuel (IStream (ws ++ n ++ "/"%char :: rest) false false) f0 = (Throw WrongFractionLiteral, (s', f0)).
Proof. exact reject_denominator. Qed.
Print Assumptions C45_bad_denominator.

Theorem C45_bad_trailing : forall ws n a d b c rest f0, Forall blank ws -> literal n = Some a -> literal d = Some b ->
  fits a -> fits b -> 32 < code c -> is_digit_char c = false ->
  exists k, forall fuel, (k <= fuel)%nat -> exists s',
  frac_extract fuel (IStream (ws ++ n ++ "/"%char :: d ++ c :: rest) false false) f0 = (Throw WrongFractionLiteral, (s', f0)).
Proof. exact reject_trailing. Qed.
Print Assumptions C45_bad_trailing.

Example C45_case : Forall (fun t => fst (frac_extract 9 (IStream (chars t) false false) (Frac 1 2)) = Throw WrongFractionLiteral /\
    snd (snd (frac_extract 9 (IStream (chars t) false false) (Frac 1 2))) = Frac 1 2)
  ["z1/2"; "1z/2"; "1|2"; "1/z2"; "1/"; "1/2z"; " 1/2/3"]%string.
Proof. repeat constructor. Qed.

(** An exhausted or failed stream, or one with only white space left, is read forever; every other stream is not. *)
Theorem C46_terminates_refuted : forall s f0,
  (diverges (fun fuel => fst (frac_extract fuel s f0)) <->
    (eofbit s = true \/ failbit s = true \/ Forall blank (buf s))) /\
  (~ (eofbit s = true \/ failbit s = true \/ Forall blank (buf s)) ->
    exists o, converges (fun fuel => fst (frac_extract fuel s f0)) o).
Proof. exact extract_divergence. Qed.
Print Assumptions C46_terminates_refuted.

Example C46_case : diverges (fun fuel => fst (frac_extract fuel (IStream [] false false) (Frac 1 2))).
Proof. apply (proj1 (extract_divergence (IStream [] false false) (Frac 1 2))). right. right. constructor. Qed.

Theorem C104_rejects_garbage_refuted : (exists s', frac_extract 9 (IStream (chars "99999999999z") false false) (Frac 7 2) = (Ok tt, (s', Frac 2147483647 1))) /\
  (exists s', frac_extract 9 (IStream (chars "+z") false false) (Frac 7 2) = (Ok tt, (s', Frac 0 1))) /\
  (exists s', frac_extract 9 (IStream (chars "1/99999999999") false false) (Frac 7 2) = (Ok tt, (s', Frac 1 2147483647))).
Proof. exact accepts_garbage. Qed.
Print Assumptions C104_rejects_garbage_refuted.

(** The last fraction is dropped. *)
Theorem C105_read_loop_refuted : frac_read_loop 99 (IStream (chars "1/2 1/3") false false) = Ok [Frac 1 2].
Proof. exact loop_loses_last. Qed.
Print Assumptions C105_read_loop_refuted.

(** With white space at the end, the loop never ends. *)
Theorem C105_read_loop_hang_refuted : diverges (fun fuel => frac_read_loop fuel (IStream (chars "1/2 ") false false)).
Proof. exact loop_hangs. Qed.
Print Assumptions C105_read_loop_hang_refuted.
