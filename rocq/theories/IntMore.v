(** Final assembly of the Int properties. *)
From Coq Require Import ZArith Znumtheory List Bool Ascii Lia.
From Verif Require Import Outcome IntModel IntSpec IntBase IntAddSub IntMulDiv IntIO IntFuncs IntPolicy
  Show ShowFacts IntProgModel IntProgSpec IntProg IntCanon StreamModel IntStream ExTools.
Import ListNotations.
Open Scope Z_scope.

Lemma canonical_histories : forall p prog s s' ev,
  (forall v, canonical (s v)) ->
  converges (fun fuel => run p fuel prog s) (Ok (s', ev)) ->
  forall v w, canonical (s' v) /\ usual_notation (int_print (s' v)) /\
    (int_eqb (s' v) (s' w) = true <-> value (s' v) = value (s' w)).
Proof.
  intros p prog s s' ev H C v w. pose proof (run_canonical p prog s s' ev H C) as K.
  split; [apply K|]. split; [eapply int_print_usual, canon_repr, K|]. apply canonical_eqb; apply K.
Qed.

Lemma string_constructor : forall cs,
  match literal cs with
  | Some z => returns (int_of_chars cs) z
  | None => int_of_chars cs = Throw WrongIntegerLiteral
  end.
Proof.
  intros cs. destruct (literal cs) eqn:E; [apply int_of_chars_ok; auto|apply int_of_chars_bad; auto].
Qed.

Lemma print_roundtrip : forall x z, repr x z ->
  int_print x = show_int z /\ usual_notation (int_print x) /\
  literal (int_print x) = Some z /\ int_of_chars (int_print x) = Ok x.
Proof.
  intros x z H. split; [apply int_print_show; auto|]. split; [eapply int_print_usual; eauto|].
  split; [apply int_print_literal; auto|]. apply int_print_roundtrip. eapply repr_canonical; eauto.
Qed.

Lemma same_count : forall x y a b, repr x a -> repr y b ->
  (length (chunks x) = length (chunks y) <-> exists d, digit_count a d /\ digit_count b d).
Proof.
  intros x y a b Hx Hy. pose proof (digit_count_spec _ _ Hx) as Dx. pose proof (digit_count_spec _ _ Hy) as Dy.
  split.
  - intros E. exists (Z.of_nat (length (chunks x))). split; auto. rewrite E. auto.
  - intros (d & A & B). pose proof (digit_count_unique _ _ _ A Dx). pose proof (digit_count_unique _ _ _ B Dy). lia.
Qed.

Lemma add_exact : forall x y a b, repr x a -> repr y b ->
  returns (int_add Benign x y) (a + b) /\ returns (int_add_assign Benign x y) (a + b) /\
  (~ (Z.sgn a * Z.sgn b = -1 /\ exists d, digit_count a d /\ digit_count b d) ->
     returns (int_add_assign Strict x y) (a + b)).
Proof.
  intros x y a b Hx Hy. split; [apply int_add_assign_spec; auto|]. split; [apply int_add_assign_spec; auto|].
  intros N. apply int_add_assign_spec; auto.
  destruct (Z.eq_dec (Z.sgn a * Z.sgn b) (-1)) as [E|E]; auto.
  right; right. intros L. apply N. split; auto. apply (same_count x y); auto.
Qed.

Lemma sub_exact : forall x y a b, repr x a -> repr y b ->
  returns (int_sub Benign x y) (a - b) /\ returns (int_sub_assign Benign x y) (a - b) /\
  returns (int_sub_assign Benign x x) 0 /\
  (~ (Z.sgn a * Z.sgn b = 1 /\ exists d, digit_count a d /\ digit_count b d) ->
     returns (int_sub_assign Strict x y) (a - b)).
Proof.
  intros x y a b Hx Hy. split; [apply int_sub_assign_spec; auto|]. split; [apply int_sub_assign_spec; auto|].
  split. { replace 0 with (a - a) by lia. apply int_sub_assign_spec; auto. }
  intros N. apply int_sub_assign_spec; auto.
  destruct (Z.eq_dec (Z.sgn a * Z.sgn b) 1) as [E|E]; auto.
  right; right. intros L. apply N. split; auto. apply (same_count x y); auto.
Qed.

Lemma sub_in_bounds_refuted : exists x y, repr x 5 /\ repr y 3 /\ int_sub_assign Strict x y = UB OutOfBounds.
Proof.
  exists (MkInt 1 [5]), (MkInt 1 [3]). split; [apply repr_check|split; [apply repr_check|]]; reflexivity.
Qed.

Lemma sub_in_bounds_exact : forall x y a b, repr x a -> repr y b ->
  ((exists u, int_sub_assign Strict x y = UB u) <->
   Z.sgn a * Z.sgn b = 1 /\ exists d, digit_count a d /\ digit_count b d) /\
  ((exists u, int_add_assign Strict x y = UB u) <->
   Z.sgn a * Z.sgn b = -1 /\ exists d, digit_count a d /\ digit_count b d).
Proof.
  intros x y a b Hx Hy. rewrite <- (same_count x y a b) by auto. split; split.
  - intros (u & E).
    destruct (Z.eq_dec (Z.sgn a * Z.sgn b) 1) as [S|S]; [destruct (Nat.eq_dec (length (chunks x)) (length (chunks y))) as [L|L]|]; auto;
    exfalso; destruct (int_sub_assign_spec Strict x y a b Hx Hy) as (r & R & _); auto; congruence.
  - intros (S & L). eexists. eapply int_sub_assign_strict_ub; eauto.
  - intros (u & E).
    destruct (Z.eq_dec (Z.sgn a * Z.sgn b) (-1)) as [S|S]; [destruct (Nat.eq_dec (length (chunks x)) (length (chunks y))) as [L|L]|]; auto;
    exfalso; destruct (int_add_assign_spec Strict x y a b Hx Hy) as (r & R & _); auto; congruence.
  - intros (S & L). eexists. eapply int_add_assign_strict_ub; eauto.
Qed.

Lemma strict_refines_benign : forall fuel prog s,
  run Strict fuel prog s = run Benign fuel prog s \/ exists u, run Strict fuel prog s = UB u.
Proof. exact run_policy. Qed.

Lemma mul_exact : forall p x y a b, repr x a -> repr y b ->
  returns (int_mul p x y) (a * b) /\ returns (int_mul_assign p x y) (a * b) /\
  returns (int_mul_assign p x x) (a * a).
Proof. intros p x y a b Hx Hy. split; [|split]; apply int_mul_assign_spec; auto. Qed.

Lemma div_trunc : forall x y a b, repr x a -> repr y b ->
  (b <> 0 -> returns (int_div Benign x y) (Z.quot a b) /\
     exists r, int_div_assign Benign x y = (Ok tt, r) /\ repr r (Z.quot a b)) /\
  (b = 0 -> forall p, int_div p x y = Throw DivideByZero /\
     int_div_assign p x y = (Throw DivideByZero, x)).
Proof.
  intros x y a b Hx Hy. split.
  - intros N. split; [apply int_div_spec; auto|apply int_div_assign_spec; auto].
  - intros -> p. split; [apply int_div_zero; auto|apply int_div_assign_zero; auto].
Qed.

Lemma division_identity_refuted : exists x y q r, repr x (-7) /\ repr y 2 /\
  int_div Benign x y = Ok q /\ int_mod Benign x y = Ok r /\ value q * 2 + value r <> -7.
Proof.
  exists (MkInt (-1) [7]), (MkInt 1 [2]), (MkInt (-1) [3]), (MkInt 1 [1]).
  split; [apply repr_check; reflexivity|]. split; [apply repr_check; reflexivity|].
  split; [reflexivity|]. split; [reflexivity|]. vm_compute. discriminate.
Qed.

Lemma abs_quot_rem : forall a b, b <> 0 -> a <= 0 -> Z.quot a b * b = - (Z.abs a - Z.abs a mod Z.abs b).
Proof.
  intros a b Hb Ha. pose proof (Z.quot_rem' a b). pose proof (Z.rem_abs a b Hb) as R.
  rewrite Z.rem_mod_nonneg in R by lia.
  pose proof (Z.rem_sign_nz a b Hb) as S.
  assert (Z.rem a b <= 0).
  { destruct (Z.eq_dec (Z.rem a b) 0); [lia|]. specialize (S n). destruct (Z.eq_dec a 0); [subst; rewrite Z.rem_0_l in n; lia|].
    assert (Z.sgn a = -1) by lia. lia. }
  lia.
Qed.

Lemma division_identity_exact : forall x y a b, repr x a -> repr y b -> b <> 0 ->
  exists q r, returns (int_div Benign x y) q /\ returns (int_mod Benign x y) r /\
    Z.abs r < Z.abs b /\
    (q * b + r <> a <->
     a < 0 /\ ~ (b | a) /\ ~ (exists k, 0 <= k /\ Z.abs a < 10 ^ k <= Z.abs b)).
Proof.
  intros x y a b Hx Hy Hb. destruct (int_mod_spec _ _ _ _ Hx Hy Hb) as (r & R & V).
  exists (Z.quot a b), r. split; [apply int_div_spec; auto|]. split; auto.
  pose proof (Z.quot_rem' a b) as QR.
  destruct (fewer_digits_dec a b Hb) as [E|E].
  - destruct V as (V & _). rewrite V by auto. destruct E as (k & K0 & K). split; [lia|].
    split; [|intros (_ & _ & N); exfalso; apply N; exists k; auto].
    intros N. exfalso. apply N. assert (Q: Z.quot a b = 0) by (apply Z.quot_small_iff; lia). rewrite Q. lia.
  - destruct V as (_ & V). rewrite V by auto. pose proof (Z.mod_pos_bound (Z.abs a) (Z.abs b) ltac:(lia)).
    split; [lia|]. destruct (Z_lt_dec a 0) as [N|N].
    + rewrite abs_quot_rem by lia. split.
      * intros K. split; auto. split; auto. intros D. apply K.
        assert (Z.abs a mod Z.abs b = 0). { apply Z.mod_divide; [lia|]. apply Z.divide_abs_l, Z.divide_abs_r; auto. }
        lia.
      * intros (_ & D & _) K. apply D. assert (Z.abs a mod Z.abs b = 0) by lia.
        apply (proj1 (Z.divide_abs_r _ _)), (proj1 (Z.divide_abs_l _ _)), Z.mod_divide; [lia|auto].
    + split; [|lia]. intros K. exfalso. apply K.
      pose proof (Z.rem_abs a b Hb) as RA. rewrite Z.rem_mod_nonneg in RA by lia.
      pose proof (Z.rem_nonneg a b Hb ltac:(lia)). rewrite (Z.abs_eq (Z.rem a b)) in RA by auto. lia.
Qed.

Lemma division_identity_nonneg : forall x y a b, repr x a -> repr y b -> 0 <= a -> b <> 0 ->
  exists q r, returns (int_div Benign x y) q /\ returns (int_mod Benign x y) r /\
    q * b + r = a /\ 0 <= r < Z.abs b.
Proof.
  intros x y a b Hx Hy Ha Hb. exists (Z.quot a b), (a mod Z.abs b).
  split; [apply int_div_spec; auto|]. split; [apply int_mod_nonneg; auto|].
  pose proof (Z.quot_rem' a b) as QR. pose proof (Z.rem_abs a b Hb) as RA. rewrite Z.rem_mod_nonneg in RA by lia.
  pose proof (Z.rem_nonneg a b Hb Ha). rewrite (Z.abs_eq (Z.rem a b)), (Z.abs_eq a) in RA by auto.
  split; [lia|]. apply Z.mod_pos_bound; lia.
Qed.

Lemma mod_value : forall x y a b, repr x a -> repr y b ->
  (b <> 0 -> exists z, returns (int_mod Benign x y) z /\ rem_value a b z /\
     (exists r, int_mod_assign Benign x y = (Ok tt, r) /\ repr r z) /\
     (0 <= a -> z = a mod Z.abs b /\ 0 <= z < Z.abs b)) /\
  (b = 0 -> forall p, int_mod p x y = Throw DivideByZero /\
     int_mod_assign p x y = (Throw DivideByZero, x)).
Proof.
  intros x y a b Hx Hy. split.
  - intros N. destruct (int_mod_assign_spec _ _ _ _ Hx Hy N) as (r & z & E & R & V).
    exists z. split. { exists r. split; auto. unfold int_mod. rewrite E. auto. }
    split; auto. split; [eauto|]. intros A. rewrite (rem_value_nonneg _ _ _ V A N). split; auto.
    apply Z.mod_pos_bound; lia.
  - intros -> p. split; [apply int_mod_zero; auto|apply int_mod_assign_zero; auto].
Qed.

Lemma compare_exact : forall x y a b, repr x a -> repr y b ->
  int_cmp x y = Ok (Z.sgn (a - b)) /\
  int_eqb x y = (a =? b) /\ int_lt x y = Ok (a <? b) /\ int_le x y = Ok (a <=? b) /\
  int_gt x y = Ok (b <? a) /\ int_ge x y = Ok (b <=? a).
Proof.
  intros x y a b Hx Hy. split; [apply int_cmp_spec; auto|]. split; [apply int_eqb_spec; auto|].
  split; [apply int_lt_spec; auto|]. split; [apply int_le_spec; auto|].
  split; [apply int_gt_spec; auto|]. apply int_ge_spec; auto.
Qed.

Lemma inc_dec : forall x a, repr x a -> returns (int_inc x) (a + 1) /\ returns (int_dec x) (a - 1).
Proof. intros x a H. split; [apply int_inc_spec|apply int_dec_spec]; auto. Qed.

Lemma factorial_exact : forall p x z, repr x z ->
  (0 <= z -> computes (fun fuel => int_factorial p fuel x) (Zfact z)) /\
  (z < 0 -> forall fuel, int_factorial p fuel x = Throw NegativeFactorial).
Proof. intros p x z H. split; intros; [apply int_factorial_spec|eapply int_factorial_neg]; eauto. Qed.

Lemma is_prime_exact : forall x z, repr x z ->
  exists b, converges (fun fuel => int_is_prime Benign fuel x) (Ok b) /\ (b = true <-> prime z).
Proof.
  intros x z H. eexists. split; [apply int_is_prime_spec; eauto|].
  destruct (prime_dec z); split; auto; discriminate.
Qed.

Lemma next_prime_exact : forall x a, repr x a ->
  exists q, computes (fun fuel => int_next_prime Benign fuel x) q /\
    prime q /\ a < q /\ (forall r, a < r < q -> ~ prime r).
Proof.
  intros x a H. destruct (next_prime_exists a) as (q & Q). exists q.
  split; [eapply int_next_prime_spec; eauto|]. exact Q.
Qed.

Lemma pred_square_k : forall z, 0 <= z -> ((exists k, 3 <= k /\ z = k * k - 1) <-> 4 <= z /\ pred_square z).
Proof.
  intros z Hz. split.
  - intros (k & K & ->). split; [nia|]. exists k. lia.
  - intros (L & k & K). exists (Z.abs k). split; [nia|]. lia.
Qed.

Lemma pred_square_dec : forall z, 0 <= z -> pred_square z \/ ~ pred_square z.
Proof.
  intros z Hz. destruct (Z.eq_dec (Z.sqrt (z + 1) * Z.sqrt (z + 1)) (z + 1)) as [E|E].
  - left. exists (Z.sqrt (z + 1)). lia.
  - right. intros (k & K). apply E. rewrite K. replace (k * k) with (Z.abs k * Z.abs k) by lia.
    rewrite Z.sqrt_square by lia. lia.
Qed.

Lemma sqrt_floor : forall x z, repr x z ->
  (z < 0 -> forall p fuel, int_sqrt p fuel x = Throw NegativeSqrt) /\
  (0 <= z -> ~ (exists k, 3 <= k /\ z = k * k - 1) ->
     exists r, computes (fun fuel => int_sqrt Benign fuel x) r /\ 0 <= r /\ r * r <= z < (r + 1) * (r + 1)) /\
  (forall o, converges (fun fuel => int_sqrt Benign fuel x) (Ok o) -> 0 <= z /\
     canonical o /\ 0 <= value o /\ value o * value o <= z < (value o + 1) * (value o + 1)).
Proof.
  intros x z H.
  assert (C: 0 <= z -> z < 4 \/ ~ pred_square z ->
     exists r, computes (fun fuel => int_sqrt Benign fuel x) r /\ 0 <= r /\ r * r <= z < (r + 1) * (r + 1)).
  { intros Z0 K. exists (Z.sqrt z). split; [apply int_sqrt_conv; auto|]. split; [apply Z.sqrt_nonneg|].
    apply sqrt_sp; auto. }
  split; [intros; eapply int_sqrt_neg; eauto|]. split.
  - intros Z0 N. apply C; auto. rewrite pred_square_k in N by auto.
    destruct (Z_lt_dec z 4); auto. right. intros P. apply N. split; auto; lia.
  - intros o K. destruct (Z_lt_dec z 0) as [Z0|Z0].
    { exfalso. destruct K as (_ & n & K). specialize (K n (le_n n)). rewrite (int_sqrt_neg _ _ _ _ H Z0) in K. discriminate. }
    split; [lia|].
    assert (D: z < 4 \/ ~ pred_square z).
    { destruct (Z_lt_dec z 4); auto. right. intros P.
      apply (converges_not_diverges _ _ _ K). eapply int_sqrt_div; eauto; lia. }
    destruct (C ltac:(lia) D) as (r & (o' & Co & Ro) & R0 & R1).
    pose proof (converges_unique _ _ _ _ K Co) as E. inversion E; subst o'.
    split; [eapply repr_canonical; eauto|]. destruct Ro as (_ & ->). auto.
Qed.

Lemma sqrt_terminates_exact : forall x z, repr x z -> 0 <= z ->
  (diverges (fun fuel => int_sqrt Benign fuel x) <-> exists k, 3 <= k /\ z = k * k - 1).
Proof.
  intros x z H Z0. rewrite pred_square_k by auto. split.
  - intros D. destruct (Z_lt_dec z 4) as [L|L].
    + exfalso. destruct (int_sqrt_conv _ _ H Z0 (or_introl L)) as (r & C & _).
      eapply converges_not_diverges; eauto.
    + split; [lia|]. destruct (pred_square_dec z Z0) as [P|P]; auto. exfalso.
      destruct (int_sqrt_conv _ _ H Z0 (or_intror P)) as (r & C & _). eapply converges_not_diverges; eauto.
  - intros (L & P). eapply int_sqrt_div; eauto.
Qed.

Lemma sqrt_terminates_refuted : exists x, repr x 8 /\ diverges (fun fuel => int_sqrt Benign fuel x).
Proof.
  exists (MkInt 1 [8]). assert (R: repr (MkInt 1 [8]) 8) by (apply repr_check; reflexivity).
  split; auto. apply (sqrt_terminates_exact _ _ R); [lia|]. exists 3. lia.
Qed.

Lemma pow_exact : forall b e B E, repr b B -> repr e E ->
  (0 <= E -> computes (fun fuel => int_pow Benign fuel b e (MkInt 0 [])) (B ^ E)) /\
  (E < 0 -> Z.abs B = 1 -> computes (fun fuel => int_pow Benign fuel b e (MkInt 0 [])) (B ^ (- E))) /\
  (E < 0 -> 2 <= Z.abs B -> computes (fun fuel => int_pow Benign fuel b e (MkInt 0 [])) 0) /\
  (E < 0 -> B = 0 -> forall p fuel m, int_pow p fuel b e m = Throw MathDomain).
Proof.
  intros b e B E Hb He. split; [apply int_pow_spec; auto|]. split; [|split].
  - intros L A. exact (eval_bin_spec BPow _ _ _ _ _ Hb He (zb_pow_neg1 _ _ L A)).
  - intros L A. exact (eval_bin_spec BPow _ _ _ _ _ Hb He (zb_pow_neg _ _ L A)).
  - intros L -> p fuel m. eapply int_pow_neg_exp_zero; eauto.
Qed.

Lemma pow_documented_refuted :
  (forall fuel, int_pow Benign fuel (MkInt 1 [1]) (MkInt 1 [1]) (MkInt 1 [1]) = Ok (MkInt 1 [1])) /\
  computes (fun fuel => int_pow Benign fuel (MkInt 1 [2]) (MkInt 0 []) (MkInt 1 [1])) 1 /\
  (1 ^ 1) mod 1 = 0 /\ (2 ^ 0) mod 1 = 0 /\
  exists r q s, int_pow Benign 10 (MkInt (-1) [5]) (MkInt 1 [3]) (MkInt 1 [2; 1]) = Ok r /\
    int_pow Benign 10 (MkInt (-1) [5]) (MkInt 1 [3]) (MkInt 0 []) = Ok q /\
    int_mod Benign q (MkInt 1 [2; 1]) = Ok s /\ value r <> value s.
Proof.
  split; [intros fuel; reflexivity|]. split.
  { eapply int_pow_zero_exp; apply repr_check; reflexivity. }
  split; [reflexivity|]. split; [reflexivity|].
  do 3 eexists. split; [vm_compute; reflexivity|]. split; [vm_compute; reflexivity|].
  split; [vm_compute; reflexivity|]. vm_compute. discriminate.
Qed.

Lemma log_exact : forall n b N B, repr n N -> repr b B ->
  (0 < N -> 2 <= B -> (exists d, digit_count N d /\ d <= INT_MAX) ->
     exists k, computes (fun fuel => int_log Benign fuel n b) k /\ 0 <= k /\ B ^ k <= N < B ^ (k + 1)) /\
  (N <= 0 \/ B < 2 -> forall p fuel, int_log p fuel n b = Throw MathDomain).
Proof.
  intros n b N B Hn Hb. split.
  - intros L A (d & D & M). apply int_log_spec; auto.
    rewrite <- (digit_count_unique _ _ _ D (digit_count_spec _ _ Hn)). auto.
  - intros K p fuel. eapply int_log_domain; eauto.
Qed.

Lemma gcd_exact : forall a b A B, repr a A -> repr b B ->
  exists g, computes (fun fuel => int_gcd Benign fuel a b) g /\ 0 <= g /\ Zis_gcd A B g /\ g = Z.gcd A B.
Proof.
  intros a b A B Ha Hb. exists (Z.gcd A B). split; [apply int_gcd_spec; auto|].
  split; [apply Z.gcd_nonneg|]. split; [apply Zgcd_is_gcd|auto].
Qed.

Lemma lcm_exact : forall a b A B, repr a A -> repr b B ->
  exists l, computes (fun fuel => int_lcm Benign fuel a b) l /\ 0 <= l /\ (A | l) /\ (B | l) /\
    (forall m, (A | m) -> (B | m) -> (l | m)) /\ (A = 0 \/ B = 0 -> l = 0).
Proof.
  intros a b A B Ha Hb. exists (Z.lcm A B). split; [apply int_lcm_spec; auto|].
  split; [apply Z.lcm_nonneg|]. split; [apply Z.divide_lcm_l|]. split; [apply Z.divide_lcm_r|].
  split; [intros; apply Z.lcm_least; auto|]. apply Z.lcm_eq_0.
Qed.

Lemma to_integer_exact : forall w x z, 32 <= w -> repr x z ->
  (Z.abs z <= 2 ^ (w - 1) - 1 -> int_to_integer (CType w true) x = Ok z) /\
  int_to_integer (CType w false) x = Ok (z mod 2 ^ w).
Proof.
  intros w x z W H. split.
  - intros A. rewrite (to_integer_signed (CType w true) x z eq_refl W H).
    replace (Z.abs z <=? ctype_max (CType w true)) with true; auto. symmetry. apply Z.leb_le.
    unfold ctype_max; simpl. auto.
  - apply (to_integer_unsigned (CType w false) x z eq_refl W H).
Qed.

Lemma to_integer_outside : forall w x z, repr x z ->
  (32 <= w -> 2 ^ (w - 1) - 1 < Z.abs z -> int_to_integer (CType w true) x = UB SignedOverflow) /\
  (1 <= w <= 16 -> forall sg, exists r, int_to_integer (CType w sg) x = Ok r /\
      (exists k, r = z + k * 2 ^ w) /\
      (if sg then - 2 ^ (w - 1) else 0) <= r <= (if sg then 2 ^ (w - 1) - 1 else 2 ^ w - 1)).
Proof.
  intros w x z H. split.
  - intros W A. rewrite (to_integer_signed (CType w true) x z eq_refl W H).
    replace (Z.abs z <=? ctype_max (CType w true)) with false; auto. symmetry. apply Z.leb_gt.
    unfold ctype_max; simpl. auto.
  - intros W sg. destruct (to_integer_narrow (CType w sg) x z W H) as (r & E & B & M).
    exists r. split; auto. split.
    + simpl in M. assert (P: 0 < 2 ^ w) by (apply Z.pow_pos_nonneg; lia).
      exists (r / 2 ^ w - z / 2 ^ w).
      pose proof (Z.div_mod r (2 ^ w) ltac:(lia)). pose proof (Z.div_mod z (2 ^ w) ltac:(lia)). lia.
    + unfold ctype_min, ctype_max in B. simpl in B. destruct sg; exact B.
Qed.

Lemma to_integer_min_refuted : forall w x, 32 <= w -> repr x (- 2 ^ (w - 1)) ->
  int_to_integer (CType w true) x = UB SignedOverflow.
Proof.
  intros w x W H. apply (to_integer_outside w x _ H); auto.
  assert (0 < 2 ^ (w - 1)) by (apply Z.pow_pos_nonneg; lia). lia.
Qed.

Lemma self_add_refuted : repr (MkInt 1 [5]) 5 /\
  int_add_assign_self Strict (MkInt 1 [5]) = UB OutOfBounds /\
  exists r, int_add_assign_self Benign (MkInt 1 [5]) = Ok r /\ repr r 20.
Proof.
  split; [apply repr_check; reflexivity|]. split; [reflexivity|].
  eexists. split; [reflexivity|]. apply repr_check; reflexivity.
Qed.

Lemma digit_at : forall l k, Forall digit l -> (val l / p10 k) mod 10 = nth k l 0.
Proof.
  induction l; intros k H.
  - replace (val []) with 0 by reflexivity. rewrite Z.div_0_l by (pose proof (p10_pos k); lia).
    destruct k; reflexivity.
  - inversion H; subst. rewrite val_cons. unfold digit in H2. destruct k; cbn [nth].
    + rewrite p10_0, Z.div_1_r. replace (a + 10 * val l) with (a + val l * 10) by lia.
      rewrite Z_mod_plus_full. apply Z.mod_small. lia.
    + rewrite p10_S, <- Z.div_div by (pose proof (p10_pos k); lia).
      replace (a + 10 * val l) with (val l * 10 + a) by lia. rewrite Z.div_add_l by lia.
      rewrite (Z.div_small a 10) by lia. rewrite Z.add_0_r. apply IHl; auto.
Qed.

Lemma low_digits : forall x z, repr x z ->
  (Forall (fun d => d <= 4) (chunks x) <-> forall k, 0 <= k -> (Z.abs z / 10 ^ k) mod 10 <= 4).
Proof.
  intros x z H. pose proof (repr_digits _ _ H) as D. split.
  - intros F k K. replace (10 ^ k) with (p10 (Z.to_nat k)).
    + rewrite <- (repr_val _ _ H), digit_at by auto.
      destruct (nth_in_or_default (Z.to_nat k) (chunks x) 0) as [I|E]; [|lia].
      rewrite Forall_forall in F. auto.
    + Transparent p10. unfold p10. rewrite Z2Nat.id by lia. auto. Opaque p10.
  - intros A. apply Forall_forall. intros d I. destruct (In_nth _ _ 0 I) as (j & J & <-).
    rewrite <- digit_at by auto. rewrite (repr_val _ _ H). 
    replace (p10 j) with (10 ^ Z.of_nat j) by reflexivity. apply A. lia.
Qed.

Lemma self_add_exact : forall x z, repr x z ->
  (z = 0 -> forall p, int_add_assign_self p x = Ok x) /\
  (z <> 0 -> int_add_assign_self Strict x = UB OutOfBounds /\
     exists r w, int_add_assign_self Benign x = Ok r /\ repr r w /\
       (w = 2 * z <-> forall k, 0 <= k -> (Z.abs z / 10 ^ k) mod 10 <= 4) /\
       (w <> 2 * z -> 2 * Z.abs z < Z.abs w)).
Proof.
  intros x z H. split.
  - intros -> p. unfold int_add_assign_self. rewrite (repr_sign _ _ H). reflexivity.
  - intros N. split; [eapply self_add_strict; eauto|].
    destruct (self_add_benign _ _ H N) as (r & w & E & R & L & S & I).
    exists r, w. split; auto. split; auto. rewrite <- low_digits by eauto. split; auto.
    intros K. assert (Z.abs w <> 2 * Z.abs z); [|lia]. intros A. apply K. lia.
Qed.

Lemma hash_agrees : forall hs hi x y,
  (int_eqb x y = true -> int_hash hs hi x = int_hash hs hi y) /\
  (canonical x -> canonical y -> value x = value y -> int_hash hs hi x = int_hash hs hi y).
Proof.
  intros hs hi x y. assert (K: int_eqb x y = true -> int_hash hs hi x = int_hash hs hi y).
  { intros E. apply int_eqb_eq in E. subst. auto. }
  split; auto. intros Cx Cy V. apply K. apply canonical_eqb; auto.
Qed.

Lemma queries_exact : forall x z, repr x z ->
  (is_zero x = true <-> z = 0) /\ (is_positive x = true <-> 0 < z) /\ (is_negative x = true <-> z < 0) /\
  is_even x = Ok (Z.even z) /\ is_odd x = Ok (Z.odd z) /\
  exists d, int_digits x = Ok d /\ digit_count z d.
Proof.
  intros x z H. split; [apply is_zero_spec; auto|]. split; [apply is_positive_spec; auto|].
  split; [apply is_negative_spec; auto|]. split; [apply is_even_spec; auto|]. split; [apply is_odd_spec; auto|].
  eexists. split; [eapply int_digits_spec; eauto|]. apply digit_count_spec; auto.
Qed.

Lemma neg_abs_exact : forall x a, repr x a ->
  repr (int_neg x) (- a) /\ repr (int_abs x) (Z.abs a) /\ repr (int_pos x) a.
Proof. intros x a H. split; [apply int_neg_spec; auto|]. split; [apply int_abs_spec; auto|auto]. Qed.

Lemma move_exact : forall p fuel v w prog s, v <> w ->
  match run p fuel (SMove v w :: prog) s, run p fuel (SCopy v w :: SInt w 0 :: prog) s with
  | Ok (s1, ev1), Ok (s2, ev2) => (forall u, s1 u = s2 u) /\ ev1 = ev2
  | o1, o2 => o1 = o2
  end.
Proof.
  intros p fuel v w prog s N.
  assert (E: run p fuel (SMove v w :: prog) s = run p fuel (SCopy v w :: SInt w 0 :: prog) s).
  { cbn [run step]. destruct (Nat.eqb_spec v w); [contradiction|]. cbn [int_move bind fst snd].
    rewrite int0. cbn [assign bind fst snd].
    destruct (run p fuel prog (set (set s v (s w)) w (MkInt 0 []))) as [[s2 ev2]| | |]; reflexivity. }
  rewrite <- E. destruct (run p fuel (SMove v w :: prog) s) as [[s1 ev1]| | |]; auto.
Qed.

Lemma random_exact : forall limit dg most d,
  0 <= limit <= 4300 -> (forall k, 0 <= dg k <= 9) -> 1 <= most <= 9 ->
  (0 <= d -> exists x, int_random limit dg most d = Ok x /\ canonical x /\ 0 <= value x /\ digit_count (value x) d) /\
  (d = -1 -> exists x n, int_random limit dg most d = Ok x /\ canonical x /\ 0 <= value x /\
      digit_count (value x) n /\ n <= 4300) /\
  (d < -1 -> int_random limit dg most d = Throw BadRandomDigits).
Proof.
  intros limit dg most d L D M. split; [|split].
  - intros P. destruct (int_random_spec limit dg most d L D M ltac:(lia)) as (x & E & C & V & N).
    exists x. split; auto. split; auto. split; auto.
    pose proof (digit_count_spec _ _ (canon_repr _ C)) as K. rewrite N in K.
    destruct (Z.eqb_spec d (-1)); [lia|]. rewrite Z2Nat.id in K by lia. auto.
  - intros ->. destruct (int_random_spec limit dg most (-1) L D M ltac:(lia)) as (x & E & C & V & N).
    exists x, limit. split; auto. split; auto. split; auto.
    pose proof (digit_count_spec _ _ (canon_repr _ C)) as K. rewrite N in K. simpl in K.
    rewrite Z2Nat.id in K by lia. split; auto. lia.
  - intros P. unfold int_random. destruct (Z.ltb_spec d (-1)); [auto|lia].
Qed.

Lemma Forall_isspace : forall ws, Forall (fun c => isspace c = true) ws -> forallb isspace ws = true.
Proof. intros ws H. apply forallb_forall. rewrite Forall_forall in H. auto. Qed.

Lemma extraction_exact : forall ws tok rest x,
  Forall (fun c => isspace c = true) ws -> tok <> [] -> Forall (fun c => isspace c = false) tok ->
  (rest = [] \/ exists c r, rest = c :: r /\ isspace c = true) ->
  exists s', buf s' = rest /\ failbit s' = false /\ (eofbit s' = true <-> rest = []) /\
    match literal (c_str tok) with
    | Some z => exists y, repr y z /\ int_extract (IStream (ws ++ tok ++ rest) false false) x = (Ok tt, (s', y))
    | None => int_extract (IStream (ws ++ tok ++ rest) false false) x = (Throw WrongIntegerLiteral, (s', x))
    end.
Proof.
  intros ws tok rest x Hw Ht Hn Hr. apply Forall_isspace in Hw.
  assert (Hn': forallb (fun c => negb (isspace c)) tok = true).
  { apply forallb_forall. rewrite Forall_forall in Hn. intros c I. rewrite Hn by auto. auto. }
  assert (Hr': stops (fun c => negb (isspace c)) rest).
  { destruct Hr as [->|(c & r & -> & E)]; simpl; auto. rewrite E. auto. }
  exists (IStream rest (match rest with [] => true | _ => false end) false).
  split; auto. split; auto. split. { destruct rest; simpl; split; auto; discriminate. }
  destruct (literal (c_str tok)) eqn:L.
  - destruct (extract_ok ws tok rest x z Hw Ht Hn' Hr' L) as (y & R & E). exists y. auto.
  - apply extract_bad; auto.
Qed.

Lemma extraction_exhausted : forall s x,
  (eofbit s = true \/ failbit s = true \/ Forall (fun c => isspace c = true) (buf s)) ->
  exists s', failbit s' = true /\ int_extract s x = (Throw WrongIntegerLiteral, (s', x)).
Proof.
  intros s x H. apply extract_empty. unfold good.
  destruct H as [->|[->|H]]; [left; reflexivity|left; apply andb_false_r|right; apply Forall_isspace; auto].
Qed.

Lemma Forall2_repr_eq : forall xs ys, Forall2 repr xs (map value ys) -> Forall canonical ys -> xs = ys.
Proof.
  induction xs; intros [|y ys] H C; inversion H; subst; auto. inversion C; subst. f_equal; [|auto].
  eapply repr_unique; eauto. apply canon_repr; auto.
Qed.

Lemma read_back : forall ws0 x0 items,
  Forall (fun c => isspace c = true) ws0 -> canonical x0 ->
  Forall (fun it => fst it <> [] /\ Forall (fun c => isspace c = true) (fst it) /\ canonical (snd it)) items ->
  exists s', int_extract_all (S (length items))
     (IStream (ws0 ++ int_print x0 ++ flat_map (fun it => fst it ++ int_print (snd it)) items) false false)
   = Ok (x0 :: map snd items, s').
Proof.
  intros ws0 x0 items Hw Hc Hi.
  assert (SP: forall items ws x, Forall (fun c => isspace c = true) ws -> canonical x ->
    Forall (fun it => fst it <> [] /\ Forall (fun c => isspace c = true) (fst it) /\ canonical (snd it)) items ->
    spaced (map value (x :: map snd items))
      (ws ++ int_print x ++ flat_map (fun it => fst it ++ int_print (snd it)) items)).
  { induction items0 as [|(w, y) its IH]; intros ws x Hws Hx Hits.
    - simpl. exists ws, []. rewrite (int_print_show _ _ (canon_repr _ Hx)).
      split; auto. split; [apply Forall_isspace; auto|]. split; [exact I|auto].
    - inversion Hits as [|? ? (W1 & W2 & W3) Hits']; subst. cbn [fst snd] in *.
      cbn [map spaced fst snd flat_map].
      exists ws, (w ++ int_print y ++ flat_map (fun it => fst it ++ int_print (snd it)) its).
      rewrite (int_print_show _ _ (canon_repr _ Hx)). split; [rewrite <- app_assoc; auto|].
      split; [apply Forall_isspace; auto|]. split.
      + destruct w as [|c w]; [congruence|]. simpl. inversion W2; subst. rewrite H1. auto.
      + apply (IH w y); auto. }
  destruct (extract_all _ _ (SP items ws0 x0 Hw Hc Hi)) as (xs & s' & E & F).
  exists s'. rewrite map_length in E. cbn [length] in E. rewrite map_length in E. rewrite E. do 2 f_equal.
  apply Forall2_repr_eq; auto. constructor; auto.
  apply Forall_forall. intros y I. apply in_map_iff in I as (it & <- & I).
  rewrite Forall_forall in Hi. apply Hi; auto.
Qed.

Lemma programs_standard : forall prog e e' ev s,
  zrun prog e e' ev -> represents s e ->
  exists s' n, represents s' e' /\ forall fuel, (n <= fuel)%nat ->
    run Strict fuel prog s = Ok (s', ev) \/ exists u, run Strict fuel prog s = UB u.
Proof.
  intros prog e e' ev s Z H. destruct (run_refines _ _ _ _ _ Z H) as (s' & (_ & n & C) & R).
  exists s', n. split; auto. intros fuel Hf. rewrite <- (C fuel Hf). apply run_policy.
Qed.
