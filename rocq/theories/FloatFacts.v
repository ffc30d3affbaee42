(** Facts about binary64 quotients of ints. *)
From Coq Require Import ZArith Bool Lia Reals Lra.
From Flocq Require Import Core BinarySingleNaN Relative.
From Verif Require Import Outcome FloatModel.
Open Scope Z_scope.

Notation dfexp := (SpecFloat.fexp 53 1024).
Notation drnd := (round radix2 dfexp ZnearestE).

Lemma dfexp_FLT : forall e, dfexp e = FLT_exp (-1074) 53 e.
Proof. reflexivity. Qed.

#[local] Instance dvalid : Valid_exp dfexp.
Proof. apply (fexp_correct 53 1024 dprec_pos). Qed.

Lemma int_format : forall z, Z.abs z <= 2 ^ 53 -> generic_format radix2 dfexp (IZR z).
Proof.
  intros z H. destruct (Z.eq_dec (Z.abs z) (2 ^ 53)) as [E|E].
  - assert (G: generic_format radix2 dfexp (bpow radix2 53)).
    { apply generic_format_bpow. rewrite dfexp_FLT. unfold FLT_exp. lia. }
    replace (bpow radix2 53) with (IZR (2 ^ 53)) in G by (rewrite <- IZR_Zpower by lia; reflexivity).
    destruct (Z_le_dec 0 z).
    + replace z with (2 ^ 53) by lia. auto.
    + replace z with (- 2 ^ 53) by lia. rewrite opp_IZR. apply generic_format_opp. auto.
  - apply (generic_format_FLT radix2 (-1074) 53).
    exists (Float radix2 z 0); simpl.
    + unfold F2R. simpl. lra.
    + change (2 ^ 53) with 9007199254740992 in *. simpl. lia.
    + lia.
Qed.

Lemma drnd_int : forall z, Z.abs z <= 2 ^ 53 -> drnd (IZR z) = IZR z.
Proof. intros. apply round_generic; [apply valid_rnd_N|apply int_format; auto]. Qed.

Lemma of_int_exact : forall z, Z.abs z <= 2 ^ 53 ->
  B2R (double_of_Z z) = IZR z /\ is_finite (double_of_Z z) = true.
Proof.
  intros z H. pose proof (binary_normalize_correct 53 1024 dprec_pos dprec_emax mode_NE z 0 false) as C.
  cbv zeta in C. replace (F2R {| Fnum := z; Fexp := 0 |}) with (IZR z) in C by (unfold F2R; simpl; lra).
  cbn [round_mode] in C. rewrite drnd_int in C by auto.
  rewrite Rlt_bool_true in C. { destruct C as (A & B & _). split; auto. }
  rewrite <- abs_IZR. apply Rle_lt_trans with (IZR (2 ^ 53)); [apply IZR_le; auto|].
  replace (IZR (2 ^ 53)) with (bpow radix2 53) by (rewrite <- IZR_Zpower by lia; reflexivity).
  apply bpow_lt. lia.
Qed.

Lemma drnd_le : forall x y, (x <= y)%R -> (drnd x <= drnd y)%R.
Proof. intros. apply round_le; auto; [apply dvalid|apply valid_rnd_N]. Qed.

Lemma quot_bound : forall a b, b <> 0 -> (Rabs (IZR a / IZR b) <= IZR (Z.abs a))%R.
Proof.
  intros a b Hb. unfold Rdiv. rewrite Rabs_mult, Rabs_inv, <- !abs_IZR.
  assert (1 <= IZR (Z.abs b))%R by (apply IZR_le; lia).
  assert (0 <= IZR (Z.abs a))%R by (apply IZR_le; lia).
  assert (/ IZR (Z.abs b) <= 1)%R by (rewrite <- Rinv_1; apply Rinv_le; lra).
  assert (0 < / IZR (Z.abs b))%R by (apply Rinv_0_lt_compat; lra). nra.
Qed.

Lemma div_int : forall a b, Z.abs a <= 2 ^ 53 -> Z.abs b <= 2 ^ 53 -> b <> 0 ->
  B2R (ddiv (double_of_Z a) (double_of_Z b)) = drnd (IZR a / IZR b) /\
  is_finite (ddiv (double_of_Z a) (double_of_Z b)) = true.
Proof.
  intros a b Ha Hb N. destruct (of_int_exact a Ha) as (Ra & Fa). destruct (of_int_exact b Hb) as (Rb & Fb).
  pose proof (Bdiv_correct 53 1024 dprec_pos dprec_emax mode_NE (double_of_Z a) (double_of_Z b)) as C.
  rewrite Ra, Rb in C. specialize (C (IZR_neq _ _ N)). cbn [round_mode] in C.
  rewrite Rlt_bool_true in C. { destruct C as (A & B & _). rewrite Fa in B. split; auto. }
  apply Rle_lt_trans with (bpow radix2 53); [|apply bpow_lt; lia].
  apply abs_round_le_generic.
  - apply dvalid.
  - apply valid_rnd_N.
  - apply generic_format_bpow. rewrite dfexp_FLT. unfold FLT_exp. lia.
  - eapply Rle_trans; [apply quot_bound; auto|].
    replace (bpow radix2 53) with (IZR (2 ^ 53)) by (rewrite <- IZR_Zpower by lia; reflexivity).
    apply IZR_le; auto.
Qed.

Lemma p53 : bpow radix2 53 = IZR (2 ^ 53).
Proof. rewrite <- IZR_Zpower by lia. reflexivity. Qed.

Lemma pm53 : bpow radix2 (-53) = (/ IZR (2 ^ 53))%R.
Proof. rewrite <- p53. apply (bpow_opp radix2 53). Qed.

(** The smallest nonzero quotient is far above the underflow threshold. *)
Lemma quot_lower : forall a b, a <> 0 -> b <> 0 -> Z.abs b <= 2 ^ 53 -> (bpow radix2 (-53) <= Rabs (IZR a / IZR b))%R.
Proof.
  intros a b Ha Hb B. unfold Rdiv. rewrite Rabs_mult, Rabs_inv, <- !abs_IZR.
  assert (1 <= IZR (Z.abs b))%R by (apply IZR_le; lia).
  assert (1 <= IZR (Z.abs a))%R by (apply IZR_le; lia).
  assert (IZR (Z.abs b) <= IZR (2 ^ 53))%R by (apply IZR_le; lia).
  assert (bpow radix2 (-53) <= / IZR (Z.abs b))%R.
  { rewrite pm53. apply Rinv_le; lra. }
  assert (0 < / IZR (Z.abs b))%R by (apply Rinv_0_lt_compat; lra). nra.
Qed.

Lemma drnd_err : forall a b, b <> 0 -> Z.abs b <= 2 ^ 53 ->
  (Rabs (drnd (IZR a / IZR b) - IZR a / IZR b) <= bpow radix2 (-53) * Rabs (IZR a / IZR b))%R.
Proof.
  intros a b Hb B. destruct (Z.eq_dec a 0) as [->|Ha].
  - unfold Rdiv. rewrite Rmult_0_l, round_0 by apply valid_rnd_N.
    replace (0 - 0)%R with 0%R by lra. rewrite Rabs_R0. lra.
  - replace (bpow radix2 (-53)) with (/ 2 * bpow radix2 (-53 + 1))%R.
    + apply (relative_error_N_FLT radix2 (-1074) 53); [reflexivity|].
      eapply Rle_trans; [|apply quot_lower; auto]. apply bpow_le. lia.
    + rewrite bpow_plus. change (bpow radix2 1) with 2%R. lra.
Qed.

(** A quotient of ints is zero exactly when its numerator is. *)
Lemma quot_eqb_zero : forall a b, Z.abs a <= 2 ^ 53 -> Z.abs b <= 2 ^ 53 -> b <> 0 ->
  deqb (ddiv (double_of_Z a) (double_of_Z b)) (double_of_Z 0) = (a =? 0).
Proof.
  intros a b Ha Hb N. destruct (div_int a b Ha Hb N) as (R & F). destruct (of_int_exact 0) as (R0 & F0); [simpl; lia|].
  unfold deqb. rewrite Beqb_correct, R, R0 by auto.
  destruct (Z.eqb_spec a 0) as [->|K].
  - unfold Rdiv. rewrite Rmult_0_l, round_0 by apply valid_rnd_N. apply Req_bool_true. auto.
  - apply Req_bool_false. intros E. pose proof (drnd_err a b N Hb) as D. rewrite E in D.
    pose proof (quot_lower a b K N Hb) as L. rewrite Rminus_0_l, Rabs_Ropp in D.
    assert (0 < bpow radix2 (-53))%R by apply bpow_gt_0.
    assert (bpow radix2 (-53) < 1)%R by (change 1%R with (bpow radix2 0); apply bpow_lt; lia). nra.
Qed.

(** Two quotients with moderate cross products compare equal exactly when they are equal. *)
Lemma quot_eqb_moderate : forall a b c d,
  Z.abs a <= 2 ^ 53 -> Z.abs b <= 2 ^ 53 -> b <> 0 -> Z.abs c <= 2 ^ 53 -> Z.abs d <= 2 ^ 53 -> d <> 0 ->
  Z.abs (a * d) + Z.abs (c * b) < 2 ^ 53 ->
  deqb (ddiv (double_of_Z a) (double_of_Z b)) (ddiv (double_of_Z c) (double_of_Z d)) = (a * d =? c * b).
Proof.
  intros a b c d Ha Hb Nb Hc Hd Nd M.
  destruct (div_int a b Ha Hb Nb) as (R1 & F1). destruct (div_int c d Hc Hd Nd) as (R2 & F2).
  unfold deqb. rewrite Beqb_correct, R1, R2 by auto.
  assert (B0: (IZR b <> 0)%R) by (apply IZR_neq; auto). assert (D0: (IZR d <> 0)%R) by (apply IZR_neq; auto).
  destruct (Z.eqb_spec (a * d) (c * b)) as [E|E].
  - apply Req_bool_true. f_equal. apply (Rmult_eq_reg_r (IZR b * IZR d)); [|apply Rmult_integral_contrapositive; auto].
    replace (IZR a / IZR b * (IZR b * IZR d))%R with (IZR (a * d)) by (rewrite mult_IZR; field; auto).
    replace (IZR c / IZR d * (IZR b * IZR d))%R with (IZR (c * b)) by (rewrite mult_IZR; field; auto).
    rewrite E. auto.
  - apply Req_bool_false. intros K.
    pose proof (drnd_err a b Nb Hb) as E1. pose proof (drnd_err c d Nd Hd) as E2. rewrite K in E1.
    set (x := (IZR a / IZR b)%R) in *. set (y := (IZR c / IZR d)%R) in *. set (r := drnd y) in *.
    assert (D: (Rabs (x - y) <= bpow radix2 (-53) * (Rabs x + Rabs y))%R).
    { replace (x - y)%R with ((r - y) - (r - x))%R by lra.
      eapply Rle_trans; [apply Rabs_triang|]. rewrite Rabs_Ropp. lra. }
    set (w := Rabs (IZR b * IZR d)) in *.
    assert (W: (0 < w)%R) by (apply Rabs_pos_lt, Rmult_integral_contrapositive; auto).
    assert (X: (Rabs x * w = IZR (Z.abs (a * d)))%R).
    { unfold w, x. rewrite <- Rabs_mult, abs_IZR, mult_IZR. f_equal. field; auto. }
    assert (Y: (Rabs y * w = IZR (Z.abs (c * b)))%R).
    { unfold w, y. rewrite <- Rabs_mult, abs_IZR, mult_IZR. f_equal. field; auto. }
    assert (XY: (Rabs (x - y) * w = IZR (Z.abs (a * d - c * b)))%R).
    { unfold w, x, y. rewrite <- Rabs_mult, abs_IZR, minus_IZR, !mult_IZR. f_equal. field; auto. }
    assert (L: (1 <= IZR (Z.abs (a * d - c * b)))%R) by (apply IZR_le; lia).
    assert (U: (IZR (Z.abs (a * d)) + IZR (Z.abs (c * b)) < IZR (2 ^ 53))%R) by (rewrite <- plus_IZR; apply IZR_lt; auto).
    assert (P: (bpow radix2 (-53) * IZR (2 ^ 53) = 1)%R).
    { replace (IZR (2 ^ 53)) with (bpow radix2 53) by (rewrite <- IZR_Zpower by lia; reflexivity).
      rewrite <- bpow_plus. reflexivity. }
    assert (Q: (0 < bpow radix2 (-53))%R) by apply bpow_gt_0.
    apply (Rmult_le_compat_r w) in D; [|lra].
    rewrite XY in D. replace (bpow radix2 (-53) * (Rabs x + Rabs y) * w)%R with
      (bpow radix2 (-53) * (Rabs x * w + Rabs y * w))%R in D by ring. rewrite X, Y in D. nra.
Qed.

(** [std::floor(double(a) / b)] converted to int is the floor quotient. *)
Lemma floor_quot : forall a b, INT_MIN <= a <= INT_MAX -> INT_MIN <= b <= INT_MAX -> b <> 0 ->
  INT_MIN <= a / b <= INT_MAX ->
  floor_to_int (ddiv (double_of_Z a) (double_of_Z b)) = Ok (a / b).
Proof.
  intros a b Ha Hb N Hq. unfold INT_MIN, INT_MAX in *.
  destruct (div_int a b) as (R & F); [simpl; lia|simpl; lia|auto|].
  unfold floor_to_int. rewrite F.
  destruct (Bnearbyint_correct 53 1024 dprec_emax mode_DN (ddiv (double_of_Z a) (double_of_Z b))) as (RN & _).
  cbn [round_mode] in RN. rewrite round_FIX_IZR, R in RN.
  assert (FL: Zfloor (drnd (IZR a / IZR b)) = a / b).
  { apply Zfloor_imp. assert (B0: (IZR b <> 0)%R) by (apply IZR_neq; auto).
    set (n := a / b) in *. pose proof (Z.div_mod a b N) as DM. fold n in DM.
    assert (X: (IZR a / IZR b = IZR n + IZR (a mod b) / IZR b)%R).
    { rewrite DM at 1. rewrite plus_IZR, mult_IZR. field. auto. }
    assert (FR: (0 <= IZR (a mod b) / IZR b)%R /\ (IZR (a mod b) / IZR b <= 1 - / Rabs (IZR b))%R).
    { destruct (Z_lt_dec 0 b) as [P|P].
      - pose proof (Z.mod_pos_bound a b P) as (M1 & M2). assert (0 < IZR b)%R by (apply IZR_lt; auto).
        assert (0 <= IZR (a mod b))%R by (apply IZR_le; auto).
        assert (IZR (a mod b) <= IZR b - 1)%R by (rewrite <- minus_IZR; apply IZR_le; lia).
        rewrite Rabs_pos_eq by lra. assert (0 < / IZR b)%R by (apply Rinv_0_lt_compat; auto).
        split; [unfold Rdiv; nra|]. apply (Rmult_le_reg_r (IZR b)); auto.
        replace (IZR (a mod b) / IZR b * IZR b)%R with (IZR (a mod b)) by (field; auto).
        replace ((1 - / IZR b) * IZR b)%R with (IZR b - 1)%R by (field; auto). auto.
      - pose proof (Z.mod_neg_bound a b ltac:(lia)) as (M1 & M2). assert (IZR b < 0)%R by (apply IZR_lt; lia).
        assert (IZR (a mod b) <= 0)%R by (apply IZR_le; auto).
        assert (IZR b + 1 <= IZR (a mod b))%R by (rewrite <- plus_IZR; apply IZR_le; lia).
        rewrite Rabs_left by lra. assert (/ IZR b < 0)%R by (apply Rinv_lt_0_compat; auto).
        split; [unfold Rdiv; nra|]. apply (Rmult_le_reg_r (- IZR b)); [lra|].
        replace (IZR (a mod b) / IZR b * - IZR b)%R with (- IZR (a mod b))%R by (field; auto).
        replace ((1 - / - IZR b) * - IZR b)%R with (- IZR b - 1)%R by (field; lra). lra. }
    destruct FR as (FR0 & FR1). split.
    - rewrite <- (drnd_int n); [|simpl; lia]. apply drnd_le. lra.
    - rewrite plus_IZR. pose proof (drnd_err a b N ltac:(simpl; lia)) as E.
      set (r := drnd (IZR a / IZR b)) in *. set (x := (IZR a / IZR b)%R) in *.
      assert (XB: (Rabs x <= IZR 2147483648 * / Rabs (IZR b))%R).
      { unfold x, Rdiv. rewrite Rabs_mult, Rabs_inv. apply Rmult_le_compat_r.
        - left. apply Rinv_0_lt_compat, Rabs_pos_lt; auto.
        - rewrite <- abs_IZR. apply IZR_le. lia. }
      assert (IB: (0 < / Rabs (IZR b))%R) by (apply Rinv_0_lt_compat, Rabs_pos_lt; auto).
      assert (P: (bpow radix2 (-53) * IZR 2147483648 < 1)%R).
      { replace (IZR 2147483648) with (bpow radix2 31) by (change 2147483648 with (2 ^ 31); rewrite <- IZR_Zpower by lia; reflexivity).
        rewrite <- bpow_plus. change 1%R with (bpow radix2 0). apply bpow_lt. lia. }
      assert (Q: (0 < bpow radix2 (-53))%R) by apply bpow_gt_0.
      pose proof (Rle_abs (r - x)) as RA.
      assert (bpow radix2 (-53) * Rabs x < / Rabs (IZR b))%R.
      { eapply Rle_lt_trans; [apply Rmult_le_compat_l; [lra|apply XB]|]. rewrite <- Rmult_assoc. nra. }
      lra. }
  rewrite FL in RN.
  assert (T: Btrunc (@Bnearbyint 53 1024 dprec_emax mode_DN (ddiv (double_of_Z a) (double_of_Z b))) = a / b).
  { apply eq_IZR. rewrite Btrunc_correct by apply dprec_emax. rewrite round_FIX_IZR, RN, Ztrunc_IZR. auto. }
  rewrite T. unfold in_int, INT_MIN, INT_MAX.
  destruct (Z.leb_spec (-2147483648) (a / b)); [|lia]. destruct (Z.leb_spec (a / b) 2147483647); [|lia]. reflexivity.
Qed.
