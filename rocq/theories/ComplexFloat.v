(** Facts about double arithmetic used for Complex. *)
From Coq Require Import ZArith Bool Lia Reals Lra List.
From Flocq Require Import Core BinarySingleNaN.
From Verif Require Import Outcome FloatModel FloatFacts FloatMore ComplexModel ComplexSpec.
Import ListNotations.
Open Scope Z_scope.

#[local] Opaque double_of_Z.

#[local] Instance dvalid' : Valid_exp dfexp.
Proof. apply (fexp_correct 53 1024 dprec_pos). Qed.

(** ** Commutativity, for all doubles *)

Lemma dmul_comm : forall x y, dmul x y = dmul y x.
Proof.
  intros x y. destruct (is_finite x) eqn:Fx; [destruct (is_finite y) eqn:Fy|].
  - pose proof (Bmult_correct 53 1024 dprec_pos dprec_emax mode_NE x y) as A.
    pose proof (Bmult_correct 53 1024 dprec_pos dprec_emax mode_NE y x) as B.
    rewrite (Rmult_comm (B2R y)) in B. rewrite Fx, Fy in A. rewrite Fx, Fy in B.
    destruct (Rlt_bool _ _) in A, B.
    + destruct A as (A1 & A2 & A3), B as (B1 & B2 & B3). apply same; auto; [unfold dmul; rewrite A1, B1; auto|].
      unfold dmul. rewrite A3, B3 by (apply finite_not_nan; auto). apply xorb_comm.
    + apply B2SF_inj. unfold dmul. rewrite A, B, xorb_comm. auto.
  - destruct x, y; try discriminate; cbn; auto; rewrite xorb_comm; auto.
  - destruct x, y; try discriminate; cbn; auto; rewrite xorb_comm; auto.
Qed.

Lemma dadd_comm : forall x y, dadd x y = dadd y x.
Proof.
  intros x y. destruct (is_finite x) eqn:Fx; [destruct (is_finite y) eqn:Fy|].
  - pose proof (Bplus_correct 53 1024 dprec_pos dprec_emax mode_NE x y Fx Fy) as A.
    pose proof (Bplus_correct 53 1024 dprec_pos dprec_emax mode_NE y x Fy Fx) as B.
    rewrite (Rplus_comm (B2R y)) in B.
    destruct (Rlt_bool _ _) in A, B.
    + destruct A as (A1 & A2 & A3), B as (B1 & B2 & B3). apply same; auto; [unfold dadd; rewrite A1, B1; auto|].
      unfold dadd. rewrite A3, B3. rewrite (andb_comm (Bsign y)). auto.
    + destruct A as (A & SG), B as (B & _). apply B2SF_inj. unfold dadd. rewrite A, B, SG. auto.
  - destruct x as [|[]| |], y as [|[]| |]; try discriminate; cbn; auto.
  - destruct x as [|[]| |], y as [|[]| |]; try discriminate; cbn; auto.
Qed.

Lemma opp_opp : forall x, dopp (dopp x) = x.
Proof. intros x. apply Bopp_involutive. Qed.

(** |x - y| = |y - x| *)
Lemma dsub_sym : forall x y, dabs (dsub x y) = dabs (dsub y x).
Proof.
  intros x y. destruct (is_finite x) eqn:Fx; [destruct (is_finite y) eqn:Fy|].
  - pose proof (Bminus_correct 53 1024 dprec_pos dprec_emax mode_NE x y Fx Fy) as A.
    pose proof (Bminus_correct 53 1024 dprec_pos dprec_emax mode_NE y x Fy Fx) as B.
    cbn [round_mode] in A, B.
    replace (B2R y - B2R x)%R with (- (B2R x - B2R y))%R in B by ring.
    rewrite round_NE_opp, Rabs_Ropp in B.
    destruct (Rlt_bool _ _) in A, B.
    + destruct A as (A1 & A2 & A3), B as (B1 & B2 & B3). apply same.
      * unfold dabs, dsub. rewrite is_finite_Babs. auto.
      * unfold dabs, dsub. rewrite is_finite_Babs. auto.
      * unfold dabs, dsub. rewrite !B2R_Babs, A1, B1, Rabs_Ropp. auto.
      * unfold dabs, dsub. destruct (Bminus _ _ _), (Bminus _ _ _); try discriminate; auto.
    + destruct A as (A & SA), B as (B & SB). unfold dabs, dsub.
      destruct (Bminus mode_NE x y) as [|s| |]; try discriminate; destruct (Bminus mode_NE y x) as [|s'| |]; try discriminate; auto.
  - destruct x as [|[]| |], y as [|[]| |]; try discriminate; cbn; auto.
  - destruct x as [|[]| |], y as [|[]| |]; try discriminate; cbn; auto.
Qed.

(** ** The tolerance *)

Lemma eps_has : has epsilon (bpow radix2 (-52)).
Proof.
  pose proof (binary_normalize_correct 53 1024 dprec_pos dprec_emax mode_NE 1 (-52) false) as C. cbv zeta in C.
  assert (E : F2R {| Fnum := 1; Fexp := -52 |} = bpow radix2 (-52)) by (unfold F2R; cbn [Fnum Fexp]; apply Rmult_1_l).
  assert (G : generic_format radix2 dfexp (bpow radix2 (-52))).
  { apply generic_format_bpow. unfold dfexp, SpecFloat.fexp, SpecFloat.emin. lia. }
  rewrite E in C. cbn [round_mode] in C. rewrite (round_generic radix2 dfexp ZnearestE _ G) in C.
  rewrite Rlt_bool_true in C.
  - destruct C as (A & B & _). split; auto.
  - rewrite Rabs_pos_eq by apply bpow_ge_0. apply bpow_lt. lia.
Qed.

Definition near (x y : double) : bool := dltb (dabs (dsub x y)) epsilon.

Lemma ltb_abs : forall x, is_finite x = true -> dltb (dabs x) epsilon = Rlt_bool (Rabs (B2R x)) (bpow radix2 (-52)).
Proof.
  intros x F. destruct eps_has as (E1 & E2). unfold dltb, dabs. rewrite Bltb_correct.
  - rewrite B2R_Babs, E2. auto.
  - rewrite is_finite_Babs. auto.
  - auto.
Qed.

Lemma near_finite : forall x y, is_finite x = true -> is_finite y = true ->
  near x y = true <-> (Rabs (rnd (B2R x - B2R y)) < bpow radix2 (-52))%R.
Proof.
  intros x y Fx Fy. unfold near. destruct (Rlt_dec (Rabs (drnd (B2R x - B2R y))) (bpow radix2 1024)) as [L|L].
  - destruct (sub_ok x y Fx Fy L) as (V & F). rewrite ltb_abs by auto. rewrite V.
    split; [intros H|intros H; apply Rlt_bool_true; exact H].
    revert H. case Rlt_bool_spec; [intros H _; exact H|discriminate].
  - pose proof (Bminus_correct 53 1024 dprec_pos dprec_emax mode_NE x y Fx Fy) as C. cbn [round_mode] in C.
    rewrite Rlt_bool_false in C by (apply Rnot_lt_le; exact L). destruct C as (C & _).
    unfold dsub. destruct (Bminus mode_NE x y) as [|s| |]; try discriminate C.
    split; [intros H; exfalso; revert H|].
    + unfold dltb, dabs. cbn [Babs]. destruct eps_has as (E1 & _). destruct epsilon; try discriminate; cbn; try destruct s0; discriminate.
    + intros H. exfalso. apply L. eapply Rlt_trans; [exact H|]. apply bpow_lt. lia.
Qed.

Lemma near_nan : forall x y, is_finite x = false -> near x y = false.
Proof.
  intros x y Fx. unfold near, dltb, dabs. destruct eps_has as (E1 & _). destruct epsilon; try discriminate;
  destruct x as [|[]| |]; try discriminate; destruct y as [|[]| |]; auto.
Qed.

Lemma near_sym : forall x y, near x y = near y x.
Proof. intros. unfold near. rewrite dsub_sym. auto. Qed.

Lemma near_refl : forall x, near x x = is_finite x.
Proof.
  intros x. destruct (is_finite x) eqn:F; [|apply near_nan; auto]. apply near_finite; auto.
  rewrite Rminus_eq_0. unfold rnd. rewrite round_0 by apply valid_rnd_N. rewrite Rabs_R0. apply bpow_gt_0.
Qed.

(** Values that are zero or at least one are multiples of 2^-52. *)
Lemma coarse_multiple : forall x, coarse x -> exists k, B2R x = (IZR k * bpow radix2 (-52))%R.
Proof.
  intros x (F & [Z|L]).
  - exists 0. rewrite Z. ring.
  - pose proof (generic_format_B2R 53 1024 x) as G.
    unfold generic_format in G. set (e := cexp radix2 (SpecFloat.fexp 53 1024) (B2R x)) in *.
    set (m := Ztrunc (scaled_mantissa radix2 (SpecFloat.fexp 53 1024) (B2R x))) in *.
    assert (E : -52 <= e).
    { unfold e, cexp. assert (1 <= mag radix2 (B2R x)).
      { apply mag_ge_bpow. simpl bpow. exact L. }
      unfold SpecFloat.fexp, SpecFloat.emin. lia. }
    exists (m * 2 ^ (e + 52)). rewrite G. unfold F2R. cbn [Fnum Fexp]. rewrite mult_IZR.
    change 2 with (radix_val radix2) at 1. rewrite IZR_Zpower by lia. rewrite Rmult_assoc, <- bpow_plus. do 2 f_equal. lia.
Qed.

Lemma near_coarse : forall x y, coarse x -> coarse y -> near x y = true <-> B2R x = B2R y.
Proof.
  intros x y Cx Cy. rewrite near_finite by (apply Cx || apply Cy). split.
  - intros H. destruct (coarse_multiple x Cx) as (a & A), (coarse_multiple y Cy) as (b & B).
    destruct (Z.eq_dec a b) as [->|N]; [congruence|]. exfalso.
    assert (L : (bpow radix2 (-52) <= Rabs (B2R x - B2R y))%R).
    { rewrite A, B. replace (IZR a * bpow radix2 (-52) - IZR b * bpow radix2 (-52))%R with (IZR (a - b) * bpow radix2 (-52))%R by (rewrite minus_IZR; ring).
      rewrite Rabs_mult, (Rabs_pos_eq (bpow _ _)) by apply bpow_ge_0. rewrite <- abs_IZR.
      rewrite <- (Rmult_1_l (bpow radix2 (-52))) at 1. apply Rmult_le_compat_r; [apply bpow_ge_0|]. apply IZR_le. lia. }
    apply (Rlt_not_le _ _ H). unfold rnd.
    assert (G : generic_format radix2 dfexp (bpow radix2 (-52))).
    { apply generic_format_bpow. unfold dfexp, SpecFloat.fexp, SpecFloat.emin. lia. }
    apply abs_round_ge_generic; [apply dvalid'|apply valid_rnd_N|exact G|exact L].
  - intros ->. rewrite Rminus_eq_0. unfold rnd. rewrite round_0 by apply valid_rnd_N. rewrite Rabs_R0. apply bpow_gt_0.
Qed.

(** Against zero. *)
Lemma zero_has : has d0 0.
Proof. destruct (of_int_exact 0) as (A & B); [simpl; lia|]. split; auto. Qed.
Lemma one_has : has d1 1.
Proof. destruct one_R as (A & B & _). split; auto. Qed.

Lemma near_zero : forall x, is_finite x = true -> near x d0 = true <-> (Rabs (B2R x) < bpow radix2 (-52))%R.
Proof.
  intros x F. destruct zero_has as (Z1 & Z2). rewrite near_finite by auto. rewrite Z2, Rminus_0_r.
  change (rnd (B2R x)) with (drnd (B2R x)). rewrite drnd_B2R. tauto.
Qed.

(** ** Exact arithmetic on integers *)

Lemma add_int : forall x y m n, int_val x m -> int_val y n -> small (m + n) -> int_val (dadd x y) (m + n).
Proof.
  intros x y m n (Fx & Vx) (Fy & Vy) S. destruct (add_ok x y Fx Fy) as (V & F & _).
  - rewrite Vx, Vy, <- plus_IZR. apply range_int. exact S.
  - split; auto. rewrite V, Vx, Vy, <- plus_IZR. apply drnd_int. exact S.
Qed.
Lemma sub_int : forall x y m n, int_val x m -> int_val y n -> small (m - n) -> int_val (dsub x y) (m - n).
Proof.
  intros x y m n (Fx & Vx) (Fy & Vy) S. destruct (sub_ok x y Fx Fy) as (V & F).
  - rewrite Vx, Vy, <- minus_IZR. apply range_int. exact S.
  - split; auto. rewrite V, Vx, Vy, <- minus_IZR. apply drnd_int. exact S.
Qed.
Lemma mul_int : forall x y m n, int_val x m -> int_val y n -> small (m * n) -> int_val (dmul x y) (m * n).
Proof.
  intros x y m n (Fx & Vx) (Fy & Vy) S. destruct (mul_ok x y Fx Fy) as (V & F & _).
  - rewrite Vx, Vy, <- mult_IZR. apply range_int. exact S.
  - split; auto. rewrite V, Vx, Vy, <- mult_IZR. apply drnd_int. exact S.
Qed.
Lemma quot_int : forall x y m n, int_val x (m * n) -> int_val y n -> n <> 0 -> small m -> int_val (ddiv x y) m.
Proof.
  intros x y m n (Fx & Vx) (Fy & Vy) N S.
  assert (NZ : IZR n <> 0%R) by (apply not_0_IZR; auto).
  assert (Q : (B2R x / B2R y = IZR m)%R) by (rewrite Vx, Vy, mult_IZR; field; auto).
  destruct (div_ok x y Fx) as (V & F & _).
  - rewrite Vy. auto.
  - rewrite Q. apply range_int. exact S.
  - split; auto. rewrite V, Q. apply drnd_int. exact S.
Qed.
Lemma opp_has : forall x r, has x r -> has (dopp x) (- r).
Proof. intros x r (F & V). unfold has, dopp. rewrite is_finite_Bopp, B2R_Bopp, V. auto. Qed.

Lemma int_coarse : forall x n, int_val x n -> coarse x.
Proof.
  intros x n (F & V). split; auto. rewrite V. destruct (Z.eq_dec n 0) as [->|N]; [left; auto|right].
  rewrite <- abs_IZR. apply IZR_le. lia.
Qed.

(** ** Rounded operations by value *)

Lemma add_has : forall x y a b, has x a -> has y b -> fits (a + b) -> has (dadd x y) (rnd (a + b)).
Proof. intros x y a b (Fx & <-) (Fy & <-) H. destruct (add_ok x y Fx Fy H) as (V & F & _). split; auto. Qed.
Lemma sub_has : forall x y a b, has x a -> has y b -> fits (a - b) -> has (dsub x y) (rnd (a - b)).
Proof. intros x y a b (Fx & <-) (Fy & <-) H. destruct (sub_ok x y Fx Fy H) as (V & F). split; auto. Qed.
Lemma mul_has : forall x y a b, has x a -> has y b -> fits (a * b) -> has (dmul x y) (rnd (a * b)).
Proof. intros x y a b (Fx & <-) (Fy & <-) H. destruct (mul_ok x y Fx Fy H) as (V & F & _). split; auto. Qed.
Lemma div_has : forall x y a b, has x a -> has y b -> b <> 0%R -> fits (a / b) -> has (ddiv x y) (rnd (a / b)).
Proof. intros x y a b (Fx & <-) (Fy & <-) N H. destruct (div_ok x y Fx N H) as (V & F & _). split; auto. Qed.

Lemma has_fits : forall x r, has x r -> fits r /\ rnd r = r.
Proof. intros x r (F & <-). split; [apply range_B2R|apply drnd_B2R]. Qed.

(** ** x / x and 0 / x *)

Lemma div_self : forall x, is_finite x = true -> B2R x <> 0%R -> ddiv x x = d1.
Proof.
  intros x F N. destruct one_R as (V1 & F1 & S1).
  assert (Q : (B2R x / B2R x = 1)%R) by (field; auto).
  assert (R1 : drnd 1 = 1%R) by (apply (drnd_int 1); simpl; lia).
  destruct (div_ok x x F N) as (V & Ff & S).
  - rewrite Q. apply (range_int 1). simpl; lia.
  - apply same; auto.
    + rewrite V, Q, R1. symmetry. exact V1.
    + rewrite S, xorb_nilpotent. symmetry. exact S1.
Qed.
Lemma sub_self : forall x, is_finite x = true -> dsub x x = d0.
Proof.
  intros x F. pose proof (Bminus_correct 53 1024 dprec_pos dprec_emax mode_NE x x F F) as C. cbn [round_mode] in C.
  rewrite Rminus_eq_0, round_0 in C by apply valid_rnd_N. rewrite Rabs_R0 in C. rewrite Rlt_bool_true in C by apply bpow_gt_0.
  destruct C as (V & Ff & S). destruct zero_has as (Z1 & Z2). apply same.
  - exact Ff.
  - exact Z1.
  - unfold dsub. rewrite V. auto.
  - unfold dsub. rewrite S. rewrite Rcompare_Eq by auto. rewrite andb_negb_r. symmetry. apply (of_int_sign 0). simpl; lia.
Qed.
Lemma div_zero : forall x, is_finite x = true -> (0 < B2R x)%R -> ddiv d0 x = d0.
Proof.
  intros x F P. destruct zero_has as (Z1 & Z2).
  assert (Q : (B2R d0 / B2R x = 0)%R) by (rewrite Z2; field; lra).
  destruct (div_ok d0 x Z1) as (V & Ff & S).
  - lra.
  - rewrite Q. apply (range_int 0). simpl; lia.
  - apply same; auto.
    + rewrite V, Q, Z2. unfold drnd. apply round_0. apply valid_rnd_N.
    + rewrite S. replace (Bsign x) with false. { apply xorb_false_r. }
      symmetry. destruct x as [s|s| |s m e H]; try discriminate.
      destruct s; auto. exfalso. apply (Rlt_not_le _ _ P), Rlt_le. apply (F2R_lt_0 radix2 (Float radix2 (Z.neg m) e)). reflexivity.
Qed.

Lemma of_small : forall n, small n -> int_val (double_of_Z n) n.
Proof. intros n H. destruct (of_int_exact n H) as (A & B). split; auto. Qed.
