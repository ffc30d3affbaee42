(** More facts about binary64 arithmetic on representable values. *)
From Coq Require Import ZArith Bool Lia Reals Lra List.
From Flocq Require Import Core BinarySingleNaN Relative.
From Verif Require Import Outcome FloatModel FloatFacts.
Import ListNotations.
Open Scope Z_scope.

#[local] Instance dvalid' : Valid_exp dfexp.
Proof. apply (fexp_correct 53 1024 dprec_pos). Qed.

Definition in_range (r : R) : Prop := (Rabs (drnd r) < bpow radix2 1024)%R.

Lemma finite_not_nan : forall x : double, is_finite x = true -> is_nan x = false.
Proof. intros [| | |]; simpl; auto; discriminate. Qed.

Lemma mul_ok : forall x y, is_finite x = true -> is_finite y = true -> in_range (B2R x * B2R y) ->
  B2R (dmul x y) = drnd (B2R x * B2R y) /\ is_finite (dmul x y) = true /\ Bsign (dmul x y) = xorb (Bsign x) (Bsign y).
Proof.
  intros x y Fx Fy H. pose proof (Bmult_correct 53 1024 dprec_pos dprec_emax mode_NE x y) as C. cbn [round_mode] in C.
  rewrite Rlt_bool_true in C by exact H. destruct C as (A & B & S). rewrite Fx, Fy in B. split; auto. split; auto.
  apply S. apply finite_not_nan. exact B.
Qed.
Lemma div_ok : forall x y, is_finite x = true -> B2R y <> 0%R -> in_range (B2R x / B2R y) ->
  B2R (ddiv x y) = drnd (B2R x / B2R y) /\ is_finite (ddiv x y) = true /\ Bsign (ddiv x y) = xorb (Bsign x) (Bsign y).
Proof.
  intros x y Fx Ny H. pose proof (Bdiv_correct 53 1024 dprec_pos dprec_emax mode_NE x y Ny) as C. cbn [round_mode] in C.
  rewrite Rlt_bool_true in C by exact H. destruct C as (A & B & S). rewrite Fx in B. split; auto. split; auto.
  apply S. apply finite_not_nan. exact B.
Qed.
Lemma add_ok : forall x y, is_finite x = true -> is_finite y = true -> in_range (B2R x + B2R y) ->
  B2R (dadd x y) = drnd (B2R x + B2R y) /\ is_finite (dadd x y) = true /\
  Bsign (dadd x y) = match Rcompare (B2R x + B2R y) 0 with Eq => Bsign x && Bsign y | Lt => true | Gt => false end.
Proof.
  intros x y Fx Fy H. pose proof (Bplus_correct 53 1024 dprec_pos dprec_emax mode_NE x y Fx Fy) as C. cbn [round_mode] in C.
  rewrite Rlt_bool_true in C by exact H. exact C.
Qed.
Lemma sub_ok : forall x y, is_finite x = true -> is_finite y = true -> in_range (B2R x - B2R y) ->
  B2R (dsub x y) = drnd (B2R x - B2R y) /\ is_finite (dsub x y) = true.
Proof.
  intros x y Fx Fy H. pose proof (Bminus_correct 53 1024 dprec_pos dprec_emax mode_NE x y Fx Fy) as C. cbn [round_mode] in C.
  rewrite Rlt_bool_true in C by exact H. destruct C as (A & B & _). auto.
Qed.

Lemma drnd_B2R : forall x : double, drnd (B2R x) = B2R x.
Proof. intros x. apply round_generic; [apply valid_rnd_N|apply generic_format_B2R]. Qed.
Lemma range_B2R : forall x : double, in_range (B2R x).
Proof. intros x. unfold in_range. rewrite drnd_B2R. apply abs_B2R_lt_emax. Qed.
Lemma range_int : forall z, Z.abs z <= 2 ^ 53 -> in_range (IZR z).
Proof.
  intros z H. unfold in_range. rewrite drnd_int by auto. rewrite <- abs_IZR.
  apply Rle_lt_trans with (IZR (2 ^ 53)); [apply IZR_le; auto|]. rewrite <- p53. apply bpow_lt. lia.
Qed.

Lemma same : forall x y : double, is_finite x = true -> is_finite y = true -> B2R x = B2R y -> Bsign x = Bsign y -> x = y.
Proof. apply B2R_Bsign_inj. Qed.

(** ** Conversion from integers, with the sign *)

Lemma of_int_sign : forall z, Z.abs z <= 2 ^ 53 -> Bsign (double_of_Z z) = (z <? 0).
Proof.
  intros z H. pose proof (binary_normalize_correct 53 1024 dprec_pos dprec_emax mode_NE z 0 false) as C.
  cbv zeta in C. replace (F2R {| Fnum := z; Fexp := 0 |}) with (IZR z) in C by (unfold F2R; simpl; lra).
  cbn [round_mode] in C. rewrite Rlt_bool_true in C by (apply range_int; auto). destruct C as (_ & _ & S).
  unfold double_of_Z. rewrite S. rewrite Rcompare_IZR. destruct (Z.compare_spec z 0); destruct (Z.ltb_spec z 0); auto; lia.
Qed.

Lemma is_int : forall x z, Z.abs z <= 2 ^ 53 -> is_finite x = true -> B2R x = IZR z -> Bsign x = (z <? 0) -> x = double_of_Z z.
Proof.
  intros x z H F R S. destruct (of_int_exact z H) as (R' & F'). apply same; auto; [congruence|]. rewrite of_int_sign; auto.
Qed.

Lemma one_R : B2R (double_of_Z 1) = 1%R /\ is_finite (double_of_Z 1) = true /\ Bsign (double_of_Z 1) = false.
Proof. split; [|split]; [apply of_int_exact|apply of_int_exact|apply of_int_sign]; simpl; lia. Qed.
Lemma mone_R : B2R (double_of_Z (-1)) = (-1)%R /\ is_finite (double_of_Z (-1)) = true /\ Bsign (double_of_Z (-1)) = true.
Proof. split; [|split]; [apply of_int_exact|apply of_int_exact|apply of_int_sign]; simpl; lia. Qed.

(** One is neutral on every double, NaN and infinities included. *)
Lemma mul_1_r : forall x, dmul x (double_of_Z 1) = x.
Proof.
  intros x. destruct (is_finite x) eqn:F.
  - destruct one_R as (R1 & F1 & S1). assert (B2R x * B2R (double_of_Z 1) = B2R x)%R as E by (rewrite R1; lra).
    destruct (mul_ok x (double_of_Z 1)) as (A & B & C); auto; [rewrite E; apply range_B2R|]. apply same; auto.
    + rewrite A, E. apply drnd_B2R.
    + rewrite C, S1. destruct (Bsign x); auto.
  - destruct x as [s|s| |s m e H]; try discriminate; [destruct s; reflexivity|reflexivity].
Qed.
Lemma mul_1_l : forall x, dmul (double_of_Z 1) x = x.
Proof.
  intros x. destruct (is_finite x) eqn:F.
  - destruct one_R as (R1 & F1 & S1). assert (B2R (double_of_Z 1) * B2R x = B2R x)%R as E by (rewrite R1; lra).
    destruct (mul_ok (double_of_Z 1) x) as (A & B & C); auto; [rewrite E; apply range_B2R|]. apply same; auto.
    + rewrite A, E. apply drnd_B2R.
    + rewrite C, S1. destruct (Bsign x); auto.
  - destruct x as [s|s| |s m e H]; try discriminate; [destruct s; reflexivity|reflexivity].
Qed.
Lemma div_1_r : forall x, ddiv x (double_of_Z 1) = x.
Proof.
  intros x. destruct (is_finite x) eqn:F.
  - destruct one_R as (R1 & F1 & S1). assert (B2R x / B2R (double_of_Z 1) = B2R x)%R as E by (rewrite R1; field).
    destruct (div_ok x (double_of_Z 1)) as (A & B & C); auto; [rewrite R1; lra|rewrite E; apply range_B2R|]. apply same; auto.
    + rewrite A, E. apply drnd_B2R.
    + rewrite C, S1. destruct (Bsign x); auto.
  - destruct x as [s|s| |s m e H]; try discriminate; [destruct s; reflexivity|reflexivity].
Qed.
Lemma mul_m1_l : forall x, dmul (double_of_Z (-1)) x = dopp x.
Proof.
  intros x. destruct (is_finite x) eqn:F.
  - destruct mone_R as (R1 & F1 & S1). assert (B2R (double_of_Z (-1)) * B2R x = B2R (dopp x))%R as E by (unfold dopp; rewrite B2R_Bopp, R1; lra).
    destruct (mul_ok (double_of_Z (-1)) x) as (A & B & C); auto; [rewrite E; apply range_B2R|]. apply same; auto.
    + unfold dopp. rewrite is_finite_Bopp. auto.
    + rewrite A, E. apply drnd_B2R.
    + rewrite C, S1. unfold dopp. rewrite Bsign_Bopp by (apply finite_not_nan; auto). destruct (Bsign x); auto.
  - destruct x as [s|s| |s m e H]; try discriminate; [destruct s; reflexivity|reflexivity].
Qed.

(** ** Accumulating decimal digits *)

Lemma push_exact : forall a d, 0 <= a -> 0 <= d -> a * 10 + d <= 2 ^ 53 ->
  dadd (dmul (double_of_Z a) (double_of_Z 10)) (double_of_Z d) = double_of_Z (a * 10 + d).
Proof.
  intros a d A D H. assert (2 ^ 53 = 9007199254740992) as P by reflexivity.
  destruct (of_int_exact a) as (Ra & Fa); [lia|]. destruct (of_int_exact 10) as (Rt & Ft); [lia|]. destruct (of_int_exact d) as (Rd & Fd); [lia|].
  assert (dmul (double_of_Z a) (double_of_Z 10) = double_of_Z (a * 10)) as M.
  { destruct (mul_ok (double_of_Z a) (double_of_Z 10)) as (B & F & S); auto.
    - rewrite Ra, Rt, <- mult_IZR. apply range_int. lia.
    - apply is_int; auto; [lia| |].
      + rewrite B, Ra, Rt, <- mult_IZR. apply drnd_int. lia.
      + rewrite S, !of_int_sign by lia. destruct (Z.ltb_spec a 0), (Z.ltb_spec (a * 10) 0); auto; lia. }
  rewrite M. destruct (of_int_exact (a * 10)) as (Rm & Fm); [lia|].
  destruct (add_ok (double_of_Z (a * 10)) (double_of_Z d)) as (B & F & S); auto.
  - rewrite Rm, Rd, <- plus_IZR. apply range_int. lia.
  - apply is_int; auto; [lia| |].
    + rewrite B, Rm, Rd, <- plus_IZR. apply drnd_int. lia.
    + rewrite S, Rm, Rd, <- plus_IZR, Rcompare_IZR, !of_int_sign by lia.
      destruct (Z.compare_spec (a * 10 + d) 0); destruct (Z.ltb_spec (a * 10 + d) 0); auto; try lia.
Qed.

(** ** Powers of ten up to 10^22 are representable *)

Lemma ten_format : forall k, 0 <= k <= 22 -> generic_format radix2 dfexp (IZR (10 ^ k)).
Proof.
  intros k K. apply (generic_format_FLT radix2 (-1074) 53). exists (Float radix2 (5 ^ k) k); simpl.
  - unfold F2R. simpl. rewrite <- IZR_Zpower by lia. rewrite <- mult_IZR. f_equal. change (radix_val radix2) with 2. rewrite <- Z.pow_mul_l. auto.
  - rewrite Z.abs_eq by (apply Z.pow_nonneg; lia). apply Z.le_lt_trans with (5 ^ 22); [apply Z.pow_le_mono_r; lia|]. apply Z.ltb_lt. vm_compute. reflexivity.
  - lia.
Qed.

Lemma ten_exact : forall k, 0 <= k <= 22 ->
  B2R (double_of_Z (10 ^ k)) = IZR (10 ^ k) /\ is_finite (double_of_Z (10 ^ k)) = true /\ Bsign (double_of_Z (10 ^ k)) = false.
Proof.
  intros k K. pose proof (binary_normalize_correct 53 1024 dprec_pos dprec_emax mode_NE (10 ^ k) 0 false) as C.
  cbv zeta in C. replace (F2R {| Fnum := 10 ^ k; Fexp := 0 |}) with (IZR (10 ^ k)) in C by (unfold F2R; simpl; lra).
  assert (drnd (IZR (10 ^ k)) = IZR (10 ^ k)) as E by (apply round_generic; [apply valid_rnd_N|apply ten_format; auto]).
  cbn [round_mode] in C. rewrite E in C.
  assert (0 < 10 ^ k) by (apply Z.pow_pos_nonneg; lia).
  rewrite Rlt_bool_true in C.
  - destruct C as (A & B & S). split; auto. split; auto. unfold double_of_Z. rewrite S, Rcompare_IZR. destruct (Z.compare_spec (10 ^ k) 0); auto; lia.
  - rewrite <- abs_IZR. rewrite Z.abs_eq by lia. apply Rle_lt_trans with (IZR (2 ^ 100)).
    + apply IZR_le. apply Z.le_trans with (10 ^ 22); [apply Z.pow_le_mono_r; lia|apply Z.leb_le; vm_compute; reflexivity].
    + replace (IZR (2 ^ 100)) with (bpow radix2 100) by (rewrite <- IZR_Zpower by lia; reflexivity). apply bpow_lt. lia.
Qed.
