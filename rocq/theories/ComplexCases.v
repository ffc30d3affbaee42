(** Complex values on which the code departs from the properties. *)
From Coq Require Import String Ascii ZArith Bool Lia Reals Lra List.
From Flocq Require Import Core BinarySingleNaN Relative.
From Verif Require Import Outcome FloatModel FloatFacts FloatMore ComplexModel ComplexSpec ComplexFloat ComplexFacts.
Import ListNotations.
Open Scope Z_scope.

(** 2^-53, 2^-52, 2^-60, 2^600 *)
Definition half_eps : double := B754_finite (prec:=53) (emax:=1024) false 4503599627370496 (-105) eq_refl.
Definition one_eps : double := B754_finite (prec:=53) (emax:=1024) false 4503599627370496 (-104) eq_refl.
Definition tiny : double := B754_finite (prec:=53) (emax:=1024) false 4503599627370496 (-112) eq_refl.
Definition huge : double := B754_finite (prec:=53) (emax:=1024) false 4503599627370496 548 eq_refl.
Definition cnan : double := B754_nan.
Definition cinf : double := B754_infinity false.

Lemma eq_zero_half : cx_eqb (cx_of d0) (cx_of half_eps) = true.
Proof. vm_compute. reflexivity. Qed.
Lemma eq_half_one : cx_eqb (cx_of half_eps) (cx_of one_eps) = true.
Proof. vm_compute. reflexivity. Qed.
Lemma neq_zero_one : cx_eqb (cx_of d0) (cx_of one_eps) = false.
Proof. vm_compute. reflexivity. Qed.

Lemma inf_not_self : cx_eqb (cx_of cinf) (cx_of cinf) = false.
Proof. vm_compute. reflexivity. Qed.
Lemma nan_not_self : cx_eqb (cx_of cnan) (cx_of cnan) = false.
Proof. vm_compute. reflexivity. Qed.
Lemma tiny_zero : cx_eqb (cx_of tiny) cx_zero = true.
Proof. vm_compute. reflexivity. Qed.
Lemma tiny_value : has tiny (bpow radix2 (-60)).
Proof. split; [reflexivity|]. unfold tiny, B2R, F2R. cbn [Fnum Fexp]. change (-112) with (-52 + -60). rewrite bpow_plus.
  change (bpow radix2 (-52)) with (/ IZR (2 ^ 52))%R. change (cond_Zopp false (Z.pos 4503599627370496)) with (2 ^ 52). field.
  apply not_0_IZR. discriminate.
Qed.
Lemma huge_value : has huge (bpow radix2 600).
Proof. split; [reflexivity|]. unfold huge, B2R, F2R. cbn [Fnum Fexp]. change 600 with (52 + 548). rewrite bpow_plus. reflexivity. Qed.

Lemma tiny_div : forall a, cx_div a (cx_of tiny) = Throw DivideByZero.
Proof. intros a. unfold cx_div, cx_check_zero. rewrite tiny_zero. reflexivity. Qed.

(** The same finite number divided by itself. *)
Lemma huge_div : exists q, cx_div (cx_of huge) (cx_of huge) = Ok q /\ is_nan (re q) = true.
Proof. eexists. split; [vm_compute; reflexivity|vm_compute; reflexivity]. Qed.

Lemma hash_splits : forall h : double -> Z, h half_eps <> h d0 -> forall shl1,
  cx_eqb (cx_of d0) (cx_of half_eps) = true /\ cx_hash h Z.lxor shl1 (cx_of d0) <> cx_hash h Z.lxor shl1 (cx_of half_eps).
Proof.
  intros h H shl1. split; [apply eq_zero_half|]. unfold cx_hash, cx_of. cbn [re im]. intros E. apply H.
  apply (f_equal (fun x => Z.lxor x (shl1 (h d0)))) in E. rewrite !Z.lxor_assoc, !Z.lxor_nilpotent, !Z.lxor_0_r in E. auto.
Qed.
Lemma hash_coarse : forall (h : double -> Z) lxor shl1 a b, (forall x y, is_finite x = true -> is_finite y = true -> B2R x = B2R y -> h x = h y) ->
  coarse (re a) -> coarse (im a) -> coarse (re b) -> coarse (im b) -> cx_eqb a b = true -> cx_hash h lxor shl1 a = cx_hash h lxor shl1 b.
Proof.
  intros h lxor shl1 a b H A1 A2 B1 B2 E. apply eqb_coarse in E; auto. destruct E as (E1 & E2).
  destruct A1 as (A1 & _), A2 as (A2 & _), B1 as (B1 & _), B2 as (B2 & _).
  unfold cx_hash. rewrite (H (re a) (re b)), (H (im a) (im b)); auto.
Qed.

(** ** Divisors of magnitude 2^512 and more *)

#[local] Opaque d0 d1 double_of_Z.

Lemma square_overflow : forall x, (bpow radix2 512 <= Rabs (B2R x))%R -> dmul x x = B754_infinity false.
Proof.
  intros x H. assert (F : is_finite x = true).
  { destruct x; auto; cbn in H; rewrite Rabs_R0 in H; pose proof (bpow_gt_0 radix2 512); lra. }
  pose proof (Bmult_correct 53 1024 dprec_pos dprec_emax mode_NE x x) as M. fold (dmul x x) in M.
  rewrite Rlt_bool_false in M.
  - apply B2SF_inj. rewrite M. rewrite xorb_nilpotent. reflexivity.
  - apply abs_round_ge_generic.
    + apply fexp_correct. reflexivity.
    + apply valid_rnd_round_mode.
    + apply generic_format_bpow. vm_compute. discriminate.
    + rewrite Rabs_mult. change 1024 with (512 + 512). rewrite bpow_plus. apply Rmult_le_compat; auto; apply bpow_ge_0.
Qed.

Definition nonneg (x : double) : Prop := match x with B754_infinity s => s = false | _ => True end.
Lemma square_nonneg : forall x, nonneg (dmul x x).
Proof.
  intros x. destruct (is_finite x) eqn:F; [|destruct x as [|[]| |]; try discriminate; exact I || reflexivity].
  pose proof (Bmult_correct 53 1024 dprec_pos dprec_emax mode_NE x x) as M. fold (dmul x x) in M.
  destruct (Rlt_bool _ _).
  - destruct M as (_ & M & _). rewrite F in M. destruct (dmul x x); try discriminate; exact I.
  - rewrite xorb_nilpotent in M. replace (dmul x x) with (@B754_infinity 53 1024 false); [reflexivity|]. apply B2SF_inj. rewrite M. reflexivity.
Qed.
Lemma add_inf : forall x, nonneg x -> dadd (B754_infinity false) x = B754_infinity false \/ dadd (B754_infinity false) x = B754_nan.
Proof. intros [|s| |] H; cbn in *; subst; auto. Qed.
Lemma div_inf : forall x y, y = B754_infinity false \/ y = B754_nan -> is_nan (ddiv x y) = true \/ has (ddiv x y) 0.
Proof.
  intros x y [-> | ->]; destruct x as [s|s| |s m e H]; cbn; auto; right; split; reflexivity.
Qed.

Lemma div_big : forall a b q, (bpow radix2 512 <= Rabs (B2R (re b)) \/ bpow radix2 512 <= Rabs (B2R (im b)))%R ->
  cx_div a b = Ok q -> (is_nan (re q) = true \/ has (re q) 0) /\ (is_nan (im q) = true \/ has (im q) 0).
Proof.
  intros a b q H E. unfold cx_div in E. destruct (cx_check_zero b); cbn [bind] in E; try discriminate. cbv zeta in E.
  assert (D : dadd (dmul (re b) (re b)) (dmul (im b) (im b)) = B754_infinity false \/ dadd (dmul (re b) (re b)) (dmul (im b) (im b)) = B754_nan).
  { destruct H as [H|H].
    - rewrite (square_overflow _ H). apply add_inf, square_nonneg.
    - rewrite dadd_comm. rewrite (square_overflow _ H). apply add_inf, square_nonneg. }
  inversion E. cbn [re im]. split; apply div_inf; exact D.
Qed.

(** ** Rounding error of multiplication *)

Open Scope R_scope.
Definition u : R := bpow radix2 (-53).
Definition eta : R := bpow radix2 (-1075).

Lemma rnd_err : forall r, Rabs (rnd r - r) <= u * Rabs r + eta.
Proof.
  intros r. destruct (error_N_FLT radix2 (-1074) 53 eq_refl (fun n => negb (Z.even n)) r) as (e & t & He & Ht & _ & E).
  unfold rnd. change (SpecFloat.fexp 53 1024) with (FLT_exp (-1074) 53). rewrite E.
  replace (r * (1 + e) + t - r) with (r * e + t) by ring.
  eapply Rle_trans; [apply Rabs_triang|]. rewrite Rabs_mult. apply Rplus_le_compat.
  - rewrite Rmult_comm. apply Rmult_le_compat_r; [apply Rabs_pos|]. eapply Rle_trans; [exact He|].
    unfold u. change (-53)%Z with (-1 + (- 53 + 1))%Z. rewrite (bpow_plus radix2 (-1)). change (bpow radix2 (-1)) with (/ 2). apply Rle_refl.
  - eapply Rle_trans; [exact Ht|]. unfold eta. change (-1075)%Z with (-1 + -1074)%Z. rewrite (bpow_plus radix2 (-1)). change (bpow radix2 (-1)) with (/ 2). apply Rle_refl.
Qed.

Lemma sum_err : forall x y, Rabs (rnd (rnd x + rnd y) - (x + y)) <= (2 * u + u * u) * (Rabs x + Rabs y) + (3 + 2 * u) * eta.
Proof.
  intros x y. pose proof (rnd_err x) as X. pose proof (rnd_err y) as Y. pose proof (rnd_err (rnd x + rnd y)) as S.
  assert (U : 0 <= u) by apply bpow_ge_0. assert (T : 0 <= eta) by apply bpow_ge_0.
  set (a := rnd x) in *. set (b := rnd y) in *.
  assert (A : Rabs (a + b) <= (Rabs x + Rabs y) + (Rabs (a - x) + Rabs (b - y))).
  { replace (a + b) with ((x + y) + ((a - x) + (b - y))) by ring. eapply Rle_trans; [apply Rabs_triang|].
    apply Rplus_le_compat; apply Rabs_triang. }
  assert (B : Rabs (rnd (a + b) - (x + y)) <= Rabs (rnd (a + b) - (a + b)) + (Rabs (a - x) + Rabs (b - y))).
  { replace (rnd (a + b) - (x + y)) with ((rnd (a + b) - (a + b)) + ((a - x) + (b - y))) by ring. eapply Rle_trans; [apply Rabs_triang|].
    apply Rplus_le_compat_l. apply Rabs_triang. }
  assert (C : u * Rabs (a + b) <= u * ((Rabs x + Rabs y) + (u * Rabs x + eta + (u * Rabs y + eta)))).
  { apply Rmult_le_compat_l; auto. eapply Rle_trans; [exact A|]. lra. }
  nra.
Qed.

Lemma rnd_opp : forall r, rnd (- r) = - rnd r.
Proof. intros r. apply round_NE_opp. Qed.

(** Each part of a product is within (2u + u^2) of the sum of magnitudes, u = 2^-53. *)
Lemma mul_error : forall a b, cfinite a -> cfinite b ->
  let ar := B2R (re a) in let ai := B2R (im a) in let br := B2R (re b) in let bi := B2R (im b) in
  fits (ar * br) -> fits (ai * bi) -> fits (ar * bi) -> fits (ai * br) ->
  fits (rnd (ar * br) - rnd (ai * bi)) -> fits (rnd (ar * bi) + rnd (ai * br)) ->
  cfinite (cx_mul a b) /\
  Rabs (B2R (re (cx_mul a b)) - (ar * br - ai * bi)) <= (2 * u + u * u) * (Rabs (ar * br) + Rabs (ai * bi)) + (3 + 2 * u) * eta /\
  Rabs (B2R (im (cx_mul a b)) - (ar * bi + ai * br)) <= (2 * u + u * u) * (Rabs (ar * bi) + Rabs (ai * br)) + (3 + 2 * u) * eta.
Proof.
  intros a b A B. cbv zeta. intros F1 F2 F3 F4 F5 F6. destruct (mul_parts a b A B F1 F2 F3 F4 F5 F6) as ((G1 & V1) & (G2 & V2)).
  rewrite V1, V2. split; [split; auto|]. split; [|apply sum_err].
  pose proof (sum_err (B2R (re a) * B2R (re b)) (- (B2R (im a) * B2R (im b)))) as H. rewrite rnd_opp, Rabs_Ropp in H. exact H.
Qed.

(** ** Rounding error of division *)

Lemma u_small : 0 < u <= / 1024.
Proof. split; [apply bpow_gt_0|]. change (/ 1024) with (bpow radix2 (-10)). apply bpow_le. lia. Qed.
Lemma eta_small : 0 < eta <= u * bpow radix2 (-1000).
Proof. split; [apply bpow_gt_0|]. unfold u, eta. rewrite <- bpow_plus. apply bpow_le. lia. Qed.

Lemma quotient_err : forall N M D n d, 0 < D -> Rabs N <= M -> Rabs (n - N) <= 3 * u * M + 4 * eta -> Rabs (d - D) <= 3 * u * D ->
  d <> 0 /\ Rabs (rnd (n / d) - N / D) <= 8 * u * (M / D) + (1 + 5 / D) * eta.
Proof.
  intros N M D n d PD HN Hn Hd. pose proof u_small as (U0 & U1). assert (E0 : 0 < eta) by apply bpow_gt_0.
  assert (M0 : 0 <= M) by (eapply Rle_trans; [apply Rabs_pos|exact HN]).
  apply Rabs_le_inv in Hd. assert (L : (1 - 3 * u) * D <= d) by lra. assert (P : 0 < (1 - 3 * u) * D) by (apply Rmult_lt_0_compat; lra).
  assert (Pd : 0 < d) by lra. split; [lra|].
  assert (I : / d <= / ((1 - 3 * u) * D)) by (apply Rinv_le; auto). assert (I0 : 0 < / d) by (apply Rinv_0_lt_compat; auto).
  assert (A : Rabs (n / d - N / D) <= (6 * u * M + 4 * eta) * / d).
  { replace (n / d - N / D) with (((n - N) + N * ((D - d) / D)) * / d) by (field; lra).
    rewrite Rabs_mult, (Rabs_pos_eq (/ d)) by lra. apply Rmult_le_compat_r; [lra|].
    eapply Rle_trans; [apply Rabs_triang|]. assert (Q : Rabs (N * ((D - d) / D)) <= M * (3 * u)).
    { rewrite Rabs_mult. apply Rmult_le_compat; auto using Rabs_pos. unfold Rdiv. rewrite Rabs_mult, (Rabs_pos_eq (/ D)) by (left; apply Rinv_0_lt_compat; auto).
      apply Rmult_le_reg_r with D; auto. rewrite Rmult_assoc, Rinv_l, Rmult_1_r by lra. apply Rabs_le. lra. }
    lra. }
  assert (B : Rabs (n / d) <= (M + 3 * u * M + 4 * eta) * / d).
  { unfold Rdiv. rewrite Rabs_mult, (Rabs_pos_eq (/ d)) by lra. apply Rmult_le_compat_r; [lra|].
    replace n with (N + (n - N)) by ring. eapply Rle_trans; [apply Rabs_triang|]. lra. }
  pose proof (rnd_err (n / d)) as R.
  assert (S : Rabs (rnd (n / d) - N / D) <= Rabs (rnd (n / d) - n / d) + Rabs (n / d - N / D)).
  { replace (rnd (n / d) - N / D) with ((rnd (n / d) - n / d) + (n / d - N / D)) by ring. apply Rabs_triang. }
  assert (T : u * Rabs (n / d) <= u * ((M + 3 * u * M + 4 * eta) * / d)) by (apply Rmult_le_compat_l; lra).
  assert (C : u * ((M + 3 * u * M + 4 * eta) * / d) + (6 * u * M + 4 * eta) * / d <= (8 * u * M + 5 * eta) * / D).
  { apply Rle_trans with (((7 * u + 3 * u * u) * M + (4 + 4 * u) * eta) * / ((1 - 3 * u) * D)).
    - replace (u * ((M + 3 * u * M + 4 * eta) * / d) + (6 * u * M + 4 * eta) * / d) with (((7 * u + 3 * u * u) * M + (4 + 4 * u) * eta) * / d) by (field; lra).
      apply Rmult_le_compat_l; auto. apply Rplus_le_le_0_compat; apply Rmult_le_pos; nra.
    - rewrite Rinv_mult. rewrite <- Rmult_assoc. apply Rmult_le_compat_r; [left; apply Rinv_0_lt_compat; auto|].
      apply Rmult_le_reg_r with (1 - 3 * u); [lra|]. rewrite Rmult_assoc, Rinv_l, Rmult_1_r by lra.
      assert (X : (7 * u + 3 * u * u) * M <= 8 * u * M * (1 - 3 * u)).
      { replace (8 * u * M * (1 - 3 * u)) with ((8 * u * (1 - 3 * u)) * M) by ring. apply Rmult_le_compat_r; auto. nra. }
      assert (Y : (4 + 4 * u) * eta <= 5 * eta * (1 - 3 * u)).
      { replace (5 * eta * (1 - 3 * u)) with ((5 * (1 - 3 * u)) * eta) by ring. apply Rmult_le_compat_r; lra. }
      lra. }
  replace (8 * u * (M / D) + (1 + 5 / D) * eta) with ((8 * u * M + 5 * eta) * / D + eta) by (field; lra). lra.
Qed.

Lemma den_big : forall b, cfinite b -> cx_eqb b cx_zero = false -> bpow radix2 (-104) <= B2R (re b) * B2R (re b) + B2R (im b) * B2R (im b).
Proof.
  intros b (B1 & B2) NZ. assert (G : bpow radix2 (-52) <= Rabs (B2R (re b)) \/ bpow radix2 (-52) <= Rabs (B2R (im b))).
  { destruct (Rle_dec (bpow radix2 (-52)) (Rabs (B2R (re b)))); auto. destruct (Rle_dec (bpow radix2 (-52)) (Rabs (B2R (im b)))); auto.
    exfalso. assert (E : cx_eqb b cx_zero = true); [|congruence]. rewrite eqb_near. cbn [cx_zero cx_of re im]. rewrite andb_true_iff, !near_zero by auto. lra. }
  assert (S : forall r, bpow radix2 (-52) <= Rabs r -> bpow radix2 (-104) <= r * r).
  { intros r H. rewrite <- (Rabs_pos_eq (r * r)) by nra. rewrite Rabs_mult. change (-104)%Z with (-52 + -52)%Z. rewrite bpow_plus.
    apply Rmult_le_compat; auto; apply bpow_ge_0. }
  destruct G as [G|G]; apply S in G; nra.
Qed.

Lemma div_error : forall a b, cfinite a -> cfinite b -> cx_eqb b cx_zero = false ->
  let ar := B2R (re a) in let ai := B2R (im a) in let br := B2R (re b) in let bi := B2R (im b) in
  let D := br * br + bi * bi in
  let den := rnd (rnd (br * br) + rnd (bi * bi)) in
  let x := rnd (rnd (ar * br) + rnd (ai * bi)) in let y := rnd (rnd (ai * br) - rnd (ar * bi)) in
  fits (br * br) -> fits (bi * bi) -> fits (rnd (br * br) + rnd (bi * bi)) ->
  fits (ar * br) -> fits (ai * bi) -> fits (rnd (ar * br) + rnd (ai * bi)) -> fits (x / den) ->
  fits (ai * br) -> fits (ar * bi) -> fits (rnd (ai * br) - rnd (ar * bi)) -> fits (y / den) ->
  exists q, cx_div a b = Ok q /\ cfinite q /\
    Rabs (B2R (re q) - (ar * br + ai * bi) / D) <= 8 * u * ((Rabs (ar * br) + Rabs (ai * bi)) / D) + (1 + 5 / D) * eta /\
    Rabs (B2R (im q) - (ai * br - ar * bi) / D) <= 8 * u * ((Rabs (ai * br) + Rabs (ar * bi)) / D) + (1 + 5 / D) * eta.
Proof.
  intros a b A B NZ. cbv zeta. intros F1 F2 F3 F4 F5 F6 F7 F8 F9 F10 F11.
  pose proof (den_big b B NZ) as DB. pose proof u_small as (U0 & U1). pose proof eta_small as (E0 & E1).
  assert (D0 : 0 < B2R (re b) * B2R (re b) + B2R (im b) * B2R (im b)) by (pose proof (bpow_gt_0 radix2 (-104)); lra).
  assert (ES : (3 + 2 * u) * eta <= (u - u * u) * (B2R (re b) * B2R (re b) + B2R (im b) * B2R (im b))).
  { apply Rle_trans with ((u - u * u) * bpow radix2 (-104)).
    - apply Rle_trans with (u * (4 * bpow radix2 (-1000))); [nra|].
      replace ((u - u * u) * bpow radix2 (-104)) with (u * ((1 - u) * bpow radix2 (-104))) by ring. apply Rmult_le_compat_l; [lra|].
      apply Rle_trans with (/ 2 * bpow radix2 (-104)); [|pose proof (bpow_gt_0 radix2 (-104)); nra].
      change 4 with (bpow radix2 2). change (/ 2) with (bpow radix2 (-1)). rewrite <- !bpow_plus. apply bpow_le. lia.
    - apply Rmult_le_compat_l; [nra|auto]. }
  assert (SQ : forall r, Rabs (r * r) = r * r) by (intros; apply Rabs_pos_eq; nra).
  assert (HD : Rabs (rnd (rnd (B2R (re b) * B2R (re b)) + rnd (B2R (im b) * B2R (im b))) - (B2R (re b) * B2R (re b) + B2R (im b) * B2R (im b)))
     <= 3 * u * (B2R (re b) * B2R (re b) + B2R (im b) * B2R (im b))).
  { eapply Rle_trans; [apply sum_err|]. rewrite !SQ. lra. }
  assert (SE : forall p q, Rabs (rnd (rnd p + rnd q) - (p + q)) <= 3 * u * (Rabs p + Rabs q) + 4 * eta).
  { intros p q. eapply Rle_trans; [apply sum_err|]. pose proof (Rabs_pos p). pose proof (Rabs_pos q).
    apply Rplus_le_compat; [apply Rmult_le_compat_r; nra|nra]. }
  assert (SE' : forall p q, Rabs (rnd (rnd p - rnd q) - (p - q)) <= 3 * u * (Rabs p + Rabs q) + 4 * eta).
  { intros p q. pose proof (SE p (- q)) as H. rewrite rnd_opp, Rabs_Ropp in H. exact H. }
  destruct (quotient_err (B2R (re a) * B2R (re b) + B2R (im a) * B2R (im b)) (Rabs (B2R (re a) * B2R (re b)) + Rabs (B2R (im a) * B2R (im b))) _ _ _
    D0 (Rabs_triang _ _) (SE _ _) HD) as (N & Q1).
  assert (TR : Rabs (B2R (im a) * B2R (re b) - B2R (re a) * B2R (im b)) <= Rabs (B2R (im a) * B2R (re b)) + Rabs (B2R (re a) * B2R (im b))).
  { unfold Rminus. eapply Rle_trans; [apply Rabs_triang|]. rewrite Rabs_Ropp. apply Rle_refl. }
  destruct (quotient_err _ _ _ _ _ D0 TR (SE' _ _) HD) as (_ & Q2).
  destruct (div_parts a b A B NZ F1 F2 F3 N F4 F5 F6 F7 F8 F9 F10 F11) as (q & E & (G1 & V1) & (G2 & V2)).
  exists q. rewrite V1, V2. split; [auto|]. split; [split; auto|]. split; auto.
Qed.

(** ** Conventions *)

Lemma pow_tiny : forall m, has tiny (bpow radix2 (-60)) /\
  cx_pow m (cx_of tiny) (cx_of d1) = Throw MathDomain /\ forall b, cx_pow m b (cx_of tiny) = Ok (Cx d1 d0).
Proof.
  intros m. split; [apply tiny_value|]. split.
  - apply pow_zero_base; [vm_compute; reflexivity|apply tiny_zero].
  - intros b. apply pow_zero_exponent, tiny_zero.
Qed.
Lemma assign_div_zero : forall a, cx_assign cx_div a cx_zero = (Throw DivideByZero, a).
Proof. intros a. apply assign_throw. apply div_zero_throws; apply zero_has. Qed.
Lemma move_zero : forall a, cx_move a = (a, Cx d0 d0).
Proof. reflexivity. Qed.
