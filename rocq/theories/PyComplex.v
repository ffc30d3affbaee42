(** Complex against Python's complex: C282 and C283. *)
From Coq Require Import ZArith Reals Bool Lia Lra.
From Flocq Require Import Core BinarySingleNaN.
From Verif Require Import Outcome FloatModel FloatFacts FloatMore ComplexModel ComplexSpec ComplexFloat ComplexFacts ComplexCases PyComplexSpec.
Open Scope Z_scope.

Theorem simple_python : forall a b, cx_add a b = py_sum a b /\ cx_sub a b = py_diff a b /\ cx_mul a b = py_prod a b /\ cx_neg a = py_neg a /\
  cx_conjugate a = py_conjugate a.
Proof. intros a b. repeat split. Qed.

Lemma python_zero : forall a b, py_quot a b = Throw DivideByZero <-> has (re b) 0 /\ has (im b) 0.
Proof.
  intros a b. unfold py_quot, has. split.
  - destruct (dleb (dabs (im b)) (dabs (re b))) eqn:L.
    + destruct (deqb (dabs (re b)) (double_of_Z 0)) eqn:E; [|discriminate]. intros _.
      destruct (re b) as [s|s| |s m e H]; try discriminate E.
      split; [split; reflexivity|]. destruct (im b) as [s'|s'| |s' m' e' H']; try discriminate L. split; reflexivity.
    + destruct (dleb (dabs (re b)) (dabs (im b))); discriminate.
  - intros ((F1 & R1) & F2 & R2).
    assert (X : forall x : double, is_finite x = true -> B2R x = 0%R -> exists s, x = B754_zero s).
    { intros [s|s| |s m e H] F V; try discriminate F; [eauto|]. exfalso. cbn in V. apply eq_0_F2R in V. destruct s; discriminate V. }
    destruct (X _ F1 R1) as (s & ->). destruct (X _ F2 R2) as (t & ->). destruct s, t; reflexivity.
Qed.
Theorem zero_python : forall a b, py_quot a b = Throw DivideByZero -> cx_div a b = Throw DivideByZero.
Proof. intros a b H. apply python_zero in H. destruct H. apply div_zero_throws; auto. Qed.

Lemma fits_quot : forall m p, small m -> p <> 0 -> fits (IZR m / IZR p).
Proof.
  intros m p S N. unfold fits. change rnd with (fun r => drnd r). cbv beta. apply Rle_lt_trans with (bpow radix2 53); [|apply bpow_lt; lia].
  apply abs_round_le_generic.
  - apply dvalid.
  - apply valid_rnd_N.
  - apply generic_format_bpow. rewrite dfexp_FLT. unfold FLT_exp. lia.
  - eapply Rle_trans; [apply quot_bound; auto|]. rewrite p53. apply IZR_le. exact S.
Qed.
Lemma quot_val : forall x y m p, int_val x m -> int_val y p -> small m -> p <> 0 -> has (ddiv x y) (rnd (IZR m / IZR p)).
Proof. intros x y m p X Y S N. apply div_has; auto; [apply not_0_IZR; auto|apply fits_quot; auto]. Qed.
Lemma quot_cancel : forall m p, p <> 0 -> (IZR (m * p) / IZR (p * p) = IZR m / IZR p)%R.
Proof. intros m p N. rewrite !mult_IZR. field. apply not_0_IZR. auto. Qed.
Lemma small_1 : forall m p, p <> 0 -> small (m * p) -> small m.
Proof. unfold small. intros m p N S. rewrite Z.abs_mul in S. nia. Qed.

(** Division by an integer. *)
Theorem real_divisor : forall a b m n p, gauss a m n -> gauss b p 0 -> p <> 0 -> small (m * p) -> small (n * p) -> small (p * p) ->
  exists q r, cx_div a b = Ok q /\ py_quot a b = Ok r /\ has (re q) (rnd (IZR m / IZR p)) /\ has (re r) (rnd (IZR m / IZR p)) /\
    has (im q) (rnd (IZR n / IZR p)) /\ has (im r) (rnd (IZR n / IZR p)).
Proof.
  intros a b m n p (Am & An) (Bp & Bz) N S1 S2 S3.
  assert (Sm := small_1 m p N S1). assert (Sn := small_1 n p N S2). assert (Sp := small_1 p p N S3).
  assert (Z0: small 0) by (unfold small; lia).
  assert (K: exists q, cx_div a b = Ok q).
  { destruct (div_total a b) as [T|T]; auto. exfalso. apply div_throws in T; [|split; [apply Bp|apply Bz]]. destruct T as (T & _).
    rewrite (proj2 Bp), <- abs_IZR in T. assert (1 <= IZR (Z.abs p))%R by (apply IZR_le; lia).
    assert (bpow radix2 (-52) < 1)%R by (change 1%R with (bpow radix2 0); apply bpow_lt; lia). lra. }
  destruct K as (q & K). exists q.
  assert (D: dleb (dabs (im b)) (dabs (re b)) = true).
  { unfold dleb, dabs. rewrite Bleb_correct by (rewrite is_finite_Babs; (apply Bz || apply Bp)). apply Rle_bool_true.
    rewrite !B2R_Babs, (proj2 Bz), Rabs_R0. apply Rabs_pos. }
  assert (E: deqb (dabs (re b)) (double_of_Z 0) = false).
  { destruct (of_small 0 Z0) as (F0 & V0). unfold deqb, dabs. rewrite Beqb_correct by (rewrite ?is_finite_Babs; (apply Bp || auto)). apply Req_bool_false.
    rewrite B2R_Babs, (proj2 Bp), V0. intros X. apply Rabs_no_R0 in X; auto. apply not_0_IZR. auto. }
  unfold py_quot. rewrite D, E. eexists. split; [exact K|]. split; [reflexivity|]. cbn [re im].
  assert (R: int_val (ddiv (im b) (re b)) 0). { apply (quot_int _ _ 0 p); auto. }
  assert (De: int_val (dadd (re b) (dmul (im b) (ddiv (im b) (re b)))) p).
  { pose proof (mul_int _ _ _ _ Bz R Z0) as X. cbn in X. pose proof (add_int _ _ _ _ Bp X) as Y. rewrite Z.add_0_r in Y. auto. }
  assert (Nr: int_val (dadd (re a) (dmul (im a) (ddiv (im b) (re b)))) m).
  { assert (X := mul_int _ _ _ _ An R). rewrite Z.mul_0_r in X. pose proof (add_int _ _ _ _ Am (X Z0)) as Y. rewrite Z.add_0_r in Y. auto. }
  assert (Ni: int_val (dsub (im a) (dmul (re a) (ddiv (im b) (re b)))) n).
  { assert (X := mul_int _ _ _ _ Am R). rewrite Z.mul_0_r in X. pose proof (sub_int _ _ _ _ An (X Z0)) as Y. rewrite Z.sub_0_r in Y. auto. }
  unfold cx_div, cx_check_zero in K. destruct (cx_eqb b cx_zero); [discriminate K|]. cbn [bind] in K. injection K as <-. cbn [re im].
  assert (D2: int_val (dadd (dmul (re b) (re b)) (dmul (im b) (im b))) (p * p)).
  { pose proof (mul_int _ _ _ _ Bp Bp S3) as X. pose proof (mul_int _ _ _ _ Bz Bz Z0) as X'. pose proof (add_int _ _ _ _ X X') as Y.
    rewrite Z.add_0_r in Y. auto. }
  assert (N1: int_val (dadd (dmul (re a) (re b)) (dmul (im a) (im b))) (m * p)).
  { pose proof (mul_int _ _ _ _ Am Bp S1) as X. pose proof (mul_int _ _ _ _ An Bz) as X'. rewrite Z.mul_0_r in X'.
    pose proof (add_int _ _ _ _ X (X' Z0)) as Y. rewrite Z.add_0_r in Y. auto. }
  assert (N2: int_val (dsub (dmul (im a) (re b)) (dmul (re a) (im b))) (n * p)).
  { pose proof (mul_int _ _ _ _ An Bp S2) as X. pose proof (mul_int _ _ _ _ Am Bz) as X'. rewrite Z.mul_0_r in X'.
    pose proof (sub_int _ _ _ _ X (X' Z0)) as Y. rewrite Z.sub_0_r in Y. auto. }
  split; [rewrite <- (quot_cancel m p N); apply quot_val; auto; nia|]. split; [apply quot_val; auto|].
  split; [rewrite <- (quot_cancel n p N); apply quot_val; auto; nia|]. apply quot_val; auto.
Qed.

(** Division by an integer times j. *)
Theorem imaginary_divisor : forall a b m n p, gauss a m n -> gauss b 0 p -> p <> 0 -> small (m * p) -> small (n * p) -> small (p * p) ->
  exists q r, cx_div a b = Ok q /\ py_quot a b = Ok r /\ has (re q) (rnd (IZR n / IZR p)) /\ has (re r) (rnd (IZR n / IZR p)) /\
    has (im q) (rnd (IZR (- m) / IZR p)) /\ has (im r) (rnd (IZR (- m) / IZR p)).
Proof.
  intros a b m n p (Am & An) (Bz & Bp) N S1 S2 S3.
  assert (Sm := small_1 m p N S1). assert (Sn := small_1 n p N S2). assert (Sp := small_1 p p N S3).
  assert (Z0: small 0) by (unfold small; lia). assert (Sm': small (- m)) by (unfold small in *; lia).
  assert (P: (0 < Rabs (IZR p))%R) by (apply Rabs_pos_lt, not_0_IZR; auto).
  assert (K: exists q, cx_div a b = Ok q).
  { destruct (div_total a b) as [T|T]; auto. exfalso. apply div_throws in T; [|split; [apply Bz|apply Bp]]. destruct T as (_ & T).
    rewrite (proj2 Bp), <- abs_IZR in T. assert (1 <= IZR (Z.abs p))%R by (apply IZR_le; lia).
    assert (bpow radix2 (-52) < 1)%R by (change 1%R with (bpow radix2 0); apply bpow_lt; lia). lra. }
  destruct K as (q & K). exists q.
  assert (D: dleb (dabs (im b)) (dabs (re b)) = false).
  { unfold dleb, dabs. rewrite Bleb_correct by (rewrite is_finite_Babs; (apply Bz || apply Bp)). apply Rle_bool_false.
    rewrite !B2R_Babs, (proj2 Bz), (proj2 Bp), Rabs_R0. auto. }
  assert (E: dleb (dabs (re b)) (dabs (im b)) = true).
  { unfold dleb, dabs. rewrite Bleb_correct by (rewrite is_finite_Babs; (apply Bz || apply Bp)). apply Rle_bool_true.
    rewrite !B2R_Babs, (proj2 Bz), (proj2 Bp), Rabs_R0. lra. }
  unfold py_quot. rewrite D, E. eexists. split; [exact K|]. split; [reflexivity|]. cbn [re im].
  assert (R: int_val (ddiv (re b) (im b)) 0). { apply (quot_int _ _ 0 p); auto. }
  assert (De: int_val (dadd (dmul (re b) (ddiv (re b) (im b))) (im b)) p).
  { pose proof (mul_int _ _ _ _ Bz R Z0) as X. cbn in X. pose proof (add_int _ _ _ _ X Bp) as Y. rewrite Z.add_0_l in Y. auto. }
  assert (Nr: int_val (dadd (dmul (re a) (ddiv (re b) (im b))) (im a)) n).
  { assert (X := mul_int _ _ _ _ Am R). rewrite Z.mul_0_r in X. pose proof (add_int _ _ _ _ (X Z0) An) as Y. rewrite Z.add_0_l in Y. auto. }
  assert (Ni: int_val (dsub (dmul (im a) (ddiv (re b) (im b))) (re a)) (- m)).
  { assert (X := mul_int _ _ _ _ An R). rewrite Z.mul_0_r in X. pose proof (sub_int _ _ _ _ (X Z0) Am) as Y. rewrite Z.sub_0_l in Y. auto. }
  unfold cx_div, cx_check_zero in K. destruct (cx_eqb b cx_zero); [discriminate K|]. cbn [bind] in K. injection K as <-. cbn [re im].
  assert (D2: int_val (dadd (dmul (re b) (re b)) (dmul (im b) (im b))) (p * p)).
  { pose proof (mul_int _ _ _ _ Bp Bp S3) as X. pose proof (mul_int _ _ _ _ Bz Bz Z0) as X'. pose proof (add_int _ _ _ _ X' X) as Y.
    rewrite Z.add_0_l in Y. auto. }
  assert (N1: int_val (dadd (dmul (re a) (re b)) (dmul (im a) (im b))) (n * p)).
  { pose proof (mul_int _ _ _ _ An Bp S2) as X. pose proof (mul_int _ _ _ _ Am Bz) as X'. rewrite Z.mul_0_r in X'.
    pose proof (add_int _ _ _ _ (X' Z0) X) as Y. rewrite Z.add_0_l in Y. auto. }
  assert (N2: int_val (dsub (dmul (im a) (re b)) (dmul (re a) (im b))) (- m * p)).
  { pose proof (mul_int _ _ _ _ Am Bp S1) as X. pose proof (mul_int _ _ _ _ An Bz) as X'. rewrite Z.mul_0_r in X'.
    pose proof (sub_int _ _ _ _ (X' Z0) X) as Y. rewrite Z.sub_0_l, <- Z.mul_opp_l in Y. apply Y. unfold small in *. rewrite Z.mul_opp_l, Z.abs_opp. auto. }
  split; [rewrite <- (quot_cancel n p N); apply quot_val; auto; nia|]. split; [apply quot_val; auto|].
  split; [rewrite <- (quot_cancel (- m) p N); apply quot_val; auto; [unfold small in *; rewrite Z.mul_opp_l, Z.abs_opp; auto|nia]|]. apply quot_val; auto.
Qed.

(** A NaN in the divisor. *)
Lemma mul_nan_l : forall x, dmul B754_nan x = B754_nan. Proof. intros []; reflexivity. Qed.
Lemma add_nan_l : forall x, dadd B754_nan x = B754_nan. Proof. intros []; reflexivity. Qed.
Lemma add_nan_r : forall x, dadd x B754_nan = B754_nan. Proof. intros []; reflexivity. Qed.
Lemma sub_nan_l : forall x, dsub B754_nan x = B754_nan. Proof. intros []; reflexivity. Qed.
Lemma div_nan_r : forall x, ddiv x B754_nan = B754_nan. Proof. intros []; reflexivity. Qed.
Lemma le_nan_l : forall x, dleb B754_nan x = false. Proof. intros []; reflexivity. Qed.
Lemma le_nan_r : forall x, dleb x B754_nan = false. Proof. intros [[]|[]| |[] ? ? ?]; reflexivity. Qed.
Theorem nan_divisor : forall a b, re b = B754_nan \/ im b = B754_nan -> cx_div a b = Ok (Cx B754_nan B754_nan) /\ py_quot a b = Ok (Cx B754_nan B754_nan).
Proof.
  intros a b H. unfold cx_div, cx_check_zero, cx_eqb, py_quot.
  destruct b as [x y]. cbn [re im cx_zero cx_of] in *. destruct H as [-> | ->].
  - rewrite sub_nan_l, mul_nan_l, add_nan_l, !div_nan_r. change (dabs B754_nan) with (B754_nan : double). rewrite le_nan_r, !le_nan_l. auto.
  - rewrite sub_nan_l, mul_nan_l, add_nan_r, !div_nan_r. change (dabs B754_nan) with (B754_nan : double). rewrite le_nan_r, !le_nan_l.
    replace (dltb B754_nan epsilon) with false by reflexivity. rewrite andb_false_r. auto.
Qed.

(** ** Where the quotients differ *)
Theorem rounding_differs : let a := Cx (double_of_Z 0) (double_of_Z 1) in let b := Cx (double_of_Z 1) (double_of_Z 3) in
  exists q r, cx_div a b = Ok q /\ py_quot a b = Ok r /\ deqb (im q) (im r) = false /\ deqb (im q) (ddiv (double_of_Z 1) (double_of_Z 10)) = true.
Proof.
  cbv zeta. set (a := Cx _ _). set (b := Cx _ _).
  assert (X: match cx_div a b, py_quot a b with Ok q, Ok r => negb (deqb (im q) (im r)) && deqb (im q) (ddiv (double_of_Z 1) (double_of_Z 10)) | _, _ => false end = true)
    by (vm_compute; reflexivity).
  destruct (cx_div a b) as [q| | |], (py_quot a b) as [r| | |]; try discriminate X. exists q, r. apply andb_prop in X. destruct X as (X & Y).
  apply negb_true_iff in X. auto.
Qed.
Theorem tiny_differs : forall a, cx_div a (cx_of tiny) = Throw DivideByZero /\ exists r, py_quot a (cx_of tiny) = Ok r.
Proof.
  intros a. split; [apply tiny_div|]. unfold py_quot.
  replace (dleb (dabs (im (cx_of tiny))) (dabs (re (cx_of tiny)))) with true by (vm_compute; reflexivity).
  replace (deqb (dabs (re (cx_of tiny))) (double_of_Z 0)) with false by (vm_compute; reflexivity). eauto.
Qed.
Theorem huge_differs : let b := cx_of (double_of_Z (2 ^ 600)) in
  exists q r, cx_div (cx_of d1) b = Ok q /\ py_quot (cx_of d1) b = Ok r /\ deqb (re q) d0 = true /\ dltb d0 (re r) = true.
Proof.
  cbv zeta. set (b := cx_of (double_of_Z (2 ^ 600))).
  assert (X: match cx_div (cx_of d1) b, py_quot (cx_of d1) b with Ok q, Ok r => deqb (re q) d0 && dltb d0 (re r) | _, _ => false end = true)
    by (vm_compute; reflexivity).
  destruct (cx_div (cx_of d1) b) as [q| | |], (py_quot (cx_of d1) b) as [r| | |]; try discriminate X. exists q, r. apply andb_prop in X. tauto.
Qed.

(** ** Equality *)
Lemma deqb_val : forall x y, is_finite x = true -> is_finite y = true -> (deqb x y = true <-> B2R x = B2R y).
Proof. intros x y Fx Fy. unfold deqb. rewrite Beqb_correct by auto. destruct (Req_bool_spec (B2R x) (B2R y)); split; auto; discriminate. Qed.
Theorem python_equal : forall a b, cfinite a -> cfinite b -> py_equal a b = true -> cx_eqb a b = true.
Proof.
  intros a b (A1 & A2) (B1 & B2) H. unfold py_equal in H. apply andb_prop in H. destruct H as (H1 & H2). apply deqb_val in H1; auto. apply deqb_val in H2; auto.
  apply eqb_exactly; [split; auto|split; auto|]. rewrite H1, H2, !Rminus_diag_eq by auto. change rnd with (fun r => drnd r). cbv beta.
  rewrite round_0 by apply valid_rnd_N. rewrite Rabs_R0. split; apply bpow_gt_0.
Qed.
Theorem coarse_equal : forall a b, coarse (re a) -> coarse (im a) -> coarse (re b) -> coarse (im b) -> cx_eqb a b = py_equal a b.
Proof.
  intros a b A1 A2 B1 B2. apply Bool.eq_iff_eq_true. rewrite eqb_coarse by auto. unfold py_equal. rewrite andb_true_iff, !deqb_val by (apply A1 || apply A2 || apply B1 || apply B2). tauto.
Qed.
Theorem equal_differs : cx_eqb (cx_of d0) (cx_of half_eps) = true /\ py_equal (cx_of d0) (cx_of half_eps) = false /\
  cx_eqb (cx_of cinf) (cx_of cinf) = false /\ py_equal (cx_of cinf) (cx_of cinf) = true.
Proof. repeat split; vm_compute; reflexivity. Qed.
