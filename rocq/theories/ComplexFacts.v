(** Proofs about Complex arithmetic and comparison. *)
From Coq Require Import String Ascii ZArith Bool Lia Reals Lra List.
From Flocq Require Import Core BinarySingleNaN.
From Verif Require Import Outcome FloatModel FloatFacts FloatMore ComplexModel ComplexSpec ComplexFloat.
Import ListNotations.
Open Scope Z_scope.

#[local] Opaque double_of_Z dadd dsub dmul ddiv dopp dabs dltb epsilon.

Definition cfinite (a : Complex) : Prop := is_finite (re a) = true /\ is_finite (im a) = true.

(** ** Formulas *)

Lemma add_parts : forall a b, cfinite a -> cfinite b -> fits (B2R (re a) + B2R (re b)) -> fits (B2R (im a) + B2R (im b)) ->
  has (re (cx_add a b)) (rnd (B2R (re a) + B2R (re b))) /\ has (im (cx_add a b)) (rnd (B2R (im a) + B2R (im b))).
Proof. intros a b (A1 & A2) (B1 & B2) F G. split; apply add_has; auto; split; auto. Qed.

Lemma sub_parts : forall a b, cfinite a -> cfinite b -> fits (B2R (re a) - B2R (re b)) -> fits (B2R (im a) - B2R (im b)) ->
  has (re (cx_sub a b)) (rnd (B2R (re a) - B2R (re b))) /\ has (im (cx_sub a b)) (rnd (B2R (im a) - B2R (im b))).
Proof. intros a b (A1 & A2) (B1 & B2) F G. split; apply sub_has; auto; split; auto. Qed.

Lemma mul_parts : forall a b, cfinite a -> cfinite b ->
  let (ar, ai) := (B2R (re a), B2R (im a)) in let (br, bi) := (B2R (re b), B2R (im b)) in
  fits (ar * br) -> fits (ai * bi) -> fits (ar * bi) -> fits (ai * br) ->
  fits (rnd (ar * br) - rnd (ai * bi)) -> fits (rnd (ar * bi) + rnd (ai * br)) ->
  has (re (cx_mul a b)) (rnd (rnd (ar * br) - rnd (ai * bi))) /\ has (im (cx_mul a b)) (rnd (rnd (ar * bi) + rnd (ai * br))).
Proof.
  intros a b (A1 & A2) (B1 & B2) F1 F2 F3 F4 F5 F6. split.
  - apply sub_has; auto; apply mul_has; auto; split; auto.
  - apply add_has; auto; apply mul_has; auto; split; auto.
Qed.

Lemma div_parts : forall a b, cfinite a -> cfinite b -> cx_eqb b cx_zero = false ->
  let (ar, ai) := (B2R (re a), B2R (im a)) in let (br, bi) := (B2R (re b), B2R (im b)) in
  let den := rnd (rnd (br * br) + rnd (bi * bi)) in
  let x := rnd (rnd (ar * br) + rnd (ai * bi)) in let y := rnd (rnd (ai * br) - rnd (ar * bi)) in
  fits (br * br) -> fits (bi * bi) -> fits (rnd (br * br) + rnd (bi * bi)) -> den <> 0%R ->
  fits (ar * br) -> fits (ai * bi) -> fits (rnd (ar * br) + rnd (ai * bi)) -> fits (x / den) ->
  fits (ai * br) -> fits (ar * bi) -> fits (rnd (ai * br) - rnd (ar * bi)) -> fits (y / den) ->
  exists q, cx_div a b = Ok q /\ has (re q) (rnd (x / den)) /\ has (im q) (rnd (y / den)).
Proof.
  intros a b (A1 & A2) (B1 & B2) NZ. cbv zeta. intros. unfold cx_div, cx_check_zero. rewrite NZ. cbn [bind].
  eexists. split; [reflexivity|]. cbn [re im]. split.
  - apply div_has; auto; apply add_has; auto; apply mul_has; auto; split; auto.
  - apply div_has; auto; [apply sub_has|apply add_has]; auto; apply mul_has; auto; split; auto.
Qed.

(** ** Commutativity and involutions, for all doubles *)

Lemma add_comm : forall a b, cx_add a b = cx_add b a.
Proof. intros. unfold cx_add. rewrite (dadd_comm (re a)), (dadd_comm (im a)). auto. Qed.
Lemma mul_comm : forall a b, cx_mul a b = cx_mul b a.
Proof.
  intros. unfold cx_mul. rewrite (dmul_comm (re a) (re b)), (dmul_comm (im a) (im b)), (dmul_comm (re a) (im b)), (dmul_comm (im a) (re b)).
  rewrite (dadd_comm (dmul (im b) (re a))). auto.
Qed.
Lemma pos_same : forall a, cx_pos a = a.
Proof. reflexivity. Qed.
Lemma neg_neg : forall a, cx_neg (cx_neg a) = a.
Proof. intros [x y]. unfold cx_neg. cbn [re im]. rewrite !opp_opp. auto. Qed.
Lemma conj_conj : forall a, cx_conjugate (cx_conjugate a) = a.
Proof. intros [x y]. unfold cx_conjugate. cbn [re im]. rewrite !opp_opp. auto. Qed.
Lemma neg_parts : forall a, cfinite a -> has (re (cx_neg a)) (- B2R (re a)) /\ has (im (cx_neg a)) (- B2R (im a)).
Proof. intros a (A & B). split; apply opp_has; split; auto. Qed.
Lemma conj_parts : forall a, cfinite a -> re (cx_conjugate a) = re a /\ has (im (cx_conjugate a)) (- B2R (im a)).
Proof. intros a (A & B). split; auto. apply opp_has; split; auto. Qed.

(** ** == *)

Lemma eqb_near : forall a b, cx_eqb a b = near (re a) (re b) && near (im a) (im b).
Proof. reflexivity. Qed.

Lemma eqb_exactly : forall a b, cfinite a -> cfinite b ->
  cx_eqb a b = true <-> (Rabs (rnd (B2R (re a) - B2R (re b))) < bpow radix2 (-52))%R /\ (Rabs (rnd (B2R (im a) - B2R (im b))) < bpow radix2 (-52))%R.
Proof. intros a b (A1 & A2) (B1 & B2). rewrite eqb_near, andb_true_iff, !near_finite; auto. tauto. Qed.

Lemma eqb_sym : forall a b, cx_eqb a b = cx_eqb b a.
Proof. intros. rewrite !eqb_near. rewrite (near_sym (re a)), (near_sym (im a)). auto. Qed.

Lemma eqb_refl : forall a, cx_eqb a a = true <-> cfinite a.
Proof. intros a. rewrite eqb_near, !near_refl, andb_true_iff. reflexivity. Qed.

Lemma eqb_coarse : forall a b, coarse (re a) -> coarse (im a) -> coarse (re b) -> coarse (im b) ->
  cx_eqb a b = true <-> B2R (re a) = B2R (re b) /\ B2R (im a) = B2R (im b).
Proof. intros. rewrite eqb_near, andb_true_iff, !near_coarse; auto. tauto. Qed.

(** On such values it is an equivalence relation. *)
Lemma eqb_coarse_trans : forall a b c, (forall z, In z [a; b; c] -> coarse (re z) /\ coarse (im z)) ->
  cx_eqb a b = true -> cx_eqb b c = true -> cx_eqb a c = true.
Proof.
  intros a b c H A B. destruct (H a), (H b), (H c); cbn; auto.
  apply eqb_coarse in A; auto. apply eqb_coarse in B; auto. apply eqb_coarse; auto. destruct A, B. split; congruence.
Qed.

(** ** Division by zero *)

Lemma div_throws : forall a b, cfinite b ->
  cx_div a b = Throw DivideByZero <-> (Rabs (B2R (re b)) < bpow radix2 (-52) /\ Rabs (B2R (im b)) < bpow radix2 (-52))%R.
Proof.
  intros a b (B1 & B2). unfold cx_div, cx_check_zero. rewrite eqb_near. cbn [re im cx_zero cx_of].
  rewrite <- !near_zero by auto. rewrite <- andb_true_iff. destruct (near (re b) d0 && near (im b) d0); cbn [bind]; split; auto; discriminate.
Qed.
Lemma div_total : forall a b, cx_div a b = Throw DivideByZero \/ exists q, cx_div a b = Ok q.
Proof. intros a b. unfold cx_div, cx_check_zero. destruct (cx_eqb b cx_zero); cbn [bind]; eauto. Qed.
Lemma div_zero_throws : forall a b, has (re b) 0 -> has (im b) 0 -> cx_div a b = Throw DivideByZero.
Proof.
  intros a b (F1 & V1) (F2 & V2). apply div_throws; [split; auto|]. rewrite V1, V2, Rabs_R0. split; apply bpow_gt_0.
Qed.
Lemma div_nonfinite : forall a b, ~ cfinite b -> exists q, cx_div a b = Ok q.
Proof.
  intros a b N. unfold cx_div, cx_check_zero. rewrite eqb_near.
  destruct (is_finite (re b)) eqn:F1.
  - destruct (is_finite (im b)) eqn:F2; [exfalso; apply N; split; auto|]. cbn [cx_zero cx_of re im].
    rewrite (near_nan (im b)) by auto. rewrite andb_false_r. cbn [bind]. eauto.
  - cbn [cx_zero cx_of re im]. rewrite (near_nan (re b)) by auto. cbn [andb bind]. eauto.
Qed.

(** ** Gaussian integers *)

Definition gauss (z : Complex) (m n : Z) : Prop := int_val (re z) m /\ int_val (im z) n.

Lemma gauss_add : forall a b m n p q, gauss a m n -> gauss b p q -> small (m + p) -> small (n + q) -> gauss (cx_add a b) (m + p) (n + q).
Proof. intros a b m n p q (A & B) (C & D) S T. split; apply add_int; auto. Qed.
Lemma gauss_sub : forall a b m n p q, gauss a m n -> gauss b p q -> small (m - p) -> small (n - q) -> gauss (cx_sub a b) (m - p) (n - q).
Proof. intros a b m n p q (A & B) (C & D) S T. split; apply sub_int; auto. Qed.
Lemma gauss_mul : forall a b m n p q, gauss a m n -> gauss b p q ->
  small (m * p) -> small (n * q) -> small (m * q) -> small (n * p) -> small (m * p - n * q) -> small (m * q + n * p) ->
  gauss (cx_mul a b) (m * p - n * q) (m * q + n * p).
Proof.
  intros a b m n p q (A & B) (C & D) S1 S2 S3 S4 S5 S6. split.
  - apply sub_int; auto; apply mul_int; auto.
  - apply add_int; auto; apply mul_int; auto.
Qed.
Lemma gauss_neg : forall a m n, gauss a m n -> gauss (cx_neg a) (- m) (- n).
Proof. intros a m n (A & B). split; unfold int_val; rewrite opp_IZR; apply opp_has; auto. Qed.
Lemma gauss_conj : forall a m n, gauss a m n -> gauss (cx_conjugate a) m (- n).
Proof. intros a m n (A & B). split; auto. unfold int_val; rewrite opp_IZR; apply opp_has; auto. Qed.
Lemma gauss_eqb : forall a b m n p q, gauss a m n -> gauss b p q -> cx_eqb a b = true <-> m = p /\ n = q.
Proof.
  intros a b m n p q (A & B) (C & D). rewrite eqb_coarse by (eapply int_coarse; eauto).
  destruct A as (_ & ->), B as (_ & ->), C as (_ & ->), D as (_ & ->). split.
  - intros (H & K). split; apply eq_IZR; auto.
  - intros (-> & ->). auto.
Qed.
(** An exact quotient is found exactly. *)
Lemma gauss_div : forall a b k l p q, p <> 0 \/ q <> 0 -> gauss a (k * p - l * q) (k * q + l * p) -> gauss b p q ->
  let m := k * p - l * q in let n := k * q + l * p in let d := p * p + q * q in
  small k -> small l -> small (p * p) -> small (q * q) -> small d ->
  small (m * p) -> small (n * q) -> small (n * p) -> small (m * q) -> small (k * d) -> small (l * d) ->
  exists r, cx_div a b = Ok r /\ gauss r k l.
Proof.
  intros a b k l p q NZ GA GB. cbv zeta. intros Sk Sl S1 S2 S3 S4 S5 S6 S7 S8 S9.
  assert (E : cx_eqb b cx_zero = false).
  { apply not_true_is_false. intros E. assert (G0 : gauss cx_zero 0 0) by (split; apply zero_has).
    apply (gauss_eqb b cx_zero p q 0 0 GB G0) in E. lia. }
  unfold cx_div, cx_check_zero. rewrite E. cbn [bind]. eexists. split; [reflexivity|].
  destruct GA as (A & B), GB as (C & D).
  assert (DEN : int_val (dadd (dmul (re b) (re b)) (dmul (im b) (im b))) (p * p + q * q)).
  { apply add_int; auto; apply mul_int; auto. }
  assert (N : p * p + q * q <> 0) by nia.
  split; cbn [re im].
  - apply quot_int with (n := p * p + q * q); auto.
    replace (k * (p * p + q * q)) with ((k * p - l * q) * p + (k * q + l * p) * q) by ring.
    apply add_int; [apply mul_int; auto|apply mul_int; auto|].
    replace ((k * p - l * q) * p + (k * q + l * p) * q) with (k * (p * p + q * q)) by ring. auto.
  - apply quot_int with (n := p * p + q * q); auto.
    replace (l * (p * p + q * q)) with ((k * q + l * p) * p - (k * p - l * q) * q) by ring.
    apply sub_int; [apply mul_int; auto|apply mul_int; auto|].
    replace ((k * q + l * p) * p - (k * p - l * q) * q) with (l * (p * p + q * q)) by ring. auto.
Qed.

(** ** Identities *)

Lemma div_by_self : forall b, cfinite b ->
  let x := B2R (re b) in let y := B2R (im b) in
  (bpow radix2 (-52) <= Rabs x \/ bpow radix2 (-52) <= Rabs y)%R ->
  fits (x * x) -> fits (y * y) -> fits (rnd (x * x) + rnd (y * y)) -> cx_div b b = Ok (Cx d1 d0).
Proof.
  intros b (B1 & B2). cbv zeta. intros L F1 F2 F3. unfold cx_div, cx_check_zero.
  replace (cx_eqb b cx_zero) with false.
  2:{ symmetry. apply not_true_is_false. intros E. rewrite eqb_near, andb_true_iff in E. cbn [cx_zero cx_of re im] in E.
      rewrite !near_zero in E by auto. lra. }
  cbn [bind]. f_equal.
  assert (HX : has (dmul (re b) (re b)) (rnd (B2R (re b) * B2R (re b)))) by (apply mul_has; auto; split; auto).
  assert (HY : has (dmul (im b) (im b)) (rnd (B2R (im b) * B2R (im b)))) by (apply mul_has; auto; split; auto).
  assert (HD : has (dadd (dmul (re b) (re b)) (dmul (im b) (im b))) (rnd (rnd (B2R (re b) * B2R (re b)) + rnd (B2R (im b) * B2R (im b))))) by (apply add_has; auto).
  assert (G : forall e, -1074 <= e -> generic_format radix2 dfexp (bpow radix2 e)).
  { intros e He. apply generic_format_bpow. unfold dfexp, SpecFloat.fexp, SpecFloat.emin. lia. }
  assert (SQ : forall r, (0 <= rnd (r * r))%R).
  { intros r. unfold rnd. rewrite <- (round_0 radix2 (SpecFloat.fexp 53 1024) ZnearestE). apply drnd_le. nra. }
  assert (SB : forall r, (bpow radix2 (-52) <= Rabs r)%R -> (bpow radix2 (-104) <= rnd (r * r))%R).
  { intros r H. unfold rnd. rewrite <- (round_generic radix2 (SpecFloat.fexp 53 1024) ZnearestE (bpow radix2 (-104))) by (apply G; lia).
    apply drnd_le. change (-104)%Z with (-52 + -52)%Z. rewrite bpow_plus. rewrite <- (Rabs_pos_eq (r * r)) by nra. rewrite Rabs_mult.
    apply Rmult_le_compat; auto; apply bpow_ge_0. }
  assert (POS : (bpow radix2 (-104) <= rnd (rnd (B2R (re b) * B2R (re b)) + rnd (B2R (im b) * B2R (im b))))%R).
  { unfold rnd at 1. rewrite <- (round_generic radix2 (SpecFloat.fexp 53 1024) ZnearestE (bpow radix2 (-104))) by (apply G; lia).
    apply drnd_le. pose proof (SQ (B2R (re b))). pose proof (SQ (B2R (im b))). destruct L as [L|L]; apply SB in L; lra. }
  assert (P0 := bpow_gt_0 radix2 (-104)).
  destruct HD as (FD & VD).
  assert (FI : is_finite (dmul (im b) (re b)) = true).
  { assert (K : fits (B2R (im b) * B2R (re b))).
    { unfold fits. assert (M : forall u v, (Rabs u <= Rabs v)%R -> (Rabs (rnd (v * v)) < bpow radix2 1024)%R -> (Rabs (rnd (u * v)) < bpow radix2 1024)%R).
      { intros u v Huv H. eapply Rle_lt_trans; [|exact H].
        rewrite (Rabs_pos_eq (rnd (v * v))) by apply SQ.
        assert (W : (Rabs (u * v) <= v * v)%R) by (rewrite <- (Rabs_pos_eq (v * v)) by nra; rewrite !Rabs_mult; apply Rmult_le_compat_r; [apply Rabs_pos|auto]).
        apply Rabs_le. apply Rabs_le_inv in W. unfold rnd. split.
        - rewrite <- round_NE_opp. apply drnd_le. lra.
        - apply drnd_le. lra. }
      destruct (Rle_dec (Rabs (B2R (im b))) (Rabs (B2R (re b)))) as [Q|Q].
      - apply M; auto.
      - rewrite Rmult_comm. apply M; auto. lra. }
    refine (proj1 (mul_has (im b) (re b) (B2R (im b)) (B2R (re b)) _ _ K)); split; auto. }
  f_equal.
  - apply div_self; auto. rewrite VD. lra.
  - rewrite (dmul_comm (re b) (im b)). rewrite (sub_self _ FI). apply div_zero; auto. rewrite VD. lra.
Qed.

Lemma has_zero_add : forall x y r, has x r -> has y 0 -> has (dadd x y) r.
Proof.
  intros x y r Hx Hy. destruct (has_fits x r Hx) as (F & V). 
  assert (H : has (dadd x y) (rnd (r + 0))) by (apply add_has; auto; rewrite Rplus_0_r; auto).
  rewrite Rplus_0_r, V in H. exact H.
Qed.
Lemma has_zero_sub : forall x y r, has x r -> has y 0 -> has (dsub x y) r.
Proof.
  intros x y r Hx Hy. destruct (has_fits x r Hx) as (F & V). 
  assert (H : has (dsub x y) (rnd (r - 0))) by (apply sub_has; auto; rewrite Rminus_0_r; auto).
  rewrite Rminus_0_r, V in H. exact H.
Qed.
Lemma has_mul_zero : forall x r, has x r -> has (dmul x d0) 0.
Proof.
  intros x r Hx. assert (Z : rnd (r * 0) = 0%R) by (rewrite Rmult_0_r; apply round_0, valid_rnd_N).
  assert (F : fits (r * 0)) by (unfold fits; rewrite Z, Rabs_R0; apply bpow_gt_0).
  pose proof (mul_has x d0 r 0 Hx zero_has F) as H. rewrite Z in H. exact H.
Qed.
Lemma has_mul_one : forall x r, has x r -> has (dmul x d1) r.
Proof. intros x r Hx. unfold d1. rewrite mul_1_r. auto. Qed.
Lemma has_div_one : forall x y r, has x r -> has y 1 -> has (ddiv x y) r.
Proof.
  intros x y r Hx Hy. destruct (has_fits x r Hx) as (F & V).
  assert (Q : (r / 1 = r)%R) by field.
  assert (H : has (ddiv x y) (rnd (r / 1))) by (apply div_has; [auto|auto|lra|rewrite Q; auto]).
  rewrite Q, V in H. exact H.
Qed.
Lemma mul_by_one : forall a, cfinite a -> has (re (cx_mul a (cx_of d1))) (B2R (re a)) /\ has (im (cx_mul a (cx_of d1))) (B2R (im a)).
Proof.
  intros a (A & B). unfold cx_mul, cx_of. cbn [re im]. split.
  - apply has_zero_sub; [apply has_mul_one; split; auto|apply has_mul_zero with (B2R (im a)); split; auto].
  - rewrite dadd_comm. apply has_zero_add; [apply has_mul_one; split; auto|apply has_mul_zero with (B2R (re a)); split; auto].
Qed.
Lemma div_by_one : forall a, cfinite a -> exists q, cx_div a (cx_of d1) = Ok q /\ has (re q) (B2R (re a)) /\ has (im q) (B2R (im a)).
Proof.
  intros a (A & B). unfold cx_div, cx_check_zero.
  replace (cx_eqb (cx_of d1) cx_zero) with false.
  2:{ symmetry. apply not_true_is_false. intros E. apply (gauss_eqb (cx_of d1) cx_zero 1 0 0 0) in E; [lia| |].
      - split; [apply one_has|apply zero_has].
      - split; apply zero_has. }
  cbn [bind]. eexists. split; [reflexivity|]. unfold cx_of. cbn [re im].
  assert (D : has (dadd (dmul d1 d1) (dmul d0 d0)) 1).
  { apply has_zero_add; [apply has_mul_one, one_has|apply has_mul_zero with 0%R; apply zero_has]. }
  split; (apply has_div_one; [|exact D]).
  - apply has_zero_add; [apply has_mul_one; split; auto|apply has_mul_zero with (B2R (im a)); split; auto].
  - apply has_zero_sub; [apply has_mul_one; split; auto|apply has_mul_zero with (B2R (re a)); split; auto].
Qed.
Lemma add_zero : forall a, cfinite a -> has (re (cx_add a cx_zero)) (B2R (re a)) /\ has (im (cx_add a cx_zero)) (B2R (im a)).
Proof. intros a (A & B). split; apply has_zero_add; try apply zero_has; split; auto. Qed.
Lemma sub_same : forall a, cfinite a -> cx_sub a a = cx_zero.
Proof. intros a (A & B). unfold cx_sub. rewrite !sub_self by auto. auto. Qed.

(** ** Compound assignment *)

Lemma assign_ok : forall op a b r, op a b = Ok r -> cx_assign op a b = (Ok tt, r).
Proof. intros op a b r H. unfold cx_assign. rewrite H. auto. Qed.
Lemma assign_throw : forall op a b e, op a b = Throw e -> cx_assign op a b = (Throw e, a).
Proof. intros op a b e H. unfold cx_assign. rewrite H. auto. Qed.

(** ** pow *)

Lemma pow_zero_exponent : forall m b e, cx_eqb e cx_zero = true -> cx_pow m b e = Ok (Cx d1 d0).
Proof. intros m b e H. unfold cx_pow. change (cx_of d0) with cx_zero. rewrite H. auto. Qed.
Lemma pow_zero_base : forall m b e, cx_eqb e cx_zero = false -> cx_eqb b cx_zero = true -> cx_pow m b e = Throw MathDomain.
Proof. intros m b e H K. unfold cx_pow. change (cx_of d0) with cx_zero. rewrite H, K. auto. Qed.
Lemma pow_polar : forall m b e, cx_eqb e cx_zero = false -> cx_eqb b cx_zero = false ->
  let r := m_hypot m (re b) (im b) in let phi := m_atan2 m (im b) (re b) in
  let rho := dmul (m_pow m r (re e)) (m_exp m (dmul (dopp phi) (im e))) in
  let theta := dadd (dmul (m_log m r) (im e)) (dmul phi (re e)) in
  cx_pow m b e = Ok (Cx (dmul rho (m_cos m theta)) (dmul rho (m_sin m theta))).
Proof. intros m b e H K. unfold cx_pow. change (cx_of d0) with cx_zero. rewrite H, K. auto. Qed.
