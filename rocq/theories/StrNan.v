(** Proofs about when [to_decimal] gives NaN. *)
From Coq Require Import String Ascii ZArith List Bool Lia Reals Lra.
From Flocq Require Import Core BinarySingleNaN Relative.
From Verif Require Import Outcome IntModel IntSpec ListModel ListSpec ListFacts FloatModel FloatFacts FloatMore StrModel StrSpec StrFacts StrMore StrNum StrDec StrFloat StrError StrNanSpec.
Import ListNotations.
Open Scope Z_scope.

Lemma over_unsigned : forall (x : double) s, B2SF x = binary_overflow 53 1024 mode_NE s -> s = false -> unsigned x.
Proof. intros x s H ->. cbn in H. destruct x as [| [] | |]; cbn in H; try discriminate. split; reflexivity. Qed.

Lemma mul_unsigned : forall x y, unsigned x -> unsigned y -> ~ (x = plus_zero /\ y = plus_inf) -> ~ (x = plus_inf /\ y = plus_zero) ->
  unsigned (dmul x y).
Proof.
  intros x y (Nx & Sx) (Ny & Sy) C1 C2.
  destruct (is_finite x && is_finite y) eqn:FF.
  - pose proof (Bmult_correct 53 1024 dprec_pos dprec_emax mode_NE x y) as C. rewrite Sx, Sy in C. cbn [xorb] in C.
    destruct (Rlt_bool _ _).
    + destruct C as (_ & F & S). rewrite FF in F. assert (N: is_nan (dmul x y) = false) by (unfold dmul; destruct (Bmult mode_NE x y); auto; discriminate).
      split; auto.
    + eapply over_unsigned; eauto.
  - destruct x as [[]|[]| |[]], y as [[]|[]| |[]]; try discriminate; try (split; reflexivity); exfalso; auto.
Qed.

Lemma div_unsigned : forall x y, unsigned x -> unsigned y -> y <> plus_zero -> ~ (x = plus_inf /\ y = plus_inf) -> unsigned (ddiv x y).
Proof.
  intros x y (Nx & Sx) (Ny & Sy) C1 C2.
  destruct (is_finite x && is_finite y) eqn:FF.
  - apply andb_prop in FF as (Fx & Fy).
    assert (Y: B2R y <> 0%R).
    { intros Y. destruct y as [[]| | |[] m e B]; try discriminate; [auto|]. cbn in Y. apply eq_0_F2R in Y. discriminate. }
    pose proof (Bdiv_correct 53 1024 dprec_pos dprec_emax mode_NE x y Y) as C. rewrite Sx, Sy in C. cbn [xorb] in C.
    destruct (Rlt_bool _ _).
    + destruct C as (_ & F & S). rewrite Fx in F. assert (N: is_nan (ddiv x y) = false) by (unfold ddiv; destruct (Bdiv mode_NE x y); auto; discriminate).
      split; auto.
    + eapply over_unsigned; eauto.
  - destruct x as [[]|[]| |[]], y as [[]|[]| |[]]; try discriminate; try (split; reflexivity); exfalso; auto.
Qed.

Lemma unsigned_nonneg : forall x, unsigned x -> is_finite x = true -> (0 <= B2R x)%R.
Proof. intros [[]|[]| |[] m e B] (N & S) F; try discriminate; cbn; try lra. apply F2R_ge_0. cbn. lia. Qed.

Lemma add_unsigned : forall x y, unsigned x -> unsigned y -> unsigned (dadd x y).
Proof.
  intros x y Ux Uy. pose proof Ux as (Nx & Sx). pose proof Uy as (Ny & Sy).
  destruct (is_finite x && is_finite y) eqn:FF.
  - apply andb_prop in FF as (Fx & Fy).
    pose proof (Bplus_correct 53 1024 dprec_pos dprec_emax mode_NE x y Fx Fy) as C. rewrite Sx, Sy in C.
    pose proof (unsigned_nonneg _ Ux Fx). pose proof (unsigned_nonneg _ Uy Fy).
    destruct (Rlt_bool _ _).
    + destruct C as (_ & F & S). assert (N: is_nan (dadd x y) = false) by (unfold dadd; destruct (Bplus mode_NE x y); auto; discriminate).
      split; auto. unfold dadd. rewrite S. destruct (Rcompare_spec (B2R x + B2R y) 0); auto. lra.
    + destruct C as (C & _). eapply over_unsigned; eauto.
  - destruct x as [[]|[]| |[]], y as [[]|[]| |[]]; try discriminate; split; reflexivity.
Qed.

Lemma small_unsigned : forall z, 0 <= z -> unsigned (double_of_Z z) /\ (1 <= z -> double_of_Z z <> plus_zero).
Proof.
  intros z H.
  pose proof (binary_normalize_correct 53 1024 dprec_pos dprec_emax mode_NE z 0 false) as C. cbv zeta in C.
  replace (F2R {| Fnum := z; Fexp := 0 |}) with (IZR z) in C by (unfold F2R; simpl; lra).
  assert (GG: (0 <= IZR z)%R) by (apply IZR_le; lia).
  fold (double_of_Z z) in C.
  destruct (Rlt_bool _ _) eqn:L.
  - destruct C as (V & F & S). split.
    + split; [destruct (double_of_Z z); auto; discriminate|]. rewrite S. destruct (Rcompare_spec (IZR z) 0); auto. lra.
    + intros Z1 Y. rewrite Y in V. cbn in V.
      assert (1 <= round radix2 (SpecFloat.fexp 53 1024) ZnearestE (IZR z))%R; [|unfold ZnearestE in *; lra].
      assert (Valid_exp (SpecFloat.fexp 53 1024)) by (apply (fexp_correct 53 1024 dprec_pos)).
      apply round_ge_generic; [auto|apply valid_rnd_N| |apply IZR_le; lia].
      replace 1%R with (bpow radix2 0) by reflexivity. apply generic_format_bpow. vm_compute. discriminate.
  - assert (X: Rlt_bool (IZR z) 0 = false) by (destruct (Rlt_bool_spec (IZR z) 0); auto; lra). rewrite X in C.
    split; [eapply over_unsigned; eauto|]. intros _ Y. rewrite Y in C. discriminate.
Qed.

#[local] Opaque double_of_Z dadd dmul ddiv.

Lemma accumulated_unsigned : forall ds, digitsb ds -> unsigned (accumulated ds).
Proof.
  intros ds. induction ds as [|d ds IH] using rev_ind; intros F.
  - apply (small_unsigned 0). lia.
  - apply Forall_app in F as (F & D). inversion D as [|? ? D1 _]; subst. rewrite <- accumulated_snoc. unfold push_digit.
    assert (T: double_of_Z 10 <> plus_zero /\ double_of_Z 10 <> plus_inf).
    { destruct (of_int_exact 10) as (R & Fi); [lia|]. split; intros E; rewrite E in *; [cbn in R; lra|discriminate]. }
    apply add_unsigned; [|apply small_unsigned; lia]. apply mul_unsigned; auto; [apply small_unsigned; lia|tauto|tauto].
Qed.

Lemma signed_nan : forall neg x, signed neg x = B754_nan <-> x = B754_nan.
Proof. intros [] x; [|tauto]. cbn. unfold dopp. destruct x; cbn; split; intros H; congruence. Qed.

Lemma not_nan : forall x, unsigned x -> x <> B754_nan.
Proof. intros x (N & _) ->. discriminate. Qed.

Section Lit.
Variables (pow : double -> double -> double) (s : list ascii) (neg : bool) (I F : list Z) (eneg : bool) (E : list Z).
Hypothesis PS : pow_sane pow.
Hypothesis L : len s <= INT_MAX.
Hypothesis D : dec_literal s neg I F eneg E.
Hypothesis NE : positional 10 E <= INT_MAX.
Let A := accumulated (I ++ F).
Let P := pow (double_of_Z 10) (double_of_Z (Z.of_nat (length F))).
Let Q := pow (double_of_Z 10) (signed eneg (double_of_Z (positional 10 E))).

Lemma E_exact : B2R (double_of_Z (positional 10 E)) = IZR (positional 10 E) /\ is_finite (double_of_Z (positional 10 E)) = true.
Proof. apply of_int_exact. pose proof (literal_digits _ _ _ _ _ _ D) as (_ & DE). pose proof (positional_nn _ DE). unfold INT_MAX in NE. lia. Qed.

Lemma Q_unsigned : unsigned Q.
Proof. apply PS. rewrite finite_signed. apply E_exact. Qed.

Lemma len_F : len F <= INT_MAX.
Proof.
  apply Z.le_trans with (len s); auto.
  destruct D as (b1 & sg & mt & et & b2 & -> & _ & _ & _ & M & _). rewrite !len_app.
  assert (K: forall t ds, digits_text 10 t ds -> len ds = len t).
  { intros t ds H. induction H as [|c d t ds _ H IH]; auto. rewrite !len_cons. lia. }
  pose proof (len_nonneg _ b1). pose proof (len_nonneg _ sg). pose proof (len_nonneg _ et). pose proof (len_nonneg _ b2). pose proof (len_nonneg _ mt).
  destruct M as [(_ & -> & _)|[(_ & i & f & -> & _ & M)|(_ & _ & f & -> & M)]].
  - change (len (@nil Z)) with 0. lia.
  - apply K in M. rewrite len_app, len_cons in *. pose proof (len_nonneg _ i). lia.
  - apply K in M. rewrite len_cons in *. lia.
Qed.

Lemma nan_cases : str_to_decimal pow s = Ok B754_nan <->
  (A = plus_inf /\ P = plus_inf) \/ (ddiv A P = plus_zero /\ Q = plus_inf) \/ (ddiv A P = plus_inf /\ Q = plus_zero).
Proof.
  pose proof len_F as LF. rewrite (to_decimal_value pow s neg I F eneg E) by auto.
  unfold computed. rewrite !pm_mul. fold A P Q. pose proof (literal_digits _ _ _ _ _ _ D) as (DI & DE).
  pose proof (accumulated_unsigned _ DI) as UA. fold A in UA.
  destruct (of_int_exact (Z.of_nat (length F))) as (Rc & Fc); [unfold len, INT_MAX in LF; lia|].
  destruct (PS _ Fc) as (UP & NP). fold P in UP, NP. rewrite Rc in NP. specialize (NP ltac:(apply IZR_le; lia)).
  pose proof Q_unsigned as UQ.
  assert (NN: Ok (signed neg (dmul (ddiv A P) Q)) = Ok B754_nan <-> dmul (ddiv A P) Q = B754_nan).
  { split; intros Y; [injection Y as Y; apply signed_nan in Y; auto|rewrite Y; f_equal; apply signed_nan; auto]. }
  rewrite NN. clear NN.
  assert (Da: {A = plus_inf /\ P = plus_inf} + {~ (A = plus_inf /\ P = plus_inf)}).
  { destruct A as [[]|[]| |]; try (right; intros (X & _); discriminate). destruct P as [[]|[]| |]; try (right; intros (_ & X); discriminate). left. auto. }
  destruct Da as [(-> & ->)|Na].
  { split; [auto|]. intros _. Transparent ddiv dmul. reflexivity. }
  pose proof (div_unsigned _ _ UA UP NP Na) as UD. split.
  - intros H. right.
    destruct (ddiv A P) as [sd|sd| |sd md ed Bd] eqn:ED; destruct UD as (ND & SD); try discriminate; cbn in SD; subst;
    destruct Q as [sq|sq| |sq mq eq Bq] eqn:EQ; destruct UQ as (NQ & SQ); try discriminate; cbn in SQ; subst; auto;
    exfalso; revert H; apply not_nan; apply mul_unsigned; try (split; reflexivity); intros (X & Y); discriminate.
  - intros [X|[(-> & ->)|(-> & ->)]]; [tauto| |]; reflexivity.
Qed.

Lemma nan_usual : forall K, (1 <= K <= 2)%R -> pow_within K pow -> len (I ++ F) <= 300 ->
  (str_to_decimal pow s = Ok B754_nan <-> positional 10 (I ++ F) = 0 /\ Q = plus_inf).
Proof.
  intros K HK PW N. rewrite nan_cases.
  pose proof (literal_digits _ _ _ _ _ _ D) as (DI & DE). pose proof (positional_nn _ DI) as X0.
  assert (N': (length (I ++ F) <= 300)%nat) by (unfold len in N; lia).
  assert (NF: 0 <= Z.of_nat (length F) <= 300) by (rewrite app_length in N'; lia).
  destruct (accumulated_near _ DI N') as (FA & W). fold A in FA, W. pose proof (accumulated_unsigned _ DI) as UA. fold A in UA.
  destruct (of_int_exact (Z.of_nat (length F))) as (Rc & Fc); [lia|].
  destruct (PW _ (Z.of_nat (length F)) Fc Rc ltac:(lia)) as (F1 & W1). rewrite powerRZ_pos in W1 by lia. fold P in F1, W1.
  destruct (PS _ Fc) as (UP & NP). fold P in UP, NP. rewrite Rc in NP. specialize (NP ltac:(apply IZR_le; lia)).
  assert (AI: A <> plus_inf) by (intros Y; rewrite Y in FA; discriminate).
  set (n := length (I ++ F)) in *. set (X := IZR (positional 10 (I ++ F))) in *.
  set (c := IZR (10 ^ Z.of_nat (length F))) in *. assert (1 <= c <= bpow radix2 1000)%R as Cb by (apply ten_le_300; auto).
  assert (C0: (0 < c)%R) by lra. pose proof (within_pos _ _ _ (proj1 HK) C0 W1) as P1.
  pose proof (pow1u (2 * n)) as K1. pose proof (pow1u_2 (2 * n) ltac:(lia)) as K2.
  pose proof (div_unsigned A P UA UP NP ltac:(tauto)) as UD.
  assert (ZZ: is_finite (ddiv A P) = true /\ (ddiv A P = plus_zero <-> positional 10 (I ++ F) = 0)).
  { destruct (Z.eq_dec (positional 10 (I ++ F)) 0) as [Z0|Z0].
    - assert (XX: X = 0%R) by (unfold X; rewrite Z0; auto).
      assert (A0: B2R A = 0%R). { rewrite XX in W. destruct W. nra. }
      destruct (div_ok A P FA) as (V1 & V2 & _); [lra|rewrite A0; unfold Rdiv; rewrite Rmult_0_l; apply (range_int 0); lia|].
      rewrite A0 in V1. unfold Rdiv in V1. rewrite Rmult_0_l in V1. rewrite (drnd_int 0) in V1 by lia. split; auto. split; auto. intros _.
      destruct (ddiv A P) as [[]|[]| |[] m e B]; destruct UD as (ND & SD); try discriminate; auto.
      cbn in V1. apply eq_0_F2R in V1. discriminate.
    - assert (X1: (1 <= X)%R) by (apply IZR_le; lia).
      assert (X2: (X <= bpow radix2 1000)%R).
      { eapply Rle_trans; [|apply (ten_le_300 (Z.of_nat n)); lia]. apply IZR_le. apply Z.lt_le_incl. apply positional_lt; auto. }
      assert (QB: (bpow radix2 (-1000) <= X / c <= bpow radix2 1000)%R).
      { replace (-1000) with (- (1000)) by lia. rewrite bpow_opp. split.
        - apply Rle_trans with (/ c)%R; [apply Rinv_le; lra|]. unfold Rdiv. rewrite <- (Rmult_1_l (/ c)) at 1. apply Rmult_le_compat_r; auto. left. apply Rinv_0_lt_compat. lra.
        - apply Rle_trans with X; auto. apply (Rmult_le_reg_r c); [lra|]. unfold Rdiv. rewrite Rmult_assoc, Rinv_l by lra. nra. }
      assert (V0: within ((1 + u) ^ (2 * n) * K) (B2R A / B2R P) (X / c)) by (apply within_div; auto; lra).
      assert (KA: (1 <= (1 + u) ^ (2 * n) * K <= 32)%R) by nra.
      destruct (round_near _ _ _ KA QB V0) as (I1 & V). destruct (div_ok A P FA ltac:(lra) I1) as (V1 & V2 & _). rewrite <- V1 in V.
      split; auto. split; [|tauto]. intros Y. exfalso. rewrite Y in V. pose proof (bpow_gt_0 radix2 (-1000)).
      destruct V as (V & _). cbn [plus_zero B2R] in V. rewrite Rmult_0_l in V. lra. }
  destruct ZZ as (ZF & ZZ). rewrite ZZ. split.
  - intros [(Y & _)|[Y|(Y & _)]]; [tauto|auto|]. rewrite Y in ZF. discriminate.
  - auto.
Qed.

Lemma nan_never : forall K, (1 <= K <= 2)%R -> pow_within K pow -> len (I ++ F) <= 300 -> positional 10 E <= 300 ->
  str_to_decimal pow s <> Ok B754_nan.
Proof.
  intros K HK PW N N2 Y. apply (nan_usual K) in Y; auto. destruct Y as (_ & Y).
  pose proof (literal_digits _ _ _ _ _ _ D) as (_ & DE). pose proof (positional_nn _ DE). destruct E_exact as (Re & Fe).
  destruct (PW (signed eneg (double_of_Z (positional 10 E))) (if eneg then - positional 10 E else positional 10 E)) as (F2 & _).
  { rewrite finite_signed. auto. } { rewrite B2R_signed, Re. destruct eneg; auto. symmetry. apply opp_IZR. } { destruct eneg; lia. }
  fold Q in F2. rewrite Y in F2. discriminate.
Qed.
End Lit.

Lemma sample_pow_sane : pow_sane sample_pow.
Proof.
  intros x Fx. unfold sample_pow. destruct (Z.leb_spec 0 (Btrunc x)) as [P|P].
  - assert (0 < 10 ^ Btrunc x) by (apply Z.pow_pos_nonneg; lia). destruct (small_unsigned (10 ^ Btrunc x)) as (U & N); [lia|].
    split; auto. intros _. apply N. lia.
  - assert (0 < 10 ^ (- Btrunc x)) by (apply Z.pow_pos_nonneg; lia). destruct (small_unsigned (10 ^ (- Btrunc x))) as (U & N); [lia|].
    split.
    + apply div_unsigned; auto; [apply small_unsigned; lia|apply N; lia|]. intros (Y & _).
      destruct (of_int_exact 1) as (_ & F1); [lia|]. rewrite Y in F1. discriminate.
    + intros G. exfalso. assert (IZR (Btrunc x) < 0)%R by (apply IZR_lt; lia).
      rewrite (Btrunc_correct 53 1024 dprec_emax x) in *.
      assert (0 <= round radix2 (FIX_exp 0) Ztrunc (B2R x))%R; [|lra].
      apply round_ge_generic; auto; [apply FIX_exp_valid|apply valid_rnd_ZR|apply generic_format_0].
Qed.
