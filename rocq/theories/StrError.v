(** Proofs about the accuracy of [to_decimal] on long literals. *)
From Coq Require Import String Ascii ZArith List Bool Lia Reals Lra.
From Flocq Require Import Core BinarySingleNaN Relative.
From Verif Require Import Outcome IntModel IntSpec ListModel ListSpec ListFacts FloatModel FloatFacts FloatMore StrModel StrSpec StrFacts StrMore StrNum StrDec StrFloat.
Import ListNotations.
Open Scope Z_scope.
#[local] Opaque double_of_Z dadd dmul ddiv.

#[local] Instance dvalid3 : Valid_exp dfexp.
Proof. apply (fexp_correct 53 1024 dprec_pos). Qed.

Notation u := unit_roundoff.

Lemma u_bpow : u = bpow radix2 (-53).
Proof. unfold unit_roundoff. symmetry. apply pm53. Qed.
Lemma u_pos : (0 < u)%R.
Proof. rewrite u_bpow. apply bpow_gt_0. Qed.
Lemma u_small : (u * IZR (2 ^ 53) = 1)%R.
Proof. unfold unit_roundoff. apply Rinv_l. apply IZR_neq. lia. Qed.

(** ** Closeness *)
Lemma within_refl : forall K b, (1 <= K)%R -> (0 <= b)%R -> within K b b.
Proof. intros K b H B. split; nra. Qed.
Lemma within_nonneg : forall K a b, (1 <= K)%R -> (0 <= b)%R -> within K a b -> (0 <= a)%R.
Proof. intros K a b H B (L & U). destruct (Rle_or_lt 0 a); auto. nra. Qed.
Lemma within_pos : forall K a b, (1 <= K)%R -> (0 < b)%R -> within K a b -> (0 < a)%R.
Proof. intros K a b H B (L & U). destruct (Rlt_or_le 0 a); auto. nra. Qed.
Lemma within_trans : forall K L a b c, (1 <= K)%R -> (1 <= L)%R -> within K a b -> within L b c -> within (K * L) a c.
Proof.
  intros K L a b c HK HL (A1 & A2) (B1 & B2). split.
  - apply Rle_trans with (b * L)%R; auto. rewrite <- Rmult_assoc. apply Rmult_le_compat_r; lra.
  - apply Rle_trans with (b * K)%R; auto. replace (c * (K * L))%R with (c * L * K)%R by ring. apply Rmult_le_compat_r; lra.
Qed.
Lemma within_mono : forall K L a b, (1 <= K)%R -> (K <= L)%R -> (0 <= b)%R -> within K a b -> within L a b.
Proof. intros K L a b HK HL B W. pose proof (within_nonneg _ _ _ HK B W). destruct W. split; nra. Qed.
Lemma within_mul : forall K L a b c d, (1 <= K)%R -> (1 <= L)%R -> (0 <= b)%R -> (0 <= d)%R ->
  within K a b -> within L c d -> within (K * L) (a * c) (b * d).
Proof.
  intros K L a b c d HK HL B D W1 W2. pose proof (within_nonneg _ _ _ HK B W1). pose proof (within_nonneg _ _ _ HL D W2).
  destruct W1 as (A1 & A2), W2 as (C1 & C2). split.
  - replace (a * c * (K * L))%R with ((a * K) * (c * L))%R by ring. apply Rmult_le_compat; auto.
  - replace (b * d * (K * L))%R with ((b * K) * (d * L))%R by ring. apply Rmult_le_compat; auto.
Qed.
Lemma within_inv : forall L c d, (1 <= L)%R -> (0 < d)%R -> within L c d -> within L (/ c) (/ d).
Proof.
  intros L c d HL D W. pose proof (within_pos _ _ _ HL D W) as C. destruct W as (C1 & C2). split.
  - apply (Rmult_le_reg_r (c * d)); [nra|]. replace (/ d * (c * d))%R with c by (field; lra). replace (/ c * L * (c * d))%R with (d * L)%R by (field; lra). auto.
  - apply (Rmult_le_reg_r (c * d)); [nra|]. replace (/ c * (c * d))%R with d by (field; lra). replace (/ d * L * (c * d))%R with (c * L)%R by (field; lra). auto.
Qed.
Lemma within_div : forall K L a b c d, (1 <= K)%R -> (1 <= L)%R -> (0 <= b)%R -> (0 < d)%R ->
  within K a b -> within L c d -> within (K * L) (a / c) (b / d).
Proof.
  intros K L a b c d HK HL B D W1 W2. unfold Rdiv. apply within_mul; auto.
  - left. apply Rinv_0_lt_compat. auto.
  - apply within_inv; auto.
Qed.
Lemma within_add : forall K a b d, (1 <= K)%R -> (0 <= d)%R -> within K a b -> within K (a + d) (b + d).
Proof. intros K a b d HK D (A1 & A2). split; nra. Qed.

(** ** Rounding in the normal range *)
Lemma normal_ok : forall r, (bpow radix2 (-1010) <= r <= bpow radix2 1010)%R -> in_range r /\ within (1 + u) (drnd r) r.
Proof.
  intros r (L & H). pose proof (bpow_gt_0 radix2 (-1010)) as P.
  assert (N: (bpow radix2 (-1074 + 53 - 1) <= Rabs r)%R).
  { rewrite Rabs_pos_eq by lra. apply Rle_trans with (bpow radix2 (-1010)); auto. apply bpow_le. lia. }
  assert (D: drnd r = round radix2 (FLT_exp (-1074) 53) ZnearestE r) by reflexivity.
  split.
  - unfold in_range. apply Rle_lt_trans with (bpow radix2 1010); [|apply bpow_lt; lia].
    apply abs_round_le_generic; [apply dvalid3|apply valid_rnd_N| |rewrite Rabs_pos_eq; lra].
    apply generic_format_bpow. rewrite dfexp_FLT. unfold FLT_exp. lia.
  - assert (0 <= drnd r)%R as Q. { rewrite <- (round_0 radix2 dfexp ZnearestE). apply drnd_le. lra. }
    pose proof (relative_error_N_FLT radix2 (-1074) 53 dprec_pos (fun x => negb (Z.even x)) r N) as E1.
    pose proof (relative_error_N_FLT_round radix2 (-1074) 53 dprec_pos (fun x => negb (Z.even x)) r N) as E2.
    fold ZnearestE in E1, E2. rewrite <- D in E1, E2. rewrite (Rabs_pos_eq r) in E1 by lra. rewrite (Rabs_pos_eq (drnd r)) in E2 by auto.
    assert (U: (/ 2 * bpow radix2 (- (53) + 1) = u)%R).
    { rewrite u_bpow. change (- (53) + 1)%Z with (-53 + 1)%Z. rewrite bpow_plus. change (bpow radix2 1) with 2%R. lra. }
    rewrite U in E1, E2. apply Rabs_le_inv in E1, E2. split; lra.
Qed.

Lemma pow1u : forall m, (1 <= (1 + u) ^ m)%R.
Proof. intros m. apply pow_R1_Rle. pose proof u_pos. lra. Qed.
Lemma pow1u_le : forall m, (Z.of_nat m <= 2 ^ 52)%Z -> ((1 + u) ^ m <= 1 + 2 * INR m * u)%R.
Proof.
  pose proof u_pos as P. pose proof u_small as S. induction m as [|m IH]; intros H; [cbn; lra|].
  cbn [pow]. rewrite S_INR. assert (INR m <= IZR (2 ^ 52))%R as M. { rewrite INR_IZR_INZ. apply IZR_le. lia. }
  pose proof (pos_INR m) as M0. specialize (IH ltac:(lia)).
  assert (2 * INR m * u <= 1)%R as B. { replace (IZR (2 ^ 53)) with (2 * IZR (2 ^ 52))%R in S by (rewrite <- mult_IZR; f_equal; lia). nra. }
  apply Rle_trans with ((1 + u) * (1 + 2 * INR m * u))%R; [apply Rmult_le_compat_l; lra|]. nra.
Qed.
Lemma pow1u_2 : forall m, (m <= 999)%nat -> ((1 + u) ^ m <= 2)%R.
Proof.
  intros m H. eapply Rle_trans; [apply pow1u_le; lia|]. pose proof u_pos as P. pose proof u_small as S.
  assert (INR m <= 999)%R as M. { rewrite INR_IZR_INZ. apply IZR_le. lia. }
  assert (0 <= INR m)%R by apply pos_INR.
  assert (1998 <= IZR (2 ^ 53))%R by (apply IZR_le; vm_compute; discriminate). nra.
Qed.

Lemma big : (IZR (10 ^ 300) <= bpow radix2 1000)%R.
Proof. replace (bpow radix2 1000) with (IZR (2 ^ 1000)) by (rewrite <- IZR_Zpower by lia; reflexivity). apply IZR_le. apply Z.leb_le. vm_compute. reflexivity. Qed.

Lemma b10 : bpow radix2 1010 = (1024 * bpow radix2 1000)%R.
Proof. replace 1010 with (10 + 1000) by lia. rewrite bpow_plus. change (bpow radix2 10) with 1024%R. auto. Qed.
Lemma bm10 : bpow radix2 (-1000) = (1024 * bpow radix2 (-1010))%R.
Proof. replace (-1000) with (10 + -1010) by lia. rewrite bpow_plus. change (bpow radix2 10) with 1024%R. auto. Qed.

(** A value within a factor 32 of a number between 2^-1000 and 2^1000 is in the normal range. *)
Lemma normal_near : forall K a b, (1 <= K <= 32)%R -> (bpow radix2 (-1000) <= b <= bpow radix2 1000)%R -> within K a b ->
  (bpow radix2 (-1010) <= a <= bpow radix2 1010)%R.
Proof.
  intros K a b HK (B1 & B2) W. pose proof (bpow_gt_0 radix2 (-1000)). pose proof (bpow_gt_0 radix2 (-1010)). pose proof b10. pose proof bm10.
  pose proof (within_pos K a b ltac:(lra) ltac:(lra) W). destruct W as (W1 & W2). split; nra.
Qed.
Lemma round_near : forall K a b, (1 <= K <= 32)%R -> (bpow radix2 (-1000) <= b <= bpow radix2 1000)%R -> within K a b ->
  in_range a /\ within (K * (1 + u)) (drnd a) b.
Proof.
  intros K a b HK B W. pose proof u_pos. destruct (normal_ok a (normal_near K a b HK B W)) as (R & D). split; auto.
  rewrite Rmult_comm. apply within_trans with a; auto; lra.
Qed.

(** ** The digits *)
Lemma positional_lt : forall ds, digitsb ds -> positional 10 ds < 10 ^ Z.of_nat (length ds).
Proof.
  intros ds F. induction F as [|d ds D F IH]; cbn [positional length]; [lia|].
  rewrite Nat2Z.inj_succ, Z.pow_succ_r by lia. nia.
Qed.

Lemma ten_le_300 : forall k, 0 <= k <= 300 -> (1 <= IZR (10 ^ k) <= bpow radix2 1000)%R.
Proof.
  intros k H. split.
  - apply IZR_le. apply (Z.pow_le_mono_r 10 0); lia.
  - eapply Rle_trans; [|apply big]. apply IZR_le. apply Z.pow_le_mono_r; lia.
Qed.
Lemma lowest : (bpow radix2 (-1000) <= 1)%R.
Proof. change 1%R with (bpow radix2 0). apply bpow_le. lia. Qed.

Lemma accumulated_near : forall ds, digitsb ds -> (length ds <= 300)%nat ->
  is_finite (accumulated ds) = true /\ within ((1 + u) ^ (2 * length ds)) (B2R (accumulated ds)) (IZR (positional 10 ds)).
Proof.
  intros ds. induction ds as [|d ds IH] using rev_ind; intros F N.
  - unfold accumulated. cbn [fold_left positional]. destruct (of_int_exact 0) as (R0 & F0); [lia|]. split; auto. rewrite R0. apply within_refl; [apply pow1u|lra].
  - pose proof F as F'. apply Forall_app in F as (F & D). inversion D as [|? ? D1 _]; subst. rewrite app_length in *. cbn [length] in N.
    pose proof (positional_nn ds F) as NN. pose proof (positional_nn _ F') as NN'.
    destruct (Z_le_dec (positional 10 (ds ++ [d])) (2 ^ 53)) as [Sm|Sm].
    + rewrite accumulated_exact by auto. destruct (of_int_exact (positional 10 (ds ++ [d]))) as (R0 & F0); [lia|]. split; auto. rewrite R0.
      apply within_refl; [apply pow1u|]. apply IZR_le. auto.
    + rewrite positional_snoc in *. destruct (IH F ltac:(lia)) as (A & W). rewrite <- accumulated_snoc. unfold push_digit.
      assert (P: 1 <= positional 10 ds) by lia.
      assert (B: positional 10 ds * 10 + d < 10 ^ 300).
      { pose proof (positional_lt _ F') as Q. rewrite positional_snoc, app_length in Q. cbn [length] in Q.
        eapply Z.lt_le_trans; [exact Q|]. apply Z.pow_le_mono_r; lia. }
      assert (B1: (bpow radix2 (-1000) <= IZR (positional 10 ds * 10 + d) <= bpow radix2 1000)%R).
      { split; [apply Rle_trans with 1%R; [apply lowest|apply IZR_le; lia]|]. eapply Rle_trans; [|apply big]. apply IZR_le. lia. }
      assert (B0: (bpow radix2 (-1000) <= IZR (positional 10 ds * 10) <= bpow radix2 1000)%R).
      { split; [apply Rle_trans with 1%R; [apply lowest|apply IZR_le; lia]|]. eapply Rle_trans; [|apply big]. apply IZR_le. lia. }
      destruct (of_int_exact 10) as (T & TF); [lia|]. destruct (of_int_exact d) as (Rd & Fd); [lia|].
      pose proof (pow1u (2 * length ds)) as K1. pose proof (pow1u_2 (2 * length ds) ltac:(lia)) as K2. pose proof u_pos as U0.
      assert (U1: (u <= 1)%R). { pose proof u_small. assert (1 <= IZR (2 ^ 53))%R by (apply IZR_le; lia). nra. }
      assert (W1: within ((1 + u) ^ (2 * length ds)) (B2R (accumulated ds) * B2R (double_of_Z 10)) (IZR (positional 10 ds * 10))).
      { rewrite T, mult_IZR. destruct W as (Wa & Wb). split; lra. }
      assert (KA: (1 <= (1 + u) ^ (2 * length ds) <= 32)%R) by lra.
      destruct (round_near _ _ _ KA B0 W1) as (R1 & W2).
      destruct (mul_ok _ _ A TF R1) as (M1 & M2 & _). rewrite <- M1 in W2.
      assert (K3: (1 <= (1 + u) ^ (2 * length ds) * (1 + u) <= 4)%R) by nra.
      assert (W3: within ((1 + u) ^ (2 * length ds) * (1 + u)) (B2R (dmul (accumulated ds) (double_of_Z 10)) + B2R (double_of_Z d)) (IZR (positional 10 ds * 10 + d))).
      { rewrite Rd, plus_IZR. apply within_add; [lra|apply IZR_le; lia|]. exact W2. }
      assert (KB: (1 <= (1 + u) ^ (2 * length ds) * (1 + u) <= 32)%R) by lra.
      destruct (round_near _ _ _ KB B1 W3) as (R2 & W4).
      destruct (add_ok _ _ M2 Fd R2) as (S1 & S2 & _). split; auto. rewrite S1.
      cbn [length]. replace (2 * (length ds + 1))%nat with (S (S (2 * length ds))) by lia. cbn [pow].
      replace ((1 + u) * ((1 + u) * (1 + u) ^ (2 * length ds)))%R with ((1 + u) ^ (2 * length ds) * (1 + u) * (1 + u))%R by ring. exact W4.
Qed.

(** ** The literal *)
Lemma powerRZ_pos : forall k, 0 <= k -> powerRZ 10 k = IZR (10 ^ k).
Proof.
  intros k H. rewrite <- (Z2Nat.id k) by auto. rewrite <- pow_powerRZ, pow_IZR. auto.
Qed.
Lemma powerRZ_opp : forall k, 0 <= k -> powerRZ 10 (- k) = (/ IZR (10 ^ k))%R.
Proof. intros k H. rewrite powerRZ_neg', powerRZ_pos by auto. auto. Qed.

Lemma to_decimal_near : forall pow K s neg I F eneg E,
  len s <= INT_MAX -> dec_literal s neg I F eneg E -> (1 <= K <= 2)%R -> pow_within K pow ->
  len (I ++ F) <= 300 -> positional 10 E <= 300 ->
  (denoted neg I F eneg E = 0 \/ / IZR (10 ^ 300) <= Rabs (denoted neg I F eneg E) <= IZR (10 ^ 300))%R ->
  exists x, str_to_decimal pow s = Ok x /\ is_finite x = true /\ (0 <= B2R x * denoted neg I F eneg E)%R /\
    within (K ^ 2 * (1 + u) ^ (2 * length (I ++ F) + 2)) (Rabs (B2R x)) (Rabs (denoted neg I F eneg E)).
Proof.
  intros pow K s neg I F eneg E L D HK PW N NE H.
  pose proof (literal_digits _ _ _ _ _ _ D) as (DI & DE). pose proof (positional_nn _ DE) as E0. pose proof (positional_nn _ DI) as X0.
  rewrite (to_decimal_value pow s neg I F eneg E) by (auto; unfold INT_MAX; lia). eexists. split; [reflexivity|].
  unfold computed. rewrite !pm_mul. rewrite finite_signed.
  assert (N': (length (I ++ F) <= 300)%nat) by (unfold len in N; lia).
  assert (NF: 0 <= Z.of_nat (length F) <= 300) by (rewrite app_length in N'; lia).
  destruct (accumulated_near _ DI N') as (A & W). set (n := length (I ++ F)) in *.
  destruct (of_int_exact (Z.of_nat (length F))) as (Rc & Fc); [lia|].
  destruct (PW _ (Z.of_nat (length F)) Fc Rc ltac:(lia)) as (F1 & W1). rewrite powerRZ_pos in W1 by lia.
  set (p1 := pow (double_of_Z 10) (double_of_Z (Z.of_nat (length F)))) in *.
  destruct (of_int_exact (positional 10 E)) as (Re & Fe); [lia|].
  set (k := if eneg then - positional 10 E else positional 10 E).
  destruct (PW (signed eneg (double_of_Z (positional 10 E))) k) as (F2 & W2).
  { rewrite finite_signed. auto. } { rewrite B2R_signed, Re. unfold k. destruct eneg; auto. symmetry. apply opp_IZR. } { unfold k. destruct eneg; lia. }
  set (p2 := pow (double_of_Z 10) (signed eneg (double_of_Z (positional 10 E)))) in *.
  set (X := IZR (positional 10 (I ++ F))) in *. assert (0 <= X)%R as Xn by (apply IZR_le; auto).
  set (c := IZR (10 ^ Z.of_nat (length F))) in *. assert (1 <= c <= bpow radix2 1000)%R as Cb by (apply ten_le_300; auto).
  set (q := powerRZ 10 k) in *. assert (0 < q)%R as Qp by (apply powerRZ_lt; lra).
  assert (DD: denoted neg I F eneg E = (if neg then - (X / c * q) else X / c * q)%R).
  { unfold denoted. fold X c. unfold q, k. destruct eneg; [rewrite powerRZ_opp by auto|rewrite powerRZ_pos by auto]; auto. }
  assert (R0: (0 <= X / c * q)%R). { apply Rmult_le_pos; [|lra]. apply Rmult_le_pos; [auto|]. left. apply Rinv_0_lt_compat. lra. }
  assert (AD: Rabs (denoted neg I F eneg E) = (X / c * q)%R).
  { rewrite DD. destruct neg; [rewrite Rabs_Ropp|]; apply Rabs_pos_eq; auto. }
  pose proof (pow1u (2 * n)) as K1. pose proof (pow1u_2 (2 * n) ltac:(lia)) as K2. pose proof u_pos as U0.
  assert (U1: (u <= /2)%R). { pose proof u_small. assert (2 <= IZR (2 ^ 53))%R by (apply IZR_le; vm_compute; discriminate). nra. }
  assert (C0: (0 < c)%R) by lra. pose proof (within_pos _ _ _ (proj1 HK) C0 W1) as P1.
  pose proof (within_pos _ _ _ (proj1 HK) Qp W2) as P2.
  assert (G: is_finite (dmul (ddiv (accumulated (I ++ F)) p1) p2) = true /\
             within (K ^ 2 * (1 + u) ^ (2 * n + 2)) (B2R (dmul (ddiv (accumulated (I ++ F)) p1) p2)) (X / c * q)).
  { destruct (Req_dec X 0) as [Z0|Z0].
    - assert (A0: B2R (accumulated (I ++ F)) = 0%R). { rewrite Z0 in W. destruct W. nra. }
      destruct (div_ok (accumulated (I ++ F)) p1 A) as (V1 & V2 & _); [lra|rewrite A0; unfold Rdiv; rewrite Rmult_0_l; apply (range_int 0); lia|].
      rewrite A0 in V1. unfold Rdiv in V1. rewrite Rmult_0_l in V1. rewrite (drnd_int 0) in V1 by lia.
      destruct (mul_ok (ddiv (accumulated (I ++ F)) p1) p2 V2 F2) as (Y1 & Y2 & _); [rewrite V1, Rmult_0_l; apply (range_int 0); lia|].
      split; auto. rewrite Y1, V1, Rmult_0_l, (drnd_int 0) by lia. rewrite Z0. unfold Rdiv. rewrite !Rmult_0_l. split; lra.
    - assert (X1: (1 <= X)%R). { apply IZR_le. destruct (Z.eq_dec (positional 10 (I ++ F)) 0) as [Q|Q]; [|lia]. destruct Z0. unfold X. rewrite Q. auto. }
      assert (X2: (X <= bpow radix2 1000)%R).
      { eapply Rle_trans; [|apply (ten_le_300 (Z.of_nat n)); lia]. apply IZR_le. apply Z.lt_le_incl. apply positional_lt; auto. }
      assert (QB: (bpow radix2 (-1000) <= X / c <= bpow radix2 1000)%R).
      { replace (-1000) with (- (1000)) by lia. rewrite bpow_opp. split.
        - apply Rle_trans with (/ c)%R; [apply Rinv_le; lra|]. unfold Rdiv. rewrite <- (Rmult_1_l (/ c)) at 1. apply Rmult_le_compat_r; auto. left. apply Rinv_0_lt_compat. lra.
        - apply Rle_trans with X; auto. apply (Rmult_le_reg_r c); [lra|]. unfold Rdiv. rewrite Rmult_assoc, Rinv_l by lra. nra. }
      assert (RB: (bpow radix2 (-1000) <= X / c * q <= bpow radix2 1000)%R).
      { destruct H as [H|H].
        - exfalso. assert (X / c * q = 0)%R as Q0 by (rewrite DD in H; destruct neg; lra).
          assert (0 < X / c)%R by (pose proof (bpow_gt_0 radix2 (-1000)); lra). nra.
        - rewrite AD in H. pose proof big. replace (-1000) with (- (1000)) by lia. rewrite bpow_opp. split; [|lra].
          eapply Rle_trans; [|apply H]. apply Rinv_le; auto. apply IZR_lt. apply Z.pow_pos_nonneg; lia. }
      assert (V0: within ((1 + u) ^ (2 * n) * K) (B2R (accumulated (I ++ F)) / B2R p1) (X / c)) by (apply within_div; auto; lra).
      assert (KA: (1 <= (1 + u) ^ (2 * n) * K <= 32)%R) by nra.
      destruct (round_near _ _ _ KA QB V0) as (I1 & V). destruct (div_ok (accumulated (I ++ F)) p1 A ltac:(lra) I1) as (V1 & V2 & _). rewrite <- V1 in V.
      assert (Kb: (1 <= (1 + u) ^ (2 * n) * K * (1 + u) <= 6)%R).
      { assert (1 <= (1 + u) ^ (2 * n) * K <= 4)%R by nra. nra. }
      assert (Y0: within ((1 + u) ^ (2 * n) * K * (1 + u) * K) (B2R (ddiv (accumulated (I ++ F)) p1) * B2R p2) (X / c * q)).
      { apply within_mul; auto; try lra. pose proof (bpow_gt_0 radix2 (-1000)). lra. }
      assert (KC: (1 <= (1 + u) ^ (2 * n) * K * (1 + u) * K <= 32)%R) by nra.
      destruct (round_near _ _ _ KC RB Y0) as (I2 & Y). destruct (mul_ok _ p2 V2 F2 I2) as (Y1 & Y2 & _). split; auto.
      rewrite Y1. replace (K ^ 2 * (1 + u) ^ (2 * n + 2))%R with ((1 + u) ^ (2 * n) * K * (1 + u) * K * (1 + u))%R; auto.
      rewrite pow_add. ring. }
  destruct G as (GF & GW). split; auto. rewrite AD, B2R_signed.
  assert (KK: (1 <= K ^ 2 * (1 + u) ^ (2 * n + 2))%R). { pose proof (pow1u (2 * n + 2)). nra. }
  pose proof (within_nonneg _ _ _ KK R0 GW) as GN. split.
  - rewrite DD. destruct neg; nra.
  - replace (Rabs (if neg then _ else _)) with (B2R (dmul (ddiv (accumulated (I ++ F)) p1) p2)); auto.
    destruct neg; [rewrite Rabs_Ropp|]; rewrite Rabs_pos_eq; auto.
Qed.

(** With a [pow] that is off by at most one unit in the last place. *)
Lemma to_decimal_error : forall pow s neg I F eneg E,
  len s <= INT_MAX -> dec_literal s neg I F eneg E -> pow_within (1 + 4 * u) pow ->
  len (I ++ F) <= 300 -> positional 10 E <= 300 ->
  (denoted neg I F eneg E = 0 \/ / IZR (10 ^ 300) <= Rabs (denoted neg I F eneg E) <= IZR (10 ^ 300))%R ->
  exists x, str_to_decimal pow s = Ok x /\ is_finite x = true /\
    (Rabs (B2R x - denoted neg I F eneg E) <= (IZR (len (I ++ F)) + 5) * 4 * u * Rabs (denoted neg I F eneg E))%R.
Proof.
  intros pow s neg I F eneg E L D PW N NE H. pose proof u_pos as U0.
  assert (U1: (u <= /4)%R). { pose proof u_small. assert (4 <= IZR (2 ^ 53))%R by (apply IZR_le; vm_compute; discriminate). nra. }
  destruct (to_decimal_near pow (1 + 4 * u) s neg I F eneg E L D ltac:(lra) PW N NE H) as (x & A & B & C & W). exists x. split; auto. split; auto.
  set (r := denoted neg I F eneg E) in *. set (y := B2R x) in *. set (m := (2 * length (I ++ F) + 2)%nat) in *.
  pose proof (Rabs_pos r) as Ar. pose proof (Rabs_pos y) as Ay.
  assert (K0: (1 <= (1 + 4 * u) ^ 2 * (1 + u) ^ m)%R). { pose proof (pow1u m). nra. }
  apply (within_mono _ ((1 + u) ^ (8 + m))) in W; auto.
  2:{ rewrite pow_add. apply Rmult_le_compat_r; [pose proof (pow1u m); lra|]. replace 8%nat with (4 * 2)%nat by lia. rewrite pow_mult.
      apply pow_incr. split; [lra|]. replace ((1 + u) ^ 4)%R with ((1 + u) * (1 + u) * ((1 + u) * (1 + u)))%R by ring. nra. }
  pose proof (pow1u (8 + m)) as K1. pose proof (pow1u_le (8 + m) ltac:(unfold len in N; lia)) as K2.
  replace (INR (8 + m)) with (2 * (IZR (len (I ++ F)) + 5))%R in K2.
  2:{ unfold len, m. rewrite !plus_INR, mult_INR, <- INR_IZR_INZ. cbn [INR]. lra. }
  set (M := ((1 + u) ^ (8 + m))%R) in *.
  assert (AB: (Rabs (y - r) = Rabs (Rabs y - Rabs r))%R).
  { unfold Rabs in *. repeat destruct Rcase_abs; nra. }
  rewrite AB. destruct W as (Wa & Wb). apply Rabs_le.
  assert ((M - 1) * Rabs r <= (IZR (len (I ++ F)) + 5) * 4 * u * Rabs r)%R by (apply Rmult_le_compat_r; lra).
  split; nra.
Qed.

(** A [pow] that meets the hypothesis. *)
Definition sample_pow (b y : double) : double :=
  let k := Btrunc y in
  if 0 <=? k then double_of_Z (10 ^ k) else ddiv (double_of_Z 1) (double_of_Z (10 ^ (- k))).

Lemma of_int_near : forall k, 0 <= k <= 300 -> is_finite (double_of_Z (10 ^ k)) = true /\ within (1 + u) (B2R (double_of_Z (10 ^ k))) (IZR (10 ^ k)).
Proof.
  intros k H. pose proof (ten_le_300 k H) as (T1 & T2). pose proof u_pos. pose proof lowest.
  destruct (round_near 1 (IZR (10 ^ k)) (IZR (10 ^ k))) as (R & W); [lra|lra|apply within_refl; lra|].
  pose proof (binary_normalize_correct 53 1024 dprec_pos dprec_emax mode_NE (10 ^ k) 0 false) as C. cbv zeta in C. cbn [round_mode] in C.
  replace (F2R _) with (IZR (10 ^ k)) in C by (unfold F2R; cbn; lra).
  rewrite Rlt_bool_true in C by exact R. destruct C as (C1 & C2 & _).
  change (binary_normalize _ _ _ _ _ _ _ _) with (double_of_Z (10 ^ k)) in C1, C2. split; auto. rewrite C1.
  rewrite Rmult_1_l in W. exact W.
Qed.

Lemma sample_pow_within : pow_within (1 + 4 * u) sample_pow.
Proof.
  intros x k Fx Rx H. pose proof u_pos as U0.
  assert (U1: (u <= /4)%R). { pose proof u_small. assert (4 <= IZR (2 ^ 53))%R by (apply IZR_le; vm_compute; discriminate). nra. }
  assert (B: Btrunc x = k).
  { apply eq_IZR. rewrite (Btrunc_correct 53 1024 dprec_emax x), Rx. apply round_generic; [apply valid_rnd_ZR|].
    apply generic_format_FIX. exists (Float radix2 k 0); [unfold F2R; cbn; lra|reflexivity]. }
  unfold sample_pow. rewrite B. destruct (Z.leb_spec 0 k) as [P|P].
  - rewrite powerRZ_pos by auto. destruct (of_int_near k ltac:(lia)) as (F & W). split; auto.
    apply (within_mono (1 + u)); auto; try lra. pose proof (ten_le_300 k ltac:(lia)). lra.
  - replace k with (- (- k)) at 3 by lia. rewrite powerRZ_opp by lia. destruct (of_int_near (- k) ltac:(lia)) as (F & W).
    pose proof (ten_le_300 (- k) ltac:(lia)) as (T1 & T2). set (c := IZR (10 ^ (- k))) in *. set (d := double_of_Z (10 ^ (- k))) in *.
    destruct (of_int_exact 1) as (R1 & F1); [lia|].
    assert (W1: within (1 + u) (B2R (double_of_Z 1) / B2R d) (/ c)).
    { rewrite R1. unfold Rdiv. rewrite Rmult_1_l. apply within_inv; auto; lra. }
    assert (D: (B2R d <> 0)%R) by (pose proof (within_pos (1 + u) _ c ltac:(lra) ltac:(lra) W); lra).
    assert (Bd: (bpow radix2 (-1000) <= / c <= bpow radix2 1000)%R).
    { replace (-1000) with (- (1000)) by lia. rewrite bpow_opp. split; [apply Rinv_le; lra|].
      apply Rle_trans with 1%R; [rewrite <- Rinv_1; apply Rinv_le; lra|lra]. }
    assert (KA: (1 <= 1 + u <= 32)%R) by lra.
    destruct (round_near _ _ _ KA Bd W1) as (R & W2). destruct (div_ok _ _ F1 D R) as (V1 & V2 & _). split; auto. rewrite V1.
    apply (within_mono ((1 + u) * (1 + u))); auto; try nra. left. apply Rinv_0_lt_compat. lra.
Qed.

(** ** As stated *)
Lemma near_stated : forall pow K s neg I F eneg E, (1 <= K <= 2)%R -> pow_within K pow -> len s <= INT_MAX -> dec_literal s neg I F eneg E ->
  Z.of_nat (length (I ++ F)) <= 300 -> positional 10 E <= 300 ->
  (denoted neg I F eneg E = 0 \/ / IZR (10 ^ 300) <= Rabs (denoted neg I F eneg E) <= IZR (10 ^ 300))%R ->
  exists x, str_to_decimal pow s = Ok x /\ is_finite x = true /\ (0 <= B2R x * denoted neg I F eneg E)%R /\
    within (K ^ 2 * (1 + u) ^ (2 * length (I ++ F) + 2)) (Rabs (B2R x)) (Rabs (denoted neg I F eneg E)).
Proof. intros pow K s neg I F eneg E HK P L D N NE H. apply to_decimal_near; auto. Qed.
Lemma error_stated : forall pow s neg I F eneg E, pow_within (1 + 4 * u) pow -> len s <= INT_MAX -> dec_literal s neg I F eneg E ->
  Z.of_nat (length (I ++ F)) <= 300 -> positional 10 E <= 300 ->
  (denoted neg I F eneg E = 0 \/ / IZR (10 ^ 300) <= Rabs (denoted neg I F eneg E) <= IZR (10 ^ 300))%R ->
  exists x, str_to_decimal pow s = Ok x /\ is_finite x = true /\
    (Rabs (B2R x - denoted neg I F eneg E) <= (IZR (Z.of_nat (length (I ++ F))) + 5) * 4 * u * Rabs (denoted neg I F eneg E))%R.
Proof. intros pow s neg I F eneg E P L D N NE H. apply to_decimal_error; auto. Qed.

Lemma sample_range : let I := [1; 2; 3; 4; 5; 6; 7; 8; 9; 0; 1; 2; 3; 4; 5; 6; 7; 8; 9; 0] in
  (/ IZR (10 ^ 300) <= Rabs (denoted true I [5%Z] true [3%Z]) <= IZR (10 ^ 300))%R.
Proof.
  cbv zeta. unfold denoted. rewrite Rabs_Ropp.
  replace (positional 10 (_ ++ _)) with 123456789012345678905 by reflexivity. change (10 ^ Z.of_nat (length [5])) with 10. change (10 ^ positional 10 [3]) with 1000.
  assert (1000 <= IZR (10 ^ 300))%R as B by (apply IZR_le; apply Z.leb_le; vm_compute; reflexivity).
  assert (10 ^ 21 <= 10 ^ 300) as B2 by (apply Z.pow_le_mono_r; lia). apply IZR_le in B2. change (10 ^ 21) with 1000000000000000000000 in B2.
  rewrite Rabs_pos_eq by lra. split; [|lra].
  apply Rle_trans with 1%R; [|lra]. rewrite <- Rinv_1. apply Rinv_le; lra.
Qed.

(** ** A short literal that is not correctly rounded *)
#[local] Transparent double_of_Z dadd dmul ddiv.
Lemma nearest_unique : forall x y r, nearest x r -> nearest y r -> B2R x = B2R y.
Proof. intros x y r (_ & A) (_ & B). congruence. Qed.
Lemma nearest_quot : forall a b, Z.abs a <= 2 ^ 53 -> Z.abs b <= 2 ^ 53 -> b <> 0 -> nearest (ddiv (double_of_Z a) (double_of_Z b)) (IZR a / IZR b).
Proof. intros a b A B N. destruct (div_int a b A B N) as (D & F). split; auto. Qed.

Definition three_tenths : text := list_ascii_of_string "3e-1".
Lemma not_nearest : exists s neg I F eneg E, dec_literal s neg I F eneg E /\
  forall pow, pow (double_of_Z 10) (double_of_Z 0) = double_of_Z 1 -> nearest (pow (double_of_Z 10) (double_of_Z (-1))) (/ 10) ->
  forall x, str_to_decimal pow s = Ok x -> ~ nearest x (denoted neg I F eneg E).
Proof.
  exists three_tenths, false, [3], [], true, [1].
  assert (D: dec_literal three_tenths false [3] [] true [1]).
  { exists [], [], ["3"%char], (list_ascii_of_string "e-1"), []. split; auto. split; auto. split; auto. split; [left; auto|]. split.
    - left. split; [discriminate|]. split; auto. constructor; [|constructor]. split; [lia|]. left. split; [lia|reflexivity].
    - right. split; [discriminate|]. exists "e"%char, ["-"%char], (list_ascii_of_string "1"). split; auto. split; auto. split; [reflexivity|].
      repeat constructor; try (left; split; [lia|reflexivity]); cbn; lia. }
  split; auto. intros pow P0 P1 x H.
  assert (len three_tenths <= INT_MAX) as L by (vm_compute; discriminate).
  assert (positional 10 [1] <= INT_MAX) as B by (vm_compute; discriminate).
  rewrite (to_decimal_value pow three_tenths false [3] [] true [1] L D B) in H.
  assert (x = computed pow false [3] [] true [1]) by congruence. subst x. clear H. intros N.
  assert (T: pow (double_of_Z 10) (double_of_Z (-1)) = ddiv (double_of_Z 1) (double_of_Z 10)).
  { pose proof (nearest_quot 1 10 ltac:(lia) ltac:(lia) ltac:(lia)) as Q. replace (1 / 10)%R with (/ 10)%R in Q by lra.
    pose proof (nearest_unique _ _ _ P1 Q) as E. apply B2R_inj; [| |exact E].
    - apply is_finite_strict_B2R. rewrite E. intros Z0.
      pose proof (quot_eqb_zero 1 10 ltac:(lia) ltac:(lia) ltac:(lia)) as X. destruct (of_int_exact 0) as (R0 & F0); [lia|].
      unfold deqb in X. rewrite Beqb_correct, Z0, R0, Req_bool_true in X by (auto; apply Q). discriminate.
    - vm_compute. reflexivity. }
  pose proof (nearest_quot 3 10 ltac:(lia) ltac:(lia) ltac:(lia)) as Q.
  assert (V: denoted false [3] [] true [1] = (3 / 10)%R).
  { unfold denoted. change (positional 10 ([3] ++ [])) with 3. change (10 ^ Z.of_nat (length (@nil Z))) with 1. change (10 ^ positional 10 [1]) with 10. lra. }
  rewrite V in N. pose proof (nearest_unique _ _ _ N Q) as E. clear V.
  assert (C: computed pow false [3] [] true [1] = dmul (double_of_Z 3) (ddiv (double_of_Z 1) (double_of_Z 10))).
  { unfold computed. change (Z.of_nat (length (@nil Z))) with 0. rewrite P0. rewrite !pm_mul. cbn [signed].
    change (dopp (double_of_Z (positional 10 [1]))) with (dopp (double_of_Z 1)).
    replace (dopp (double_of_Z 1)) with (double_of_Z (-1)) by (apply B2SF_inj; vm_compute; reflexivity). rewrite T, div_1_r.
    replace (accumulated ([3] ++ [])) with (double_of_Z 3) by (apply B2SF_inj; vm_compute; reflexivity). reflexivity. }
  rewrite C in E.
  assert (X: deqb (dmul (double_of_Z 3) (ddiv (double_of_Z 1) (double_of_Z 10))) (ddiv (double_of_Z 3) (double_of_Z 10)) = false) by (vm_compute; reflexivity).
  unfold deqb in X. rewrite Beqb_correct, Req_bool_true in X by (exact E || (vm_compute; reflexivity)). discriminate.
Qed.
