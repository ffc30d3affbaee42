(** Int::pow with a modulus, for every base and exponent. *)
From Coq Require Import ZArith List Bool Lia Znumtheory Zpow_facts.
From Verif Require Import Outcome IntModel IntSpec IntBase IntAddSub IntMulDiv IntFuncs IntMore IntProg ExTools IntPowSpec.
Import ListNotations.
Open Scope Z_scope.

Lemma kept_step m x n : 0 < n -> kept m x n = (if Z.odd n then x else 1) * kept m (x * x mod m) (n / 2).
Proof.
  destruct n as [|p|p]; try lia. intros _. destruct p as [p|p|].
  - replace (Z.pos p~1 / 2) with (Z.pos p) by (rewrite <- Z.div2_div; reflexivity). reflexivity.
  - replace (Z.pos p~0 / 2) with (Z.pos p) by (rewrite <- Z.div2_div; reflexivity). cbn [kept kept_bits Z.odd]. ring.
  - cbn. ring.
Qed.

Lemma half_lt n : 0 < n -> 0 <= n / 2 < n.
Proof. intros. split; [apply Z.div_pos; lia|apply Z.div_lt; lia]. Qed.

Lemma kept_nonneg m x n : 0 < m -> 0 <= x -> 0 <= n -> 0 <= kept m x n.
Proof.
  intros Hm Hx Hn. revert x Hx. pattern n. apply Zlt_0_ind; [|exact Hn]. clear n Hn. intros n IH Hn x Hx.
  destruct (Z.eq_dec n 0) as [->|N]; [cbn; lia|]. rewrite kept_step by lia.
  pose proof (half_lt n ltac:(lia)). pose proof (Z.mod_pos_bound (x * x) m Hm).
  specialize (IH (n / 2) ltac:(lia) (x * x mod m) ltac:(lia)). destruct (Z.odd n); nia.
Qed.

Lemma pow_halves x n : 0 <= n -> x ^ n = (if Z.odd n then x else 1) * (x * x) ^ (n / 2).
Proof.
  intros Hn. pose proof (Zdiv2_odd_eqn n) as E. rewrite Z.div2_div in E.
  assert (0 <= n / 2) by (apply Z.div_pos; lia). rewrite <- Z.pow_2_r, <- Z.pow_mul_r by lia.
  rewrite E at 1. destruct (Z.odd n); rewrite Z.pow_add_r by lia; [rewrite Z.pow_1_r|rewrite Z.pow_0_r]; ring.
Qed.

Lemma kept_le m x n : 0 < m -> 0 <= x -> 0 <= n -> kept m x n <= x ^ n.
Proof.
  intros Hm Hx Hn. revert x Hx. pattern n. apply Zlt_0_ind; [|exact Hn]. clear n Hn. intros n IH Hn x Hx.
  destruct (Z.eq_dec n 0) as [->|N]; [cbn; lia|]. rewrite kept_step, pow_halves by lia.
  pose proof (half_lt n ltac:(lia)) as Hh. pose proof (Z.mod_pos_bound (x * x) m Hm).
  specialize (IH (n / 2) ltac:(lia) (x * x mod m) ltac:(lia)).
  pose proof (Z.pow_le_mono_l (x * x mod m) (x * x) (n / 2) ltac:(pose proof (Z.mod_le (x * x) m ltac:(nia) Hm); lia)).
  destruct (Z.odd n); nia.
Qed.

Lemma kept_mod m x n c : 0 < m -> 0 <= n -> (c * kept m x n) mod m = (c * x ^ n) mod m.
Proof.
  intros Hm Hn. revert c x. pattern n. apply Zlt_0_ind; [|exact Hn]. clear n Hn. intros n IH Hn c x.
  destruct (Z.eq_dec n 0) as [->|N]; [reflexivity|]. rewrite kept_step, pow_halves by lia.
  pose proof (half_lt n ltac:(lia)) as Hh. rewrite !Z.mul_assoc. rewrite (IH (n / 2) ltac:(lia)).
  rewrite Zmult_mod, <- Zpower_mod, <- Zmult_mod by lia. reflexivity.
Qed.

Lemma fewer_dec a b : b <> 0 -> fewer a b \/ ~ fewer a b.
Proof. intros N. pose proof (fewer_digits_dec a b N) as [H|H]; [left|right]; exact H. Qed.
Lemma fewer_mono a a' b : Z.abs a' <= Z.abs a -> fewer a b -> fewer a' b.
Proof. intros L (k & K & H). exists k. lia. Qed.
Lemma fewer_lt a b : fewer a b -> Z.abs a < Z.abs b.
Proof. intros (k & K & H). lia. Qed.

(** The loop on a result that is not positive. *)
Lemma pow_loop_neg : forall f m num n result M x N R, repr m M -> M <> 0 ->
  repr num x -> repr n N -> repr result R -> 0 <= x -> R <= 0 ->
  0 <= N < 2 ^ Z.of_nat f -> (0 < f)%nat ->
  (N = 0 -> returns (pow_loop Benign (S f) m num n result) R) /\
  (0 < N -> fewer (R * kept (Z.abs M) x N) M -> returns (pow_loop Benign (S f) m num n result) (R * kept (Z.abs M) x N)) /\
  (0 < N -> ~ fewer (R * kept (Z.abs M) x N) M -> returns (pow_loop Benign (S f) m num n result) ((- R * x ^ N) mod Z.abs M)).
Proof.
  induction f; intros m num n result M x N R Hm HM Hb Hn Hr HB HR HN Hf; [lia|].
  remember (S f) as f1. cbn [pow_loop].
  unfold is_zero at 1 4 7. rewrite (repr_sign _ _ Hn).
  destruct (Z.eqb_spec (Z.sgn N) 0) as [e|NZ]; cbn [negb].
  { assert (N = 0) by lia. split; [|split; lia]. intros _. exists result; auto. }
  assert (P: 0 < N) by lia. split; [lia|].
  rewrite (is_odd_spec _ _ Hn). cbn [bind]. unfold is_zero. rewrite (repr_sign _ _ Hm).
  destruct (Z.eqb_spec (Z.sgn M) 0); [lia|].
  assert (HM0: 0 < Z.abs M) by lia.
  destruct (int_mul_assign_spec Benign _ _ _ _ Hb Hb) as (sq & E2 & Q2).
  destruct (int_mod_nonneg _ _ _ _ Q2 Hm HM ltac:(nia)) as (sm & E2' & Q2').
  destruct (int_div_spec _ _ _ _ Hn repr2 ltac:(lia)) as (nh & E3 & Q3).
  rewrite Z.quot_div_nonneg in Q3 by lia.
  pose proof (Z.mod_pos_bound (x * x) _ HM0) as Hs.
  pose proof (half_lt N P) as Hh.
  rewrite (kept_step _ _ N P), (pow_halves x N) by lia.
  subst f1. rewrite Nat2Z.inj_succ, Z.pow_succ_r in HN by lia.
  assert (HN2: N / 2 < 2 ^ Z.of_nat f) by (apply Z.div_lt_upper_bound; lia).
  set (K := kept (Z.abs M) (x * x mod Z.abs M) (N / 2)).
  assert (HK: 0 <= K) by (apply kept_nonneg; lia).
  assert (HKM: forall c, (c * K) mod Z.abs M = (c * (x * x) ^ (N / 2)) mod Z.abs M).
  { intros c. unfold K. rewrite kept_mod by lia. rewrite Zmult_mod, <- Zpower_mod, <- Zmult_mod by lia. reflexivity. }
  (* what the rest of the loop gives *)
  assert (REST: forall r1 R1, repr r1 R1 -> R1 <= 0 ->
    (N / 2 = 0 -> returns (pow_loop Benign (S f) m sm nh r1) R1) /\
    (0 < N / 2 -> fewer (R1 * K) M -> returns (pow_loop Benign (S f) m sm nh r1) (R1 * K)) /\
    (0 < N / 2 -> ~ fewer (R1 * K) M -> returns (pow_loop Benign (S f) m sm nh r1) ((- R1 * (x * x mod Z.abs M) ^ (N / 2)) mod Z.abs M))).
  { intros r1 R1 Q1 L1. destruct f as [|f'].
    - change (2 ^ Z.of_nat 0) with 1 in HN2. assert (Z0: N / 2 = 0) by lia. rewrite Z0 in *.
      split; [intros _|split; lia]. cbn [pow_loop]. unfold is_zero. rewrite (repr_sign _ _ Q3). exists r1; auto.
    - apply IHf; auto; lia. }
  assert (MODS: forall c, (c * (x * x mod Z.abs M) ^ (N / 2)) mod Z.abs M = (c * (x * x) ^ (N / 2)) mod Z.abs M).
  { intros c. rewrite Zmult_mod, <- Zpower_mod, <- Zmult_mod by lia. reflexivity. }
  destruct (Z.odd N) eqn:OD.
  - destruct (int_mul_assign_spec Benign _ _ _ _ Hr Hb) as (t & Et & Rt).
    destruct (mod_value t m _ _ Rt Hm) as (A & _). destruct (A HM) as (z & (tm & Etm & Rtm) & (Fz & Gz) & _). clear A.
    fold (fewer (R * x) M) in Fz, Gz.
    unfold int_mul. rewrite Et; cbn [bind]. rewrite Etm; cbn [bind]. rewrite E2; cbn [bind]. rewrite E2'; cbn [bind].
    rewrite int2; cbn [bind]. rewrite E3; cbn [bind].
    destruct (fewer_dec (R * x) M HM) as [fw|nf].
    + rewrite (Fz fw) in Rtm. destruct (REST tm (R * x) Rtm ltac:(nia)) as (A & B & C).
      replace (R * (x * K)) with (R * x * K) by ring. replace (- R * (x * (x * x) ^ (N / 2))) with (- (R * x) * (x * x) ^ (N / 2)) by ring.
      destruct (Z.eq_dec (N / 2) 0) as [Z0|NZ0].
      * assert (K1: K = 1) by (unfold K; rewrite Z0; reflexivity). rewrite K1, Z.mul_1_r. split; intros; [auto|contradiction].
      * split; intros _ G; [apply B; auto; lia|]. rewrite <- MODS. apply C; auto; lia.
    + rewrite (Gz nf) in Rtm. clear REST.
      assert (AB: Z.abs (R * x) = - R * x) by nia. rewrite AB in *.
      pose proof (Z.mod_pos_bound (- R * x) _ HM0).
      assert (V: returns (pow_loop Benign (S f) m sm nh tm) ((- R * (x * (x * x) ^ (N / 2))) mod Z.abs M)).
      { replace ((- R * (x * (x * x) ^ (N / 2))) mod Z.abs M) with
          (if N / 2 =? 0 then (- R * x) mod Z.abs M else ((- R * x) mod Z.abs M * ((x * x) mod Z.abs M) ^ (N / 2)) mod Z.abs M).
        - destruct f as [|f'].
          + change (2 ^ Z.of_nat 0) with 1 in HN2. assert (Z0: N / 2 = 0) by lia. rewrite Z0 in *. cbn [Z.eqb].
            cbn [pow_loop]. unfold is_zero. rewrite (repr_sign _ _ Q3). exists tm; auto.
          + apply pow_loop_mod_spec; auto; lia.
        - destruct (Z.eqb_spec (N / 2) 0) as [Z0|NZ0].
          + rewrite Z0, Z.pow_0_r, Z.mul_1_r. reflexivity.
          + rewrite MODS, Zmult_mod_idemp_l. f_equal. ring. }
      split; intros _ G; [|exact V].
      replace (R * (x * K)) with 0; [|assert (K = 0); [|nia]].
      * replace 0 with ((- R * (x * (x * x) ^ (N / 2))) mod Z.abs M); [exact V|].
        assert (K0: K = 0).
        { destruct (Z.eq_dec K 0); auto. exfalso. apply nf. eapply fewer_mono; [|exact G]. rewrite !Z.abs_mul. rewrite (Z.abs_eq K) by lia. nia. }
        replace (- R * (x * (x * x) ^ (N / 2))) with (- R * x * (x * x) ^ (N / 2)) by ring.
        rewrite <- HKM, K0, Z.mul_0_r. apply Z.mod_0_l. lia.
      * destruct (Z.eq_dec K 0); auto. exfalso. apply nf. eapply fewer_mono; [|exact G]. rewrite !Z.abs_mul. rewrite (Z.abs_eq K) by lia. nia.
  - unfold int_mul. rewrite E2; cbn [bind]. rewrite E2'; cbn [bind]. rewrite int2; cbn [bind]. rewrite E3; cbn [bind].
    destruct (REST result R Hr HR) as (A & B & C). rewrite !Z.mul_1_l.
    assert (0 < N / 2). { pose proof (Zdiv2_odd_eqn N) as E. rewrite Z.div2_div, OD in E. lia. }
    split; intros _ G; [apply B; auto|]. rewrite <- MODS. apply C; auto.
Qed.

(** ** The value for every base, every positive exponent and every modulus *)

Lemma abs_sq B : B * B = Z.abs B * Z.abs B.
Proof. nia. Qed.

Lemma pow_mod_value : forall b e m B E M, repr b B -> repr e E -> repr m M -> Z.abs B <> 1 -> 0 < E -> M <> 0 ->
  (B < 0 /\ Z.odd E = true /\ fewer (kept (Z.abs M) (Z.abs B) E) M ->
     computes (fun fuel => int_pow Benign fuel b e m) (- (Z.abs B ^ E mod Z.abs M))) /\
  (~ (B < 0 /\ Z.odd E = true /\ fewer (kept (Z.abs M) (Z.abs B) E) M) ->
     computes (fun fuel => int_pow Benign fuel b e m) (Z.abs B ^ E mod Z.abs M)).
Proof.
  intros b e m B E M Hb He Hm HB1 HE HM.
  destruct (Z_lt_le_dec B 0) as [NB|NB].
  2: { split; [lia|]. intros _. rewrite Z.abs_eq by lia. apply int_pow_mod_spec; auto. lia. }
  assert (HM0: 0 < Z.abs M) by lia.
  assert (G: forall fuel, (S (S (S (Z.to_nat E))) <= fuel)%nat ->
    (Z.odd E = true -> fewer (kept (Z.abs M) (Z.abs B) E) M -> returns (int_pow Benign fuel b e m) (- (Z.abs B ^ E mod Z.abs M))) /\
    (~ (Z.odd E = true /\ fewer (kept (Z.abs M) (Z.abs B) E) M) -> returns (int_pow Benign fuel b e m) (Z.abs B ^ E mod Z.abs M))).
  { intros fuel Hf. rewrite (int_pow_unfold _ _ _ _ _ _ Hb). destruct (Z.eqb_spec (Z.abs B) 1); [lia|].
    unfold is_negative. rewrite (repr_sign _ _ He). destruct (Z.eqb_spec (Z.sgn E) (-1)); [lia|].
    rewrite int1; cbn [bind]. destruct fuel as [|fuel]; [lia|]. rename Hf into Hf0.
    pose proof (half_lt E HE) as Hh.
    destruct (pow_fuel (E / 2) fuel ltac:(lia) ltac:(lia)) as (f' & -> & F1 & F2).
    remember (S f') as f1. cbn [pow_loop]. unfold is_zero. rewrite (repr_sign _ _ He), (repr_sign _ _ Hm).
    destruct (Z.eqb_spec (Z.sgn E) 0); [lia|]. destruct (Z.eqb_spec (Z.sgn M) 0); [lia|]. cbn [negb].
    rewrite (is_odd_spec _ _ He). cbn [bind].
    destruct (int_mul_assign_spec Benign _ _ _ _ Hb Hb) as (sq & E2 & Q2).
    destruct (int_mod_nonneg _ _ _ _ Q2 Hm HM ltac:(nia)) as (sm & E2' & Q2').
    destruct (int_div_spec _ _ _ _ He repr2 ltac:(lia)) as (nh & E3 & Q3).
    rewrite Z.quot_div_nonneg in Q3 by lia. rewrite abs_sq in Q2'.
    set (x := Z.abs B * Z.abs B mod Z.abs M) in *.
    pose proof (Z.mod_pos_bound (Z.abs B * Z.abs B) _ HM0) as Hx. fold x in Hx.
    assert (PX: forall c, (c * x ^ (E / 2)) mod Z.abs M = (c * (Z.abs B * Z.abs B) ^ (E / 2)) mod Z.abs M).
    { intros c. unfold x. rewrite Zmult_mod, <- Zpower_mod, <- Zmult_mod by lia. reflexivity. }
    rewrite (kept_step _ _ E HE), (pow_halves (Z.abs B) E) by lia. fold x.
    set (K := kept (Z.abs M) x (E / 2)).
    assert (HK: 0 <= K) by (apply kept_nonneg; lia).
    assert (HKM: forall c, (c * K) mod Z.abs M = (c * (Z.abs B * Z.abs B) ^ (E / 2)) mod Z.abs M).
    { intros c. unfold K. rewrite kept_mod by lia. apply PX. }
    destruct (Z.odd E) eqn:OD.
    - destruct (int_mul_assign_spec Benign _ _ _ _ repr1 Hb) as (t & Et & Rt). rewrite Z.mul_1_l in Rt.
      destruct (mod_value t m _ _ Rt Hm) as (A & _). destruct (A HM) as (z & (tm & Etm & Rtm) & (Fz & Gz) & _). clear A.
      fold (fewer B M) in Fz, Gz.
      unfold int_mul. rewrite Et; cbn [bind]. rewrite Etm; cbn [bind]. rewrite E2; cbn [bind]. rewrite E2'; cbn [bind].
      rewrite int2; cbn [bind]. rewrite E3; cbn [bind]. subst f1.
      assert (SM: forall c, fewer (Z.abs B * K) M -> 0 <= c -> c = Z.abs B * K ->
         c = (Z.abs B * (Z.abs B * Z.abs B) ^ (E / 2)) mod Z.abs M).
      { intros c H _ ->. rewrite <- HKM. symmetry. apply Z.mod_small. apply fewer_lt in H. nia. }
      destruct (fewer_dec B M HM) as [fw|nf].
      + rewrite (Fz fw) in Rtm.
        pose proof (pow_loop_neg f' m sm nh tm M x (E / 2) B Hm HM Q2' Q3 Rtm ltac:(lia) ltac:(lia) ltac:(lia) F1) as (P1 & P2 & P3).
        fold K in P2, P3.
        assert (FA: fewer (B * K) M <-> fewer (Z.abs B * K) M) by (split; apply fewer_mono; nia).
        destruct (Z.eq_dec (E / 2) 0) as [Z0|NZ0].
        * assert (K1: K = 1) by (unfold K; rewrite Z0; reflexivity). rewrite Z0, Z.pow_0_r in *. rewrite K1, Z.mul_1_r in *.
          assert (FB: fewer (Z.abs B) M) by (eapply fewer_mono; [|exact fw]; lia). split; [|tauto]. intros _ _.
          rewrite Z.mod_small by (apply fewer_lt in fw; lia). replace (- Z.abs B) with B by lia. auto.
        * split.
          { intros _ H. rewrite <- (SM (Z.abs B * K)) by (auto; nia).
            replace (- (Z.abs B * K)) with (B * K) by nia. apply P2; [lia|tauto]. }
          { intros H. rewrite <- PX. replace (Z.abs B) with (- B) at 1 by lia. apply P3; [lia|tauto]. }
      + rewrite (Gz nf) in Rtm. pose proof (Z.mod_pos_bound (Z.abs B) _ HM0).
        assert (V: returns (pow_loop Benign (S f') m sm nh tm) ((Z.abs B * (Z.abs B * Z.abs B) ^ (E / 2)) mod Z.abs M)).
        { replace ((Z.abs B * (Z.abs B * Z.abs B) ^ (E / 2)) mod Z.abs M) with
            (if E / 2 =? 0 then Z.abs B mod Z.abs M else (Z.abs B mod Z.abs M * x ^ (E / 2)) mod Z.abs M).
          - apply pow_loop_mod_spec; auto; lia.
          - destruct (Z.eqb_spec (E / 2) 0) as [Z0|NZ0].
            + rewrite Z0, Z.pow_0_r, Z.mul_1_r. reflexivity.
            + rewrite PX, Zmult_mod_idemp_l. reflexivity. }
        split; intros; [|exact V].
        assert (K0: K = 0).
        { destruct (Z.eq_dec K 0); auto. exfalso. apply nf. eapply fewer_mono; [|exact H1].
          rewrite Z.abs_mul, Z.abs_involutive, (Z.abs_eq K) by lia. nia. }
        rewrite <- HKM, K0, Z.mul_0_r, Z.mod_0_l in * by lia. exact V.
    - split; [discriminate|]. intros _.
      unfold int_mul. rewrite E2; cbn [bind]. rewrite E2'; cbn [bind]. rewrite int2; cbn [bind]. rewrite E3; cbn [bind]. subst f1.
      assert (P: 0 < E / 2). { pose proof (Zdiv2_odd_eqn E) as K2. rewrite Z.div2_div, OD in K2. lia. }
      pose proof (pow_loop_mod_spec f' m sm nh _ M x (E / 2) 1 Hm HM Q2' Q3 repr1 ltac:(lia) ltac:(lia) ltac:(lia) F1) as V.
      destruct (Z.eqb_spec (E / 2) 0); [lia|]. rewrite PX in V. exact V. }
  split; intros H; apply computes_intro with (S (S (S (Z.to_nat E)))); intros fuel Hf; destruct (G fuel Hf) as (A & C); [tauto|apply C; tauto].
Qed.

(** ** Exactly where pow(b, e, m) is pow(b, e) % m *)

Lemma pow_m1_one B E : 0 <= E -> Z.abs B = 1 -> B ^ E = if (B =? -1) && Z.odd E then -1 else 1.
Proof.
  intros HE HB. assert (B = 1 \/ B = -1) as [->| ->] by lia; cbn [Z.eqb andb].
  - apply Z.pow_1_l; auto.
  - apply pow_m1; auto.
Qed.

Lemma fewer_one M : M <> 0 -> (fewer 1 M <-> 10 <= Z.abs M).
Proof.
  intros HM. split.
  - intros (k & K & A & C). destruct (Z.eq_dec k 0) as [->|]; [cbn in *; lia|].
    pose proof (Z.pow_le_mono_r 10 1 k ltac:(lia) ltac:(lia)). lia.
  - intros L. exists 1. cbn. lia.
Qed.

Lemma fewer_abs a b : fewer (Z.abs a) b <-> fewer a b.
Proof. split; apply fewer_mono; lia. Qed.

Lemma odd_pow_abs B E : 0 <= E -> B < 0 -> Z.odd E = true -> B ^ E = - Z.abs B ^ E.
Proof.
  intros HE NB OD. replace B with (- Z.abs B) at 1 by lia. apply Z.pow_opp_odd. apply Z.odd_spec. exact OD.
Qed.
Lemma even_pow_abs B E : 0 <= E -> Z.odd E = false -> B ^ E = Z.abs B ^ E.
Proof.
  intros HE OD. rewrite Z.pow_even_abs; auto. apply Z.even_spec. rewrite <- Z.negb_odd, OD. reflexivity.
Qed.

Lemma pow_mod_exact : forall b e m B E M, repr b B -> repr e E -> repr m M -> 0 <= E -> M <> 0 ->
  exists v w q, computes (fun fuel => int_pow Benign fuel b e m) v /\
    converges (fun fuel => int_pow Benign fuel b e (MkInt 0 [])) (Ok q) /\ returns (int_mod Benign q m) w /\
    (v <> w <->
       Z.abs M = 1 /\ (E = 0 \/ Z.abs B = 1) \/
       B = -1 /\ Z.odd E = true /\ 1 < Z.abs M < 10 \/
       B < -1 /\ Z.odd E = true /\ fewer (kept (Z.abs M) (Z.abs B) E) M /\ ~ fewer (B ^ E) M /\ ~ (M | B ^ E)).
Proof.
  intros b e m B E M Hb He Hm HE HM.
  destruct (int_pow_spec b e B E Hb He HE) as (q & CQ & RQ).
  destruct (mod_value q m _ _ RQ Hm) as (A & _). destruct (A HM) as (w & RW & (Fw & Gw) & _). clear A.
  fold (fewer (B ^ E) M) in Fw, Gw.
  assert (HM0: 0 < Z.abs M) by lia.
  destruct (Z.eq_dec (Z.abs B) 1) as [B1|B1].
  { (* |B| = 1 *)
    exists (B ^ E), w, q. split.
    { apply computes_intro with O. intros fuel _. rewrite (pow_m1_one B E HE B1). apply int_pow_one; auto. }
    split; [exact CQ|]. split; [exact RW|].
    assert (AB: Z.abs (B ^ E) = 1) by (rewrite Z.abs_pow, B1; apply Z.pow_1_l; auto).
    assert (FW: fewer (B ^ E) M <-> 10 <= Z.abs M) by (rewrite <- fewer_abs, AB; apply fewer_one; auto).
    destruct (Z_lt_le_dec (Z.abs M) 10) as [L|L].
    - rewrite AB in Gw. rewrite Gw by (rewrite FW; lia). rewrite (pow_m1_one B E HE B1).
      destruct (Z.eq_dec (Z.abs M) 1) as [M1|M1].
      + rewrite M1. change (1 mod 1) with 0. split; [intros _; left; auto|]. intros _. destruct ((B =? -1) && Z.odd E); lia.
      + rewrite Z.mod_1_l by lia. destruct (Z.eqb_spec B (-1)) as [->|NB]; cbn [andb].
        * destruct (Z.odd E); split; intros; try lia; intuition (try lia; try discriminate).
        * split; [lia|]. intros [H|[H|H]]; lia.
    - rewrite Fw by (rewrite FW; lia). split; [lia|]. intros [H|[H|H]]; lia. }
  destruct (Z.eq_dec E 0) as [->|E0].
  { (* e = 0 *)
    exists 1, w, q. split; [apply int_pow_zero_exp with B; auto|]. split; [exact CQ|]. split; [exact RW|].
    rewrite Z.pow_0_r in *. cbn [Z.odd]. pose proof (fewer_one M HM) as FW.
    destruct (Z_lt_le_dec (Z.abs M) 10) as [L|L].
    - rewrite Gw by (rewrite FW; lia). change (Z.abs 1) with 1. destruct (Z.eq_dec (Z.abs M) 1) as [M1|M1].
      + rewrite M1. change (1 mod 1) with 0. split; [intros _; left; auto|intros _; lia].
      + rewrite Z.mod_1_l by lia. split; [lia|]. intros [H|[H|H]]; [lia| |]; destruct H as (_ & H & _); discriminate.
    - rewrite Fw by (rewrite FW; lia). split; [lia|]. intros [H|[H|H]]; [lia| |]; destruct H as (_ & H & _); discriminate. }
  assert (EP: 0 < E) by lia.
  destruct (pow_mod_value b e m B E M Hb He Hm B1 EP HM) as (V1 & V2).
  assert (PA: Z.abs (B ^ E) = Z.abs B ^ E) by apply Z.abs_pow.
  assert (KL: kept (Z.abs M) (Z.abs B) E <= Z.abs B ^ E) by (apply kept_le; lia).
  assert (KN: 0 <= kept (Z.abs M) (Z.abs B) E) by (apply kept_nonneg; lia).
  assert (DV: (M | B ^ E) <-> Z.abs B ^ E mod Z.abs M = 0).
  { rewrite <- Z.divide_abs_l, <- Z.divide_abs_r, PA. symmetry. apply Z.mod_divide. lia. }
  pose proof (Z.mod_pos_bound (Z.abs B ^ E) _ HM0) as MB. rewrite PA in Gw.
  assert (KF: fewer (B ^ E) M -> fewer (kept (Z.abs M) (Z.abs B) E) M) by (apply fewer_mono; lia).
  destruct (Z_lt_le_dec B 0) as [NB|NB].
  - destruct (Z.odd E) eqn:OD.
    + destruct (fewer_dec (kept (Z.abs M) (Z.abs B) E) M HM) as [fk|nk].
      * exists (- (Z.abs B ^ E mod Z.abs M)), w, q. split; [apply V1; auto|]. split; [exact CQ|]. split; [exact RW|].
        destruct (fewer_dec (B ^ E) M HM) as [fw|nf].
        { rewrite (Fw fw). rewrite (odd_pow_abs B E) by (auto; lia). rewrite Z.mod_small by (apply fewer_lt in fw; lia).
          split; [lia|]. rewrite <- (odd_pow_abs B E) by (auto; lia). intros [H|[H|H]]; [lia|lia|tauto]. }
        { rewrite (Gw nf). rewrite DV. split.
          - intros H. right. right. repeat split; auto; lia.
          - intros [H|[H|H]]; [lia|lia|]. lia. }
      * exists (Z.abs B ^ E mod Z.abs M), w, q. split; [apply V2; tauto|]. split; [exact CQ|]. split; [exact RW|].
        rewrite Gw by tauto. split; [lia|]. intros [H|[H|H]]; [lia|lia|tauto].
    + exists (Z.abs B ^ E mod Z.abs M), w, q. split; [apply V2; intros (_ & H & _); discriminate|]. split; [exact CQ|]. split; [exact RW|].
      split.
      * intros H. exfalso. apply H. destruct (fewer_dec (B ^ E) M HM) as [fw|nf]; [|rewrite (Gw nf); auto].
        rewrite (Fw fw), (even_pow_abs B E) by (auto; lia). apply Z.mod_small. apply fewer_lt in fw. lia.
      * intros [H|[H|H]]; [lia| |]; destruct H as (_ & H & _); discriminate.
  - exists (Z.abs B ^ E mod Z.abs M), w, q. split; [apply V2; lia|]. split; [exact CQ|]. split; [exact RW|].
    split; [|lia]. intros H. exfalso. apply H. destruct (fewer_dec (B ^ E) M HM) as [fw|nf]; [|rewrite (Gw nf); auto].
    rewrite (Fw fw). rewrite Z.abs_eq by lia. apply Z.mod_small. apply fewer_lt in fw. pose proof (Z.pow_nonneg B E NB). lia.
Qed.

(** ** Exactly where pow(b, e, m) is Python's *)

Lemma pow_python_exact : forall b e m B E M, repr b B -> repr e E -> repr m M -> 0 <= E -> M <> 0 ->
  exists v, computes (fun fuel => int_pow Benign fuel b e m) v /\
    (E = 0 \/ Z.abs B = 1 -> (v = B ^ E mod M <-> 0 < B ^ E /\ 1 < M \/ B ^ E < 0 /\ M < -1)) /\
    (0 < E -> Z.abs B <> 1 ->
      let signed := fewer (kept (Z.abs M) (Z.abs B) E) M in
      (v = B ^ E mod M <->
        (M | B ^ E) \/ 0 <= B ^ E /\ 0 < M \/ B ^ E < 0 /\ M < 0 /\ signed \/
        B ^ E < 0 /\ 0 < M /\ ~ signed /\ 2 * (B ^ E mod M) = M)).
Proof.
  intros b e m B E M Hb He Hm HE HM.
  assert (ONE: E = 0 \/ Z.abs B = 1 -> B ^ E = 1 \/ B ^ E = -1).
  { intros [->|B1]; [left; apply Z.pow_0_r|]. rewrite pow_m1_one by auto. destruct (_ && _); auto. }
  assert (SMALL: forall v, v = B ^ E -> E = 0 \/ Z.abs B = 1 -> (v = B ^ E mod M <-> 0 < B ^ E /\ 1 < M \/ B ^ E < 0 /\ M < -1)).
  { intros v -> H. destruct (ONE H) as [-> | ->].
    - destruct (Z_lt_le_dec 1 M); [rewrite Z.mod_1_l by lia; lia|].
      destruct (Z_lt_le_dec 0 M); [replace M with 1 by lia; cbn; lia|].
      pose proof (Z.mod_neg_bound 1 M ltac:(lia)). lia.
    - destruct (Z_lt_le_dec M (-1)).
      + replace (-1 mod M) with (-1) by (apply (Z.mod_unique _ _ 0); lia). lia.
      + destruct (Z_lt_le_dec M 0); [replace M with (-1) by lia; cbn; lia|].
        pose proof (Z.mod_pos_bound (-1) M ltac:(lia)). lia. }
  destruct (Z.eq_dec (Z.abs B) 1) as [B1|B1].
  { exists (B ^ E). split; [|split; [auto|tauto]].
    apply computes_intro with O. intros fuel _. rewrite (pow_m1_one B E HE B1). apply int_pow_one; auto. }
  destruct (Z.eq_dec E 0) as [->|E0].
  { exists 1. split; [apply int_pow_zero_exp with B; auto|]. split; [|lia]. intros H. apply SMALL; auto. }
  assert (EP: 0 < E) by lia.
  destruct (pow_mod_value b e m B E M Hb He Hm B1 EP HM) as (V1 & V2). clear SMALL ONE.
  set (signed := fewer (kept (Z.abs M) (Z.abs B) E) M) in *.
  assert (D: (M | B ^ E) <-> B ^ E mod M = 0) by (symmetry; apply Z.mod_divide; auto).
  assert (PA: Z.abs B ^ E = Z.abs (B ^ E)) by (symmetry; apply Z.abs_pow). rewrite PA in V1, V2.
  assert (SG: B ^ E < 0 <-> B < 0 /\ Z.odd E = true).
  { split.
    - intros H. destruct (Z_lt_le_dec B 0) as [NB|NB]; [|pose proof (Z.pow_nonneg B E NB); lia]. split; auto.
      destruct (Z.odd E) eqn:OD; auto. rewrite (even_pow_abs B E) in H by (auto; lia).
      pose proof (Z.pow_nonneg (Z.abs B) E ltac:(lia)). lia.
    - intros (NB & OD). rewrite (odd_pow_abs B E) by (auto; lia). pose proof (Z.pow_pos_nonneg (Z.abs B) E ltac:(lia) HE). lia. }
  set (p := B ^ E) in *. clearbody p.
  (* |p| mod |M| in terms of p mod M *)
  assert (Q: Z.abs p mod Z.abs M = if Z.eq_dec (p mod M) 0 then 0 else
    if Z_lt_le_dec p 0 then if Z_lt_le_dec M 0 then - (p mod M) else M - p mod M
    else if Z_lt_le_dec M 0 then p mod M - M else p mod M).
  { destruct (Z_lt_le_dec p 0), (Z_lt_le_dec M 0).
    - rewrite !Z.abs_neq by lia. rewrite Z.mod_opp_opp by assumption. destruct (Z.eq_dec _ 0); lia.
    - rewrite (Z.abs_neq p), (Z.abs_eq M) by lia.
      destruct (Z.eq_dec (p mod M) 0); [apply Z.mod_opp_l_z; auto|apply Z.mod_opp_l_nz; auto].
    - rewrite (Z.abs_eq p), (Z.abs_neq M) by lia.
      destruct (Z.eq_dec (p mod M) 0); [apply Z.mod_opp_r_z; auto|apply Z.mod_opp_r_nz; auto].
    - rewrite !Z.abs_eq by lia. destruct (Z.eq_dec _ 0); lia. }
  assert (BD: 0 < M /\ 0 <= p mod M < M \/ M < 0 /\ M < p mod M <= 0).
  { destruct (Z_lt_le_dec M 0); [right; pose proof (Z.mod_neg_bound p M ltac:(lia)); lia|left; pose proof (Z.mod_pos_bound p M ltac:(lia)); lia]. }
  assert (dec: signed \/ ~ signed) by (apply fewer_dec; auto).
  assert (CASES: (p < 0 /\ signed) \/ ~ (p < 0 /\ signed)) by (destruct dec; [destruct (Z_lt_le_dec p 0); [left; tauto|right; lia]|right; tauto]).
  destruct CASES as [C|C].
  - exists (- (Z.abs p mod Z.abs M)). split; [apply V1; tauto|]. split; [lia|]. intros _ _. cbv zeta. rewrite D, Q. destruct C as (C & S).
    destruct (Z.eq_dec (p mod M) 0), (Z_lt_le_dec p 0), (Z_lt_le_dec M 0); intuition lia.
  - exists (Z.abs p mod Z.abs M). split; [apply V2; tauto|]. split; [lia|]. intros _ _. cbv zeta. rewrite D, Q.
    destruct (Z.eq_dec (p mod M) 0), (Z_lt_le_dec p 0), (Z_lt_le_dec M 0); intuition lia.
Qed.

Lemma pow_python_refuted :
  (exists b e m r, repr b 3 /\ repr e 2 /\ repr m (-5) /\ int_pow Benign 10 b e m = Ok r /\ value r = 4 /\ 3 ^ 2 mod (-5) = -1) /\
  (exists b e m r, repr b (-2) /\ repr e 3 /\ repr m 7 /\ int_pow Benign 10 b e m = Ok r /\ value r = 1 /\ (-2) ^ 3 mod 7 = 6).
Proof.
  split.
  - exists (MkInt 1 [3]), (MkInt 1 [2]), (MkInt (-1) [5]), (MkInt 1 [4]).
    split; [apply repr_check; reflexivity|]. split; [apply repr_check; reflexivity|]. split; [apply repr_check; reflexivity|].
    vm_compute. auto.
  - exists (MkInt (-1) [2]), (MkInt 1 [3]), (MkInt 1 [7]), (MkInt 1 [1]).
    split; [apply repr_check; reflexivity|]. split; [apply repr_check; reflexivity|]. split; [apply repr_check; reflexivity|].
    vm_compute. auto.
Qed.

Lemma pow_negative_exponent : forall b e m B E, repr b B -> repr e E -> E < 0 ->
  (2 <= Z.abs B -> forall p fuel, returns (int_pow p fuel b e m) 0) /\
  (Z.abs B = 1 -> forall p fuel, returns (int_pow p fuel b e m) (if (B =? -1) && Z.odd E then -1 else 1)) /\
  (B = 0 -> forall p fuel, int_pow p fuel b e m = Throw MathDomain).
Proof.
  intros b e m B E Hb He HE. split; [|split].
  - intros L p fuel. apply int_pow_neg_exp with B E; auto.
  - intros L p fuel. apply int_pow_one; auto.
  - intros -> p fuel. apply int_pow_neg_exp_zero with E; auto.
Qed.
