(** Number of rounds of the loops of Int. *)
From Coq Require Import ZArith List Bool Lia Arith Znumtheory.
From Verif Require Import Outcome IntModel IntSpec RoundSpec IntBase IntAddSub IntMulDiv IntFuncs.
Import ListNotations.
Open Scope Z_scope.

(** ** Factorial *)

Lemma factorial_loop_short : forall p f i r I R, repr i I -> repr r R -> 0 <= I -> Z.of_nat f <= I ->
  factorial_loop p f i r = OutOfFuel.
Proof.
  induction f; intros i r I R Hi Hr HI Hf; auto. cbn [factorial_loop].
  unfold is_positive. rewrite (repr_sign _ _ Hi). destruct (Z.eqb_spec (Z.sgn I) 1); [|lia].
  destruct (int_mul_assign_spec p _ _ _ _ Hr Hi) as (r1 & E1 & R1). rewrite E1; cbn [bind].
  destruct (abs_dec_spec _ _ Hi ltac:(lia)) as (i1 & E2 & R2). rewrite E2; cbn [bind].
  replace (I - Z.sgn I) with (I - 1) in R2 by lia. eapply IHf; eauto; lia.
Qed.

Lemma factorial_rounds : forall p x z, repr x z -> 0 <= z ->
  takes (z + 1) (fun f => int_factorial p f x) (fun o => returns o (Zfact z)).
Proof.
  intros p x z H Hz.
  assert (U: forall f, int_factorial p f x = factorial_loop p f x (MkInt 1 [1])).
  { intros f. unfold int_factorial. rewrite (repr_sign _ _ H).
    destruct (Z.eqb_spec (Z.sgn z) (-1)); [lia|]. rewrite int1. reflexivity. }
  split; intros f Hf; rewrite U.
  - eapply factorial_loop_short; eauto using repr1; lia.
  - rewrite <- (Z.mul_1_l (Zfact z)). apply factorial_loop_spec; auto; [apply repr1|lia].
Qed.

(** ** Primality *)

Lemma prime_loop_short : forall f x i N I, repr x N -> repr i I -> 2 <= I ->
  (forall d, 2 <= d < I + Z.of_nat f -> d * d <= N /\ ~ (d | N)) ->
  prime_loop Benign f x i = OutOfFuel.
Proof.
  induction f; intros x i N I Hx Hi HI Hd; auto. cbn [prime_loop].
  destruct (int_mul_assign_spec Benign _ _ _ _ Hi Hi) as (sq & E1 & R1).
  unfold int_mul. rewrite E1; cbn [bind].
  rewrite (int_le_spec _ _ _ _ R1 Hx). cbn [bind].
  destruct (Hd I ltac:(lia)) as (L & D).
  destruct (Z.leb_spec (I * I) N); [|lia].
  destruct (int_mod_nonneg x i N I Hx Hi ltac:(lia) ltac:(nia)) as (r & E2 & R2).
  rewrite E2; cbn [bind]. rewrite Z.abs_eq in R2 by lia.
  unfold is_zero. rewrite (repr_sign _ _ R2).
  destruct (Z.eqb_spec (Z.sgn (N mod I)) 0).
  { exfalso. apply D. apply Z.mod_divide; lia. }
  destruct (abs_inc_spec _ _ Hi ltac:(lia)) as (i1 & E3 & R3). rewrite E3; cbn [bind].
  replace (I + Z.sgn I) with (I + 1) in R3 by lia.
  eapply IHf; eauto; [lia|]. intros d K. apply Hd. lia.
Qed.

Lemma prime_loop_yes : forall f x i N I, repr x N -> repr i I -> 2 <= I ->
  (forall d, 2 <= d -> d * d <= N -> ~ (d | N)) -> 0 <= N ->
  Z.sqrt N + 2 - I <= Z.of_nat f -> (0 < f)%nat ->
  prime_loop Benign f x i = Ok true.
Proof.
  induction f; intros x i N I Hx Hi HI Hd HN Hf Hf0; [lia|]. cbn [prime_loop].
  destruct (int_mul_assign_spec Benign _ _ _ _ Hi Hi) as (sq & E1 & R1).
  unfold int_mul. rewrite E1; cbn [bind].
  rewrite (int_le_spec _ _ _ _ R1 Hx). cbn [bind].
  destruct (Z.leb_spec (I * I) N); auto.
  destruct (int_mod_nonneg x i N I Hx Hi ltac:(lia) ltac:(nia)) as (r & E2 & R2).
  rewrite E2; cbn [bind]. rewrite Z.abs_eq in R2 by lia.
  unfold is_zero. rewrite (repr_sign _ _ R2).
  destruct (Z.eqb_spec (Z.sgn (N mod I)) 0).
  { exfalso. apply (Hd I); auto. apply Z.mod_divide; lia. }
  destruct (abs_inc_spec _ _ Hi ltac:(lia)) as (i1 & E3 & R3). rewrite E3; cbn [bind].
  replace (I + Z.sgn I) with (I + 1) in R3 by lia.
  assert (I <= Z.sqrt N) by (apply Z.sqrt_le_square; lia).
  eapply IHf; eauto; lia.
Qed.

Lemma prime_loop_no : forall f x i N I d, repr x N -> repr i I -> 2 <= I ->
  I <= d -> d * d <= N -> (d | N) -> (forall e, 2 <= e < d -> ~ (e | N)) ->
  d + 1 - I <= Z.of_nat f ->
  prime_loop Benign f x i = Ok false.
Proof.
  induction f; intros x i N I d Hx Hi HI HId Hdd Hdn Hd Hf; [lia|]. cbn [prime_loop].
  destruct (int_mul_assign_spec Benign _ _ _ _ Hi Hi) as (sq & E1 & R1).
  unfold int_mul. rewrite E1; cbn [bind].
  rewrite (int_le_spec _ _ _ _ R1 Hx). cbn [bind].
  assert (I * I <= d * d) by (apply Z.mul_le_mono_nonneg; lia).
  destruct (Z.leb_spec (I * I) N); [|lia].
  destruct (int_mod_nonneg x i N I Hx Hi ltac:(lia) ltac:(nia)) as (r & E2 & R2).
  rewrite E2; cbn [bind]. rewrite Z.abs_eq in R2 by lia.
  unfold is_zero. rewrite (repr_sign _ _ R2).
  destruct (Z.eqb_spec (Z.sgn (N mod I)) 0); auto.
  assert (I <> d). { intros ->. apply Z.mod_divide in Hdn; lia. }
  destruct (abs_inc_spec _ _ Hi ltac:(lia)) as (i1 & E3 & R3). rewrite E3; cbn [bind].
  replace (I + Z.sgn I) with (I + 1) in R3 by lia.
  apply (IHf x i1 N (I + 1) d); auto; lia.
Qed.

Lemma is_prime_unfold : forall f x z, repr x z -> 2 <= z ->
  int_is_prime Benign f x = prime_loop Benign f x (MkInt 1 [2]).
Proof.
  intros f x z H Hz. unfold int_is_prime. rewrite int1; cbn [bind].
  rewrite (int_le_spec _ _ _ _ H repr1). cbn [bind].
  destruct (Z.leb_spec z 1); [lia|]. rewrite int2; reflexivity.
Qed.

Lemma is_prime_small : forall f x z, repr x z -> z <= 1 -> int_is_prime Benign f x = Ok false.
Proof.
  intros f x z H Hz. unfold int_is_prime. rewrite int1; cbn [bind].
  rewrite (int_le_spec _ _ _ _ H repr1). cbn [bind].
  destruct (Z.leb_spec z 1); [auto|lia].
Qed.

Lemma is_prime_rounds_yes : forall x z, repr x z -> prime z ->
  takes (Z.sqrt z) (fun f => int_is_prime Benign f x) (fun o => o = Ok true).
Proof.
  intros x z H P. assert (2 <= z) by (destruct P; lia).
  assert (1 <= Z.sqrt z) by (apply Z.sqrt_le_square; lia).
  assert (ND: forall d, 2 <= d -> d * d <= z -> ~ (d | z)).
  { intros d Hd L D. destruct (prime_divisors z P d D) as [|[|[|]]]; nia. }
  split; intros f Hf; rewrite (is_prime_unfold _ _ _ H) by auto.
  - eapply prime_loop_short; eauto using repr2; [lia|]. intros d Hd.
    assert (d * d <= z) by (apply Z.sqrt_le_square; lia). split; auto. apply ND; lia.
  - eapply prime_loop_yes; eauto using repr2; lia.
Qed.

Lemma least_factor_sq : forall z d, 2 <= z -> ~ prime z -> least_factor z d -> d * d <= z.
Proof.
  intros z d Hz NP (D2 & (e & E) & DM).
  destruct (Z.le_gt_cases (d * d) z) as [|G]; auto. exfalso.
  assert (0 < e) by nia. assert (e < d) by nia.
  destruct (Z.eq_dec e 1).
  - apply NP. subst e. replace d with z in * by lia. apply prime_alt. split; [lia|].
    intros n Hn. apply DM. lia.
  - apply (DM e); [lia|]. exists d. lia.
Qed.

Lemma is_prime_rounds_no : forall x z d, repr x z -> 2 <= z -> ~ prime z -> least_factor z d ->
  takes (d - 1) (fun f => int_is_prime Benign f x) (fun o => o = Ok false) /\ d - 1 < Z.sqrt z.
Proof.
  intros x z d H Hz NP L. pose proof (least_factor_sq z d Hz NP L) as SQ. destruct L as (D2 & DZ & DM).
  split; [split; intros f Hf; rewrite (is_prime_unfold _ _ _ H) by auto|].
  - eapply prime_loop_short; eauto using repr2; [lia|]. intros e He. split; [nia|]. apply DM; lia.
  - eapply prime_loop_no; eauto using repr2; lia.
  - assert (d <= Z.sqrt z) by (apply Z.sqrt_le_square; lia). lia.
Qed.

(** ** Power *)

Lemma pow_loop_short : forall f m num n result M B N R, repr m M -> 
  repr num B -> repr n N -> repr result R -> (M <> 0 -> 0 <= B /\ 0 <= R) -> 0 <= N ->
  Z.of_nat f <= Z.log2 N + 1 -> 0 < N ->
  pow_loop Benign f m num n result = OutOfFuel.
Proof.
  induction f; intros m num n result M B N R Hm Hb Hn Hr HP HN Hf HN0; auto.
  cbn [pow_loop].
  unfold is_zero at 1. rewrite (repr_sign _ _ Hn).
  destruct (Z.eqb_spec (Z.sgn N) 0); cbn [negb]; [lia|].
  rewrite (is_odd_spec _ _ Hn). cbn [bind].
  assert (HR1: exists R1, returns (if Z.odd N then t <- int_mul Benign result num ;;
      (if is_zero m then Ok t else int_mod Benign t m) else Ok result) R1 /\ (M <> 0 -> 0 <= R1)).
  { destruct (Z.odd N); [|exists R; split; [exists result; auto|tauto]].
    destruct (int_mul_assign_spec Benign _ _ _ _ Hr Hb) as (t & E & R'). unfold int_mul. rewrite E; cbn [bind].
    unfold is_zero. rewrite (repr_sign _ _ Hm). destruct (Z.eqb_spec (Z.sgn M) 0).
    - exists (R * B). split; [exists t; auto|lia].
    - exists ((R * B) mod Z.abs M). split; [apply int_mod_nonneg; auto; nia|].
      intros _. apply Z.mod_pos_bound. lia. }
  destruct HR1 as (R1 & (r1 & E1 & Q1) & P1). rewrite E1; cbn [bind].
  destruct (int_mul_assign_spec Benign _ _ _ _ Hb Hb) as (sq & E2 & Q2). unfold int_mul. rewrite E2; cbn [bind].
  assert (HB1: exists B1, returns (if is_zero m then Ok sq else int_mod Benign sq m) B1 /\ (M <> 0 -> 0 <= B1)).
  { unfold is_zero. rewrite (repr_sign _ _ Hm). destruct (Z.eqb_spec (Z.sgn M) 0).
    - exists (B * B). split; [exists sq; auto|lia].
    - exists ((B * B) mod Z.abs M). split; [apply int_mod_nonneg; auto; nia|].
      intros _. apply Z.mod_pos_bound. lia. }
  destruct HB1 as (B1 & (n1 & E3 & Q3) & P3). rewrite E3; cbn [bind].
  rewrite int2; cbn [bind].
  destruct (int_div_spec _ _ _ _ Hn repr2 ltac:(lia)) as (nh & E4 & Q4). rewrite E4; cbn [bind].
  rewrite Z.quot_div_nonneg in Q4 by lia.
  destruct (Z.eq_dec N 1) as [->|].
  - change (Z.log2 1) with 0 in Hf. assert (f = O) by lia. subst. reflexivity.
  - assert (0 < N / 2) by (apply Z.div_str_pos; lia).
    assert (Z.log2 N = Z.log2 (N / 2) + 1).
    { pose proof (Z.div_mod N 2 ltac:(lia)). pose proof (Z.mod_pos_bound N 2 ltac:(lia)).
      destruct (Z.eq_dec (N mod 2) 0).
      - replace N with (2 * (N / 2)) at 1 by lia. rewrite Z.log2_double by lia. lia.
      - replace N with (2 * (N / 2) + 1) at 1 by lia. rewrite Z.log2_succ_double by lia. lia. }
    eapply IHf; eauto; lia.
Qed.

Lemma pow_rounds_any : forall b e m B E M z, repr b B -> repr e E -> repr m M ->
  (M <> 0 -> 0 <= B) -> Z.abs B <> 1 -> 0 < E ->
  (forall f, (0 < f)%nat -> E < 2 ^ Z.of_nat f -> returns (pow_loop Benign (S f) m b e (MkInt 1 [1])) z) ->
  takes (Z.log2 E + 2) (fun f => int_pow Benign f b e m) (fun o => returns o z).
Proof.
  intros b e m B E M z Hb He Hm HM HB HE K.
  assert (U: forall f, int_pow Benign f b e m = pow_loop Benign f m b e (MkInt 1 [1])).
  { intros f. rewrite (int_pow_unfold _ _ _ _ _ _ Hb). destruct (Z.eqb_spec (Z.abs B) 1); [lia|].
    unfold is_negative. rewrite (repr_sign _ _ He). destruct (Z.eqb_spec (Z.sgn E) (-1)); [lia|].
    rewrite int1; reflexivity. }
  pose proof (Z.log2_nonneg E). pose proof (Z.log2_spec E HE).
  split; intros f Hf; rewrite U.
  - eapply pow_loop_short; eauto using repr1; try lia.
  - destruct f as [|[|f]]; try lia. apply K; [lia|].
    apply Z.lt_le_trans with (2 ^ Z.succ (Z.log2 E)); [lia|]. apply Z.pow_le_mono_r; lia.
Qed.

Lemma pow_rounds : forall b e B E, repr b B -> repr e E -> Z.abs B <> 1 -> 0 < E ->
  takes (Z.log2 E + 2) (fun f => int_pow Benign f b e (MkInt 0 [])) (fun o => returns o (B ^ E)).
Proof.
  intros b e B E Hb He HB HE. eapply pow_rounds_any; eauto using repr_zero; [lia|].
  intros f F0 F1. rewrite <- (Z.mul_1_l (B ^ E)). apply pow_loop_spec; auto; [apply repr1|lia].
Qed.

Lemma pow_mod_rounds : forall b e m B E M, repr b B -> repr e E -> repr m M -> M <> 0 -> 0 <= B -> B <> 1 -> 0 < E ->
  takes (Z.log2 E + 2) (fun f => int_pow Benign f b e m) (fun o => returns o (B ^ E mod Z.abs M)).
Proof.
  intros b e m B E M Hb He Hm HM HB HB1 HE. eapply pow_rounds_any; eauto; [lia|].
  intros f F0 F1.
  pose proof (pow_loop_mod_spec f m b e _ M B E 1 Hm HM Hb He repr1 HB ltac:(lia) ltac:(lia) F0) as K.
  destruct (Z.eqb_spec E 0); [lia|]. rewrite Z.mul_1_l in K. exact K.
Qed.

(** ** Logarithm *)

Lemma log_loop_rounds : forall k value base result V B R, repr value V -> repr base B -> repr result R ->
  2 <= B -> (V = 0 /\ k = O \/ (0 < k)%nat /\ B ^ (Z.of_nat k - 1) <= V < B ^ Z.of_nat k) ->
  (forall f, (f <= k)%nat -> log_loop Benign f value base result = OutOfFuel) /\
  (forall f, (k < f)%nat -> returns (log_loop Benign f value base result) (R + Z.of_nat k)).
Proof.
  induction k; intros value base result V B R Hv Hb Hr HB HV.
  - assert (V = 0) by lia. subst. split; intros [|f] Hf; try lia; auto.
    cbn [log_loop]. unfold is_zero. rewrite (repr_sign _ _ Hv). cbn. rewrite Z.add_0_r. exists result; auto.
  - destruct HV as [|(_ & HV)]; [lia|].
    replace (Z.of_nat (S k) - 1) with (Z.of_nat k) in HV by lia.
    assert (0 < B ^ Z.of_nat k) by (apply Z.pow_pos_nonneg; lia).
    destruct (int_inc_spec _ _ Hr) as (r1 & E1 & R1).
    destruct (int_div_spec _ _ _ _ Hv Hb ltac:(lia)) as (v1 & E2 & R2).
    rewrite Z.quot_div_nonneg in R2 by lia.
    assert (U: forall f, log_loop Benign (S f) value base result = log_loop Benign f v1 base r1).
    { intros f. cbn [log_loop]. unfold is_zero. rewrite (repr_sign _ _ Hv).
      destruct (Z.eqb_spec (Z.sgn V) 0); [lia|]. cbn [negb]. rewrite E1; cbn [bind]. rewrite E2; reflexivity. }
    rewrite Nat2Z.inj_succ, Z.pow_succ_r in HV by lia.
    assert (V / B < B ^ Z.of_nat k) by (apply Z.div_lt_upper_bound; lia).
    destruct (IHk v1 base r1 (V / B) B (R + 1) R2 Hb R1 HB) as (K1 & K2).
    { destruct k; [left|right].
      - change (Z.of_nat 0) with 0 in *. rewrite Z.pow_0_r in *.
        assert (0 <= V / B) by (apply Z.div_pos; lia). split; auto; lia.
      - split; [lia|]. split; auto. apply Z.div_le_lower_bound; [lia|].
        rewrite <- Z.pow_succ_r by lia. replace (Z.succ (Z.of_nat (S k) - 1)) with (Z.of_nat (S k)) by lia. lia. }
    split; intros [|f] Hf; try lia; auto; rewrite U.
    + apply K1; lia.
    + replace (R + Z.of_nat (S k)) with (R + 1 + Z.of_nat k) by lia. apply K2; lia.
Qed.

Lemma log_rounds : forall n b N B k, repr n N -> repr b B -> 2 <= B -> B <> 10 -> 0 <= k -> B ^ k <= N < B ^ (k + 1) ->
  takes (k + 1) (fun f => int_log Benign f n b) (fun o => returns o k).
Proof.
  intros n b N B k Hn Hb HB HB10 Hk HK.
  assert (0 < B ^ k) by (apply Z.pow_pos_nonneg; lia).
  destruct (int_div_spec _ _ _ _ Hn Hb ltac:(lia)) as (v & E & R).
  rewrite Z.quot_div_nonneg in R by lia.
  assert (U: forall f, int_log Benign f n b = log_loop Benign f v b (MkInt 0 [])).
  { intros f. unfold int_log. rewrite int2; cbn [bind].
    rewrite (repr_sign _ _ Hn), (int_lt_spec _ _ _ _ Hb repr2).
    destruct (Z.leb_spec (Z.sgn N) 0); [lia|]. cbn [bind].
    destruct (Z.ltb_spec B 2); [lia|]. rewrite int10; cbn [bind].
    rewrite (int_eqb_spec _ _ _ _ Hb repr10). destruct (Z.eqb_spec B 10); [lia|].
    rewrite int0; cbn [bind]. rewrite E. reflexivity. }
  rewrite Z.pow_add_r, Z.pow_1_r in HK by lia.
  assert (N / B < B ^ k) by (apply Z.div_lt_upper_bound; lia).
  destruct (log_loop_rounds (Z.to_nat k) v b (MkInt 0 []) (N / B) B 0 R Hb repr_zero HB) as (K1 & K2).
  { rewrite Z2Nat.id by auto. destruct (Z.eq_dec k 0) as [->|]; [left|right].
    - rewrite Z.pow_0_r in *. assert (0 <= N / B) by (apply Z.div_pos; lia). split; auto; lia.
    - split; [lia|]. split; auto. apply Z.div_le_lower_bound; [lia|].
      rewrite <- Z.pow_succ_r by lia. replace (Z.succ (k - 1)) with k by lia. lia. }
  rewrite Z2Nat.id in K2 by auto.
  split; intros f Hf; rewrite U; [apply K1|apply K2]; lia.
Qed.

(** ** Greatest common divisor: Lame's bound *)

Fixpoint fib (n : nat) : Z :=
  match n with O => 0 | S O => 1 | S (S m as k) => fib k + fib m end.

Lemma fib_SS : forall n, fib (S (S n)) = fib (S n) + fib n.
Proof. reflexivity. Qed.

Lemma fib_nonneg : forall n, 0 <= fib n /\ 0 <= fib (S n).
Proof. induction n; [simpl; lia|]. rewrite fib_SS. lia. Qed.

Lemma fib_grow : forall n, 3 * fib (S (S n)) <= 2 * fib (S (S (S n))).
Proof.
  intros n. destruct n as [|n]; [simpl; lia|].
  pose proof (fib_nonneg n). rewrite (fib_SS (S (S n))), (fib_SS (S n)), (fib_SS n). lia.
Qed.

Lemma fib_ten : forall d, 10 ^ Z.of_nat d <= fib (5 * d + 2).
Proof.
  induction d; [simpl; lia|].
  rewrite Nat2Z.inj_succ, Z.pow_succ_r by lia.
  replace (5 * S d + 2)%nat with (5 + (5 * d + 2))%nat by lia. cbn [Nat.add].
  replace (5 * d + 2)%nat with (S (S (5 * d))) in * by lia.
  rewrite (fib_SS (S (S (S (S (S (5 * d))))))), (fib_SS (S (S (S (S (5 * d)))))), (fib_SS (S (S (S (5 * d))))),
    (fib_SS (S (S (5 * d)))).
  pose proof (fib_grow (5 * d)). pose proof (fib_nonneg (S (S (5 * d)))). lia.
Qed.

(** [f] tests are enough when the divisor is below [fib (f + 1)] or the dividend below [fib (f + 2)],
    the dividend being the larger. *)
Lemma gcd_loop_fib : forall f a b A B, repr a A -> repr b B -> 0 <= B -> B < A ->
  B < fib (S f) \/ A < fib (S (S f)) -> (0 < f)%nat ->
  returns (gcd_loop Benign f a b) (Z.gcd A B).
Proof.
  induction f; intros a b A B Ha Hb HB HA HF Hf; [lia|]. cbn [gcd_loop]. rewrite int0; cbn [bind].
  rewrite (int_eqb_spec _ _ _ _ Hb repr_zero). destruct (Z.eqb_spec B 0); cbn [negb].
  - subst. rewrite Z.gcd_0_r, Z.abs_eq by lia. exists a; auto.
  - destruct (int_mod_nonneg _ _ _ _ Ha Hb ltac:(lia) ltac:(lia)) as (r & E & R). rewrite E; cbn [bind].
    rewrite Z.abs_eq in R by lia. pose proof (Z.mod_pos_bound A B ltac:(lia)).
    replace (Z.gcd A B) with (Z.gcd B (A mod B)).
    2:{ rewrite Z.gcd_comm, Z.gcd_mod by lia. apply Z.gcd_comm. }
    pose proof (Z.div_mod A B ltac:(lia)). assert (1 <= A / B) by (apply Z.div_le_lower_bound; lia).
    assert (B + A mod B <= A) by nia.
    destruct f as [|f].
    + simpl in HF. lia.
    + apply IHf; auto; try lia. rewrite (fib_SS (S (S f))) in HF. lia.
Qed.

Lemma fib_mono : forall k n, fib (S n) <= fib (k + S n).
Proof.
  induction k; intros n; [apply Z.le_refl|]. cbn [Nat.add]. destruct (k + S n)%nat as [|j] eqn:E; [lia|].
  rewrite fib_SS. pose proof (fib_nonneg j). specialize (IHk n). rewrite E in IHk. lia.
Qed.

Lemma gcd_rounds : forall a b A B d, repr a A -> repr b B -> decimal_digits B d ->
  takes_at_most (5 * d + 1) (fun f => int_gcd Benign f a b) (fun o => returns o (Z.gcd A B)).
Proof.
  intros a b A B d Ha Hb (D1 & D2 & _) fuel Hf. unfold int_gcd.
  rewrite <- Z.gcd_abs_l, <- Z.gcd_abs_r.
  pose proof (int_abs_spec _ _ Ha) as Ra. pose proof (int_abs_spec _ _ Hb) as Rb.
  assert (DF: Z.abs B < fib (S fuel)).
  { pose proof (fib_ten (Z.to_nat d)) as T. rewrite Z2Nat.id in T by lia.
    pose proof (fib_mono (S fuel - (5 * Z.to_nat d + 2)) (5 * Z.to_nat d + 1)) as K.
    replace (S (5 * Z.to_nat d + 1)) with (5 * Z.to_nat d + 2)%nat in K by lia.
    replace (S fuel - (5 * Z.to_nat d + 2) + (5 * Z.to_nat d + 2))%nat with (S fuel) in K by lia. lia. }
  destruct (Z.lt_ge_cases (Z.abs B) (Z.abs A)).
  - apply gcd_loop_fib; auto; try lia.
  - destruct fuel as [|[|f]]; try lia. remember (S f) as g. cbn [gcd_loop]. rewrite int0; cbn [bind].
    rewrite (int_eqb_spec _ _ _ _ Rb repr_zero). destruct (Z.eqb_spec (Z.abs B) 0); cbn [negb].
    + replace (Z.abs A) with 0 by lia. replace (Z.abs B) with 0 by lia.
      eexists; split; [reflexivity|]. change (Z.gcd 0 0) with 0. replace 0 with (Z.abs A) by lia. auto.
    + destruct (int_mod_nonneg _ _ _ _ Ra Rb ltac:(lia) ltac:(lia)) as (r & E & R). rewrite E; cbn [bind].
      rewrite (Z.abs_eq (Z.abs B)) in R by lia. pose proof (Z.mod_pos_bound (Z.abs A) (Z.abs B) ltac:(lia)).
      replace (Z.gcd (Z.abs A) (Z.abs B)) with (Z.gcd (Z.abs B) (Z.abs A mod Z.abs B)).
      2:{ rewrite Z.gcd_comm, Z.gcd_mod by lia. apply Z.gcd_comm. }
      subst g. apply gcd_loop_fib; auto; lia.
Qed.

(** ** Square root: the error is halved every round, and squared once it is small *)

Lemma newton_half : forall N C, 0 <= N -> Z.sqrt N < C -> newton N C - Z.sqrt N <= (C - Z.sqrt N) / 2.
Proof.
  intros N C HN HC. pose proof (sqrt_sp N HN). pose proof (Z.sqrt_nonneg N).
  assert (N / C <= Z.sqrt N).
  { apply Z.lt_succ_r. apply Z.div_lt_upper_bound; [lia|]. nia. }
  unfold newton.
  assert ((C + N / C) / 2 <= (C + Z.sqrt N) / 2) by (apply Z.div_le_mono; lia).
  replace (C + Z.sqrt N) with (C - Z.sqrt N + Z.sqrt N * 2) in H2 by ring.
  rewrite Z.div_add in H2 by lia. lia.
Qed.

Lemma sqrt_loop_half : forall k f n cur pre N C P, repr n N -> repr cur C -> repr pre P ->
  4 <= N -> ~ pred_square N -> Z.sqrt N <= C -> C <> P -> C - Z.sqrt N < 2 ^ Z.of_nat k ->
  (k + 2 <= f)%nat ->
  returns (sqrt_loop Benign f n cur pre) (Z.sqrt N).
Proof.
  induction k; intros f n cur pre N C P Hn Hc Hp HN HS HC HCP Hk Hf.
  - eapply sqrt_loop_conv; eauto. change (2 ^ Z.of_nat 0) with 1 in Hk. lia.
  - assert (2 <= Z.sqrt N) by (apply Z.sqrt_le_square; lia).
    destruct (Z.eq_dec C (Z.sqrt N)); [eapply sqrt_loop_conv; eauto; lia|].
    destruct f; [lia|].
    rewrite sqrt_loop_S, (int_eqb_spec _ _ _ _ Hc Hp).
    destruct (Z.eqb_spec C P); [lia|]. cbn [negb].
    destruct (sqrt_step n cur N C Hn Hc HN ltac:(lia)) as (c & E & R). rewrite E; cbn [bind].
    pose proof (newton_ge N C ltac:(lia) ltac:(lia)).
    pose proof (newton_half N C ltac:(lia) ltac:(lia)).
    pose proof (newton_lt N C ltac:(lia) ltac:(lia)).
    eapply IHk; eauto; try lia.
    rewrite Nat2Z.inj_succ, Z.pow_succ_r in Hk by lia.
    apply Z.le_lt_trans with ((C - Z.sqrt N) / 2); auto. apply Z.div_lt_upper_bound; lia.
Qed.

(** Once the error is small, its relative size is squared by every round. *)
Lemma newton_quad : forall N C, 0 <= N -> Z.sqrt N < C ->
  2 * C * (newton N C - Z.sqrt N) <= (C - Z.sqrt N) * (C - Z.sqrt N) + 2 * Z.sqrt N.
Proof.
  intros N C HN HC. pose proof (sqrt_sp N HN). pose proof (Z.sqrt_nonneg N).
  assert (2 * newton N C <= C + N / C) by (unfold newton; apply Z.mul_div_le; lia).
  assert (C * (N / C) <= N) by (apply Z.mul_div_le; lia).
  set (m := newton N C) in *. set (q := N / C) in *. set (s := Z.sqrt N) in *. clearbody m q s.
  assert (2 * C * m <= C * C + N) by nia. nia.
Qed.

Lemma quad_step : forall N C t, 0 <= N -> Z.sqrt N < C -> 1 <= t -> (C - Z.sqrt N) * t <= Z.sqrt N ->
  (2 * (t * t) <= Z.sqrt N -> (newton N C - Z.sqrt N) * (t * t) <= Z.sqrt N) /\
  (Z.sqrt N < 2 * (t * t) -> newton N C - Z.sqrt N <= 1).
Proof.
  intros N C t HN HC Ht He. pose proof (newton_quad N C HN HC) as Q. pose proof (Z.sqrt_nonneg N).
  set (e' := newton N C - Z.sqrt N) in *. set (s := Z.sqrt N) in *. clearbody e' s.
  set (e := C - s) in *. assert (0 < e) by lia. assert (C = s + e) by lia. clearbody e. subst C.
  assert (QT: 2 * (s + e) * (e' * (t * t)) <= s * s + 2 * s * (t * t)).
  { apply Z.le_trans with ((e * e + 2 * s) * (t * t)).
    - replace (2 * (s + e) * (e' * (t * t))) with (2 * (s + e) * e' * (t * t)) by ring.
      apply Z.mul_le_mono_nonneg_r; nia.
    - replace ((e * e + 2 * s) * (t * t)) with (e * t * (e * t) + 2 * s * (t * t)) by ring.
      assert (e * t * (e * t) <= s * s) by (apply Z.mul_le_mono_nonneg; nia). lia. }
  set (T := t * t) in *. assert (1 <= T) by (unfold T; nia). clearbody T.
  split; intros HT.
  - assert (2 * s * T <= s * s) by nia.
    destruct (Z.le_gt_cases (e' * T) s) as [|G]; auto. exfalso.
    assert (2 * (s + e) * (s + 1) <= 2 * (s + e) * (e' * T)) by (apply Z.mul_le_mono_nonneg_l; lia). nia.
  - destruct (Z.le_gt_cases e' 1) as [|G]; auto. exfalso.
    assert (2 * (s + e) * (2 * T) <= 2 * (s + e) * (e' * T)) by (apply Z.mul_le_mono_nonneg_l; nia).
    assert (s * s <= s * (2 * T)) by (apply Z.mul_le_mono_nonneg_l; lia). nia.
Qed.

Lemma sqrt_loop_quad : forall j f n cur pre N C P t, repr n N -> repr cur C -> repr pre P ->
  4 <= N -> ~ pred_square N -> Z.sqrt N <= C -> C <> P -> 1 <= t ->
  (C - Z.sqrt N) * t <= Z.sqrt N -> Z.sqrt N < 2 * (t ^ (2 ^ Z.of_nat j) * t ^ (2 ^ Z.of_nat j)) ->
  (j + 4 <= f)%nat ->
  returns (sqrt_loop Benign f n cur pre) (Z.sqrt N).
Proof.
  induction j; intros f n cur pre N C P t Hn Hc Hp HN HS HC HCP Ht He Hj Hf;
    (assert (2 <= Z.sqrt N) by (apply Z.sqrt_le_square; lia));
    (destruct (Z.eq_dec C (Z.sqrt N)); [eapply sqrt_loop_conv; eauto; lia|]);
    (destruct f; [lia|]);
    rewrite sqrt_loop_S, (int_eqb_spec _ _ _ _ Hc Hp);
    (destruct (Z.eqb_spec C P); [lia|]); cbn [negb];
    destruct (sqrt_step n cur N C Hn Hc HN ltac:(lia)) as (c & E & R); rewrite E; cbn [bind];
    pose proof (newton_ge N C ltac:(lia) ltac:(lia));
    pose proof (newton_lt N C ltac:(lia) ltac:(lia));
    destruct (quad_step N C t ltac:(lia) ltac:(lia) Ht He) as (Q1 & Q2).
  - change (2 ^ Z.of_nat 0) with 1 in Hj. rewrite Z.pow_1_r in Hj.
    eapply sqrt_loop_half with (k := 1%nat); eauto; try lia.
  - destruct (Z.lt_ge_cases (Z.sqrt N) (2 * (t * t))) as [S1|S1].
    + eapply sqrt_loop_half with (k := 1%nat); eauto; try lia.
    + eapply (IHj f n c cur N (newton N C) C (t * t)); eauto; try lia.
      rewrite Nat2Z.inj_succ, Z.pow_succ_r in Hj by lia.
      rewrite Z.pow_mul_r, Z.pow_2_r in Hj by (try apply Z.pow_nonneg; lia). auto.
Qed.

Lemma sqrt_loop_near : forall h j f n cur pre N C P, repr n N -> repr cur C -> repr pre P ->
  4 <= N -> ~ pred_square N -> Z.sqrt N <= C -> C <> P ->
  (C - Z.sqrt N) * 2 <= Z.sqrt N * 2 ^ Z.of_nat h -> Z.sqrt N < 2 * (2 ^ (2 ^ Z.of_nat j) * 2 ^ (2 ^ Z.of_nat j)) ->
  (h + j + 4 <= f)%nat ->
  returns (sqrt_loop Benign f n cur pre) (Z.sqrt N).
Proof.
  induction h; intros j f n cur pre N C P Hn Hc Hp HN HS HC HCP He Hj Hf.
  - change (2 ^ Z.of_nat 0) with 1 in He. eapply (sqrt_loop_quad j); eauto; lia.
  - assert (2 <= Z.sqrt N) by (apply Z.sqrt_le_square; lia).
    destruct (Z.eq_dec C (Z.sqrt N)); [eapply sqrt_loop_conv; eauto; lia|].
    destruct f; [lia|].
    rewrite sqrt_loop_S, (int_eqb_spec _ _ _ _ Hc Hp).
    destruct (Z.eqb_spec C P); [lia|]. cbn [negb].
    destruct (sqrt_step n cur N C Hn Hc HN ltac:(lia)) as (c & E & R). rewrite E; cbn [bind].
    pose proof (newton_ge N C ltac:(lia) ltac:(lia)).
    pose proof (newton_lt N C ltac:(lia) ltac:(lia)).
    pose proof (newton_half N C ltac:(lia) ltac:(lia)).
    eapply (IHh j); eauto; try lia.
    rewrite Nat2Z.inj_succ, Z.pow_succ_r in He by lia.
    pose proof (Z.mul_div_le (C - Z.sqrt N) 2 ltac:(lia)). nia.
Qed.

Lemma sqrt_rounds : forall x z d, repr x z -> 0 <= z -> z < 4 \/ ~ pred_square z -> decimal_digits z d ->
  takes_at_most (Z.log2 d + 8) (fun f => int_sqrt Benign f x) (fun o => returns o (Z.sqrt z)).
Proof.
  intros x z d H Hz Hs (D1 & D2 & D3) fuel Hf. destruct (Z.lt_ge_cases z 4) as [L|L].
  { apply int_sqrt_small; auto. }
  destruct Hs as [|HS]; [lia|].
  pose proof (digits_count _ _ H ltac:(lia)) as DC. rewrite Z.abs_eq in * by lia.
  set (len := length (chunks x)) in *.
  rewrite (int_sqrt_big _ _ _ _ H L).
  fold len. set (k := Nat.div len 2).
  assert (K2: len = (2 * k)%nat \/ len = (2 * k + 1)%nat).
  { unfold k. pose proof (Nat.div_mod len 2 ltac:(lia)). pose proof (Nat.mod_upper_bound len 2 ltac:(lia)). lia. }
  set (C0 := p10 k). pose proof (p10_pos k) as HC0. fold C0 in HC0.
  assert (SQ: 10 ^ Z.of_nat (2 * k) = C0 * C0).
  { change (10 ^ Z.of_nat (2 * k)) with (p10 (2 * k)). replace (2 * k)%nat with (k + k)%nat by lia. apply p10_add. }
  set (s := Z.sqrt z). assert (2 <= s) by (apply Z.sqrt_le_square; lia).
  pose proof (sqrt_sp z Hz) as SS. fold s in SS.
  pose proof (newton_ge z C0 ltac:(lia) ltac:(lia)) as NG. fold s in NG.
  pose proof (Z.log2_nonneg d) as LN. pose proof (Z.log2_spec d ltac:(lia)) as LS.
  set (j := S (Z.to_nat (Z.log2 d))).
  assert (DJ: d <= 2 ^ Z.of_nat j) by (unfold j; rewrite Nat2Z.inj_succ, Z2Nat.id by lia; lia).
  assert (SJ: s < 2 * (2 ^ 2 ^ Z.of_nat j * 2 ^ 2 ^ Z.of_nat j)).
  { rewrite <- Z.pow_add_r by (apply Z.pow_nonneg; lia). rewrite <- Z.pow_succ_r by (apply Z.add_nonneg_nonneg; apply Z.pow_nonneg; lia).
    apply Z.lt_le_trans with (2 ^ (2 * d)); [|apply Z.pow_le_mono_r; lia].
    apply Z.square_lt_simpl_nonneg; [apply Z.pow_nonneg; lia|].
    rewrite <- Z.pow_add_r by lia. replace (2 * d + 2 * d) with (4 * d) by ring.
    rewrite Z.pow_mul_r by lia. change (2 ^ 4) with 16.
    apply Z.le_lt_trans with z; [lia|]. apply Z.lt_le_trans with (10 ^ d); [lia|]. apply Z.pow_le_mono_l; lia. }
  destruct K2 as [EV|OD].
  - rewrite EV in DC. rewrite SQ in DC.
    assert (1 <= k)%nat.
    { destruct k; [|lia]. exfalso. unfold C0 in DC. rewrite p10_0 in DC. lia. }
    assert (10 ^ (Z.of_nat (2 * k) - 1) * 10 = C0 * C0).
    { rewrite <- SQ, Z.mul_comm, <- Z.pow_succ_r by lia. f_equal. lia. }
    assert (10 <= z).
    { apply Z.le_trans with (10 ^ (Z.of_nat (2 * k) - 1)); [|lia].
      replace 10 with (10 ^ 1) at 1 by reflexivity. apply Z.pow_le_mono_r; lia. }
    assert (3 <= s) by (apply Z.sqrt_le_square; lia).
    assert (s < C0) by nia.
    assert (C0 < 5 * s) by nia.
    eapply sqrt_loop_near with (h := 3%nat) (j := j); eauto using sqrt_start, repr_zero; fold C0; fold s; try lia.
  - rewrite OD in DC. replace (Z.of_nat (2 * k + 1) - 1) with (Z.of_nat (2 * k)) in DC by lia.
    replace (Z.of_nat (2 * k + 1)) with (Z.succ (Z.of_nat (2 * k))) in DC by lia.
    rewrite Z.pow_succ_r, SQ in DC by lia.
    destruct (Z.eq_dec C0 s) as [EQ|NE].
    { eapply sqrt_loop_conv; eauto using sqrt_start, repr_zero; fold C0; fold s; try lia. }
    assert (C0 < s) by nia.
    destruct fuel; [lia|]. rewrite sqrt_loop_S, (int_eqb_spec _ _ _ _ (sqrt_start k) repr_zero).
    fold C0. destruct (Z.eqb_spec C0 0); [lia|]. cbn [negb].
    destruct (sqrt_step x _ z C0 H (sqrt_start k) L ltac:(lia)) as (c & E & R). fold C0 in R. fold C0 in E. rewrite E; cbn [bind].
    assert (Q5: z / C0 < 5 * s).
    { assert (C0 * (z / C0) <= z) by (apply Z.mul_div_le; lia).
      destruct (Z.lt_ge_cases (z / C0) (5 * s)) as [|G]; auto. exfalso.
      assert (C0 * (5 * s) <= z) by nia.
      assert (A1: C0 * (5 * s) * (C0 * (5 * s)) <= z * z) by (apply Z.mul_le_mono_nonneg; nia).
      assert (A2: z * z < z * (10 * (C0 * C0))) by (apply Z.mul_lt_mono_pos_l; lia).
      assert (A3: C0 * C0 * (25 * (s * s)) < C0 * C0 * (10 * z)).
      { replace (C0 * C0 * (25 * (s * s))) with (C0 * (5 * s) * (C0 * (5 * s))) by ring.
        replace (C0 * C0 * (10 * z)) with (z * (10 * (C0 * C0))) by ring. lia. }
      apply Z.mul_lt_mono_pos_l in A3; [|nia]. nia. }
    assert (NB: newton z C0 <= 3 * s) by (unfold newton; apply Z.div_le_upper_bound; lia).
    eapply sqrt_loop_near with (h := 2%nat) (j := j); eauto using sqrt_start; fold C0; fold s; try lia.
Qed.
