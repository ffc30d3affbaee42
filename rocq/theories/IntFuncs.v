(** Factorial, primes, square root, power, logarithm, gcd and lcm. *)
From Coq Require Import ZArith List Bool Lia Arith Znumtheory Factorial Wf_nat Zpow_facts.
From Verif Require Import Outcome IntModel IntSpec IntBase IntAddSub IntMulDiv.
Import ListNotations.
Open Scope Z_scope.

Lemma computes_intro : forall f z n, (forall fuel, (n <= fuel)%nat -> returns (f fuel) z) -> computes f z.
Proof.
  intros f z n H. destruct (H n (le_n n)) as (r & E & R). exists r. split; auto.
  apply converges_ok_intro with n. intros fuel Hf.
  eapply returns_unique; eauto.
Qed.

(** ** Factorial *)


Lemma Zfact_step : forall n, 0 < n -> Zfact n = n * Zfact (n - 1).
Proof.
  intros n H. unfold Zfact. replace (Z.to_nat n) with (S (Z.to_nat (n - 1))) by lia.
  cbn [fact]. change (fact (Z.to_nat (n - 1)) + Z.to_nat (n - 1) * fact (Z.to_nat (n - 1)))%nat
    with (S (Z.to_nat (n - 1)) * fact (Z.to_nat (n - 1)))%nat.
  rewrite Nat2Z.inj_mul. f_equal. lia.
Qed.

Lemma factorial_loop_spec : forall p f i r I R, repr i I -> repr r R -> 0 <= I < Z.of_nat f ->
  returns (factorial_loop p f i r) (R * Zfact I).
Proof.
  induction f; intros i r I R Hi Hr HI; [lia|]. cbn [factorial_loop].
  unfold is_positive. rewrite (repr_sign _ _ Hi). destruct (Z.eqb_spec (Z.sgn I) 1).
  - destruct (int_mul_assign_spec p _ _ _ _ Hr Hi) as (r1 & E1 & R1). rewrite E1; cbn [bind].
    destruct (abs_dec_spec _ _ Hi ltac:(lia)) as (i1 & E2 & R2). rewrite E2; cbn [bind].
    replace (I - Z.sgn I) with (I - 1) in R2 by lia.
    rewrite (Zfact_step I) by lia. rewrite Z.mul_assoc. apply IHf; auto. lia.
  - assert (I = 0) by lia. subst. unfold Zfact; simpl. rewrite Z.mul_1_r. exists r; auto.
Qed.

Lemma int_factorial_spec : forall p x z, repr x z -> 0 <= z ->
  computes (fun f => int_factorial p f x) (Zfact z).
Proof.
  intros. apply computes_intro with (S (Z.to_nat z)). intros fuel Hf. unfold int_factorial.
  rewrite (repr_sign _ _ H). destruct (Z.eqb_spec (Z.sgn z) (-1)); [lia|].
  rewrite int1. cbn [bind]. rewrite <- (Z.mul_1_l (Zfact z)). apply factorial_loop_spec; auto; [apply repr1|lia].
Qed.

Lemma int_factorial_neg : forall p f x z, repr x z -> z < 0 ->
  int_factorial p f x = Throw NegativeFactorial.
Proof.
  intros. unfold int_factorial. rewrite (repr_sign _ _ H). destruct (Z.eqb_spec (Z.sgn z) (-1)); auto; lia.
Qed.

(** ** Primality *)

Lemma prime_intro_sqrt : forall N I, 2 <= N -> 2 <= I -> (forall d, 2 <= d < I -> ~ (d | N)) ->
  N < I * I -> prime N.
Proof.
  intros N I HN HI Hd HII. destruct (prime_dec N) as [|NP]; auto. exfalso.
  destruct (not_prime_divide N ltac:(lia) NP) as (d & Hd1 & Hd2).
  destruct Hd2 as (e & He).
  assert (1 < e < N) by nia.
  destruct (Z.lt_ge_cases d I).
  - apply (Hd d); [lia|]. exists e; auto.
  - assert (e < I) by nia. apply (Hd e); [lia|]. exists d; lia.
Qed.

Lemma prime_loop_spec : forall f x i N I, repr x N -> repr i I -> 2 <= I -> 2 <= N ->
  (forall d, 2 <= d < I -> ~ (d | N)) -> N + 2 - I < Z.of_nat f -> 0 < Z.of_nat f ->
  prime_loop Benign f x i = Ok (if prime_dec N then true else false).
Proof.
  induction f; intros x i N I Hx Hi HI HN Hd Hf Hf0; [lia|]. cbn [prime_loop].
  destruct (int_mul_assign_spec Benign _ _ _ _ Hi Hi) as (sq & E1 & R1).
  unfold int_mul. rewrite E1; cbn [bind].
  rewrite (int_le_spec _ _ _ _ R1 Hx). cbn [bind].
  destruct (Z.leb_spec (I * I) N).
  - destruct (int_mod_nonneg x i N I Hx Hi ltac:(lia) ltac:(lia)) as (r & E2 & R2).
    rewrite E2; cbn [bind]. rewrite Z.abs_eq in R2 by lia.
    unfold is_zero. rewrite (repr_sign _ _ R2).
    destruct (Z.eqb_spec (Z.sgn (N mod I)) 0).
    + destruct (prime_dec N) as [PN|]; auto. exfalso.
      assert (I | N) by (apply Z.mod_divide; lia).
      destruct (prime_divisors N PN I H0) as [|[|[|]]]; nia.
    + destruct (abs_inc_spec _ _ Hi ltac:(lia)) as (i1 & E3 & R3). rewrite E3; cbn [bind].
      replace (I + Z.sgn I) with (I + 1) in R3 by lia.
      assert (I <= N) by nia.
      assert (HNd: forall d, 2 <= d < I + 1 -> ~ (d | N)).
      { intros d Hd1. destruct (Z.eq_dec d I); [subst d|apply Hd; lia].
        intros D. apply Z.mod_divide in D; lia. }
      apply (IHf x i1 N (I + 1)); auto; lia.
  - destruct (prime_dec N) as [|NP]; auto. exfalso. apply NP. apply (prime_intro_sqrt N I); auto; lia.
Qed.

Lemma int_is_prime_fuel : forall x z f, repr x z -> (Z.to_nat z + 3 <= f)%nat ->
  int_is_prime Benign f x = Ok (if prime_dec z then true else false).
Proof.
  intros x z f H Hf. unfold int_is_prime. rewrite int1; cbn [bind].
  rewrite (int_le_spec _ _ _ _ H repr1). cbn [bind].
  destruct (Z.leb_spec z 1).
  - destruct (prime_dec z) as [P|]; auto. destruct P; lia.
  - rewrite int2; cbn [bind]. eapply prime_loop_spec; eauto using repr2; try lia.
Qed.

Lemma int_is_prime_spec : forall x z, repr x z ->
  converges (fun f => int_is_prime Benign f x) (Ok (if prime_dec z then true else false)).
Proof.
  intros. apply converges_ok_intro with (Z.to_nat z + 3)%nat. intros. apply int_is_prime_fuel; auto.
Qed.

(** ** Next prime *)

Lemma prime_divisor : forall n, 1 < n -> exists q, prime q /\ (q | n).
Proof.
  intros n H. assert (0 <= n) by lia. revert H. pattern n.
  apply Zlt_0_ind; auto. clear n H0. intros n IH _ Hn.
  destruct (prime_dec n) as [P|NP]; [exists n; split; auto; apply Z.divide_refl|].
  destruct (not_prime_divide n Hn NP) as (d & Hd & D).
  destruct (IH d ltac:(lia) ltac:(lia)) as (q & Pq & Dq).
  exists q; split; auto. eapply Z.divide_trans; eauto.
Qed.

Lemma fact_divide : forall n k, (1 <= k <= n)%nat -> (Z.of_nat k | Z.of_nat (fact n)).
Proof.
  induction n; intros; [lia|]. cbn [fact].
  change (fact n + n * fact n)%nat with (S n * fact n)%nat. rewrite Nat2Z.inj_mul.
  destruct (Nat.eq_dec k (S n)).
  - subst. apply Z.divide_factor_l.
  - apply Z.divide_mul_r. apply IHn; lia.
Qed.

Lemma prime_above : forall n, exists q, prime q /\ n < q.
Proof.
  intros n. set (m := Z.of_nat (fact (Z.to_nat n)) + 1).
  assert (1 < m). { unfold m. pose proof (lt_O_fact (Z.to_nat n)). lia. }
  destruct (prime_divisor m H) as (q & P & D). exists q; split; auto.
  destruct (Z.lt_ge_cases n q); auto. exfalso.
  assert (2 <= q) by (destruct P; lia).
  assert (D2: (q | Z.of_nat (fact (Z.to_nat n)))).
  { replace q with (Z.of_nat (Z.to_nat q)) by lia. apply fact_divide. lia. }
  assert (D3: (q | 1)).
  { replace 1 with (m - Z.of_nat (fact (Z.to_nat n))) by (unfold m; lia). apply Z.divide_sub_r; auto. }
  apply Z.divide_1_r in D3. lia.
Qed.

Lemma next_prime_exists : forall n, exists q, is_next_prime n q.
Proof.
  intros n. destruct (prime_above n) as (q & P & L).
  remember (Z.to_nat (q - n)) as k eqn:Ek. revert q P L Ek.
  induction k as [k IH] using lt_wf_ind. intros q P L Ek.
  assert (D: (exists r, n < r < q /\ prime r) \/ (forall r, n < r < q -> ~ prime r)).
  { clear -n. assert (forall m:nat, (exists r, n < r < n + Z.of_nat m /\ prime r) \/ (forall r, n < r < n + Z.of_nat m -> ~ prime r)).
    { induction m; [right; intros; lia|].
      destruct IHm as [(r & Hr & Pr)|Hn].
      - left. exists r. split; auto; lia.
      - destruct (prime_dec (n + Z.of_nat m)) as [P|NP].
        + destruct (Z.eq_dec (Z.of_nat m) 0); [right; intros; lia|].
          left. exists (n + Z.of_nat m). split; auto; lia.
        + right. intros r Hr. destruct (Z.eq_dec r (n + Z.of_nat m)); [subst; auto|apply Hn; lia]. }
    destruct (Z.lt_ge_cases n q).
    - specialize (H (Z.to_nat (q - n))). replace (n + Z.of_nat (Z.to_nat (q - n))) with q in H by lia. auto.
    - right; intros; lia. }
  destruct D as [(r & Hr & Pr)|Hn].
  - apply (IH (Z.to_nat (r - n))) with r; auto; lia.
  - exists q; split; auto.
Qed.

Lemma next_prime_unique : forall n q q', is_next_prime n q -> is_next_prime n q' -> q = q'.
Proof.
  intros n q q' (P & L & N) (P' & L' & N').
  destruct (Z.lt_trichotomy q q') as [|[|]]; auto; exfalso; [apply (N' q)|apply (N q')]; auto; lia.
Qed.

Lemma even_not_prime : forall n, 2 < n -> Z.Even n -> ~ prime n.
Proof.
  intros n H (k & E) P. destruct (prime_divisors n P 2) as [|[|[|]]]; try lia. exists k; lia.
Qed.

Lemma next_prime_loop_spec : forall f ifuel cur C q a, repr cur C -> 1 <= C ->
  is_next_prime a q -> C < q -> a < C + 2 -> Z.Odd C -> Z.Odd q ->
  (Z.to_nat q + 3 <= ifuel)%nat -> q - C <= Z.of_nat f ->
  returns (next_prime_loop Benign f ifuel cur) q.
Proof.
  induction f; intros ifuel cur C q a Hc HC Hq HL Ha OC Oq Hif Hf; [lia|].
  cbn [next_prime_loop].
  destruct (abs_inc_spec _ _ Hc ltac:(lia)) as (p1 & E1 & R1). rewrite E1; cbn [bind].
  replace (C + Z.sgn C) with (C + 1) in R1 by lia.
  destruct (abs_inc_spec _ _ R1 ltac:(lia)) as (p2 & E2 & R2). rewrite E2; cbn [bind].
  replace (C + 1 + Z.sgn (C + 1)) with (C + 2) in R2 by lia.
  assert (HC2: C + 2 <= q). { destruct OC as (u & ->), Oq as (v & ->). lia. }
  rewrite (int_is_prime_fuel p2 (C + 2)) by (auto; lia). cbn [bind].
  destruct (Z.eq_dec (C + 2) q) as [<-|NE].
  - destruct Hq as (P & _). destruct (prime_dec (C + 2)); [|tauto]. exists p2; auto.
  - destruct Hq as (P & L & N). destruct (prime_dec (C + 2)) as [PC|NC].
    + exfalso. apply (N (C + 2)); auto. lia.
    + eapply (IHf ifuel p2 (C + 2) q a); eauto; try lia.
      * split; auto.
      * destruct OC as (u & ->). exists (u + 1). lia.
Qed.

Lemma land1_mod : forall d, Z.land d 1 = d mod 2.
Proof. intros. rewrite <- (Z.pow_1_r 2), <- Z.land_ones by lia. reflexivity. Qed.

Lemma is_even_spec : forall x z, repr x z -> is_even x = Ok (Z.even z).
Proof.
  intros x z H. unfold is_even, is_zero. rewrite (repr_sign _ _ H).
  destruct (Z.eqb_spec (Z.sgn z) 0).
  - replace z with 0 by lia. reflexivity.
  - pose proof (repr_nonnil _ _ H ltac:(lia)). pose proof (repr_val _ _ H) as V.
    destruct (chunks x) as [|d l]; [congruence|]. simpl. f_equal.
    rewrite val_cons in V. rewrite land1_mod.
    apply eq_true_iff_eq. rewrite Z.eqb_eq, Z.even_spec.
    split; intros K.
    + apply Z.mod_divide in K; [|lia]. destruct K as (k & K).
      assert (exists m, Z.abs z = 2 * m) as (m & Hm) by (exists (k + 5 * val l); lia).
      destruct (Z.abs_spec z) as [[_ E]|[_ E]]; [exists m|exists (-m)]; lia.
    + destruct K as (k & K). apply Z.mod_divide; [lia|].
      destruct (Z.abs_spec z) as [[_ E]|[_ E]]; [exists (k - 5 * val l)|exists (-k - 5 * val l)]; lia.
Qed.

Lemma is_odd_spec : forall x z, repr x z -> is_odd x = Ok (Z.odd z).
Proof.
  intros x z H. pose proof (is_even_spec x z H) as E. unfold is_even, is_odd in *.
  unfold is_zero in *. rewrite (repr_sign _ _ H) in *.
  destruct (Z.eqb_spec (Z.sgn z) 0).
  - replace z with 0 by lia. reflexivity.
  - destruct (vget (chunks x) 0) as [d| | |]; cbn [bind] in *; try discriminate. f_equal.
    inversion E. rewrite <- Z.negb_even, <- H1.
    rewrite land1_mod.
    pose proof (Z.mod_pos_bound d 2 ltac:(lia)).
    destruct (Z.eqb_spec (d mod 2) 1), (Z.eqb_spec (d mod 2) 0); simpl; auto; lia.
Qed.

Lemma int_next_prime_spec : forall x a q, repr x a -> is_next_prime a q ->
  computes (fun f => int_next_prime Benign f x) q.
Proof.
  intros x a q Hx Hq.
  apply computes_intro with (Z.to_nat q + 3 + Z.to_nat (q - a + 1))%nat. intros fuel Hf.
  unfold int_next_prime. rewrite int2; cbn [bind].
  rewrite (int_lt_spec _ _ _ _ Hx repr2). cbn [bind].
  destruct (Z.ltb_spec a 2).
  - assert (q = 2).
    { destruct Hq as (P & L & N). destruct (Z.lt_trichotomy q 2) as [|[|]]; auto.
      - destruct P; lia.
      - exfalso. apply (N 2); [lia|]. apply prime_2. }
    subst. eexists; split; [reflexivity|apply repr2].
  - assert (Oq: Z.Odd q).
    { destruct (Z.Even_or_Odd q) as [Ev|]; auto. exfalso. destruct Hq as (P & L & _).
      apply (even_not_prime q); auto; lia. }
    rewrite (is_even_spec _ _ Hx). cbn [bind].
    destruct (Z.even a) eqn:EV.
    + apply Z.even_spec in EV.
      destruct (abs_dec_spec _ _ Hx ltac:(lia)) as (s & E & R). rewrite E; cbn [bind].
      replace (a - Z.sgn a) with (a - 1) in R by lia.
      eapply next_prime_loop_spec with (C := a - 1) (a := a); eauto; try lia.
      * destruct Hq as (P & L & _). lia.
      * destruct EV as (k & ->). exists (k - 1). lia.
    + cbn [bind].
      assert (OD: Z.Odd a) by (apply Z.odd_spec; rewrite <- Z.negb_even, EV; auto).
      eapply next_prime_loop_spec with (C := a) (a := a); eauto; try lia.
      destruct Hq as (P & L & _). lia.
Qed.

(** ** Square root *)

Definition newton (n x : Z) : Z := (x + n / x) / 2.

Lemma sqrt_sp : forall n, 0 <= n -> Z.sqrt n * Z.sqrt n <= n < (Z.sqrt n + 1) * (Z.sqrt n + 1).
Proof. intros n H. pose proof (Z.sqrt_spec n H) as K. cbv zeta in K. rewrite <- Z.add_1_r in K. exact K. Qed.

Lemma newton_ge : forall n x, 0 <= n -> 1 <= x -> Z.sqrt n <= newton n x.
Proof.
  intros n x Hn Hx. unfold newton. pose proof (sqrt_sp n Hn). pose proof (Z.sqrt_nonneg n).
  set (s := Z.sqrt n) in *.
  clearbody s. assert (2 * s - x <= n / x).
  { apply Z.div_le_lower_bound; [lia|]. pose proof (Z.square_nonneg (s - x)) as Q.
    destruct H as [H _].
    replace ((s - x) * (s - x)) with (s * s - x * (2 * s - x)) in Q by ring. lia. }
  apply Z.div_le_lower_bound; lia.
Qed.

Lemma newton_lt : forall n x, 0 <= n -> Z.sqrt n < x -> newton n x < x.
Proof.
  intros n x Hn Hx. unfold newton. pose proof (sqrt_sp n Hn). pose proof (Z.sqrt_nonneg n).
  set (s := Z.sqrt n) in *.
  assert ((s + 1) * (s + 1) <= x * x) by (apply Z.mul_le_mono_nonneg; lia).
  assert (n / x < x). { apply Z.div_lt_upper_bound; lia. }
  apply Z.div_lt_upper_bound; lia.
Qed.

Lemma newton_fixed : forall n, 4 <= n -> ~ pred_square n -> newton n (Z.sqrt n) = Z.sqrt n.
Proof.
  intros n Hn HS. pose proof (sqrt_sp n ltac:(lia)). set (s := Z.sqrt n) in *.
  assert (2 <= s) by (apply Z.sqrt_le_square; lia).
  assert (n <> s * s + 2 * s). { intros E. apply HS. exists (s + 1). lia. }
  assert (s <= n / s) by (apply Z.div_le_lower_bound; lia).
  assert (n / s < s + 2) by (apply Z.div_lt_upper_bound; nia).
  unfold newton. symmetry. apply Z.div_unique with (n / s - s); lia.
Qed.

Lemma newton_not_fixed : forall n x, 4 <= n -> pred_square n -> 1 <= x -> newton n x <> x.
Proof.
  intros n x Hn (k & Hk) Hx E. pose proof (sqrt_sp n ltac:(lia)). set (s := Z.sqrt n) in *.
  assert (2 <= s) by (apply Z.sqrt_le_square; lia).
  assert (K: n = s * s + 2 * s).
  { assert (Z.abs k * Z.abs k = n + 1) by (rewrite <- Z.abs_mul; lia).
    assert (s < Z.abs k) by nia. assert (Z.abs k < s + 2) by nia. assert (Z.abs k = s + 1) by lia. nia. }
  pose proof (newton_ge n x ltac:(lia) Hx). fold s in H1.
  destruct (Z.eq_dec x s).
  - subst x. unfold newton in E.
    assert (n / s = s + 2). { symmetry. apply Z.div_unique with 0; lia. }
    rewrite H2 in E. replace (s + (s + 2)) with ((s + 1) * 2) in E by ring.
    rewrite Z.div_mul in E by lia. lia.
  - pose proof (newton_lt n x ltac:(lia) ltac:(fold s; lia)). lia.
Qed.

Lemma sqrt_step : forall n cur N C, repr n N -> repr cur C -> 4 <= N -> 1 <= C ->
  returns (q <- int_div Benign n cur ;; s <- int_add Benign cur q ;;
           two <- int_of_int 2 ;; int_div Benign s two) (newton N C).
Proof.
  intros n cur N C Hn Hc HN HC.
  destruct (int_div_spec _ _ _ _ Hn Hc ltac:(lia)) as (q & E1 & R1). rewrite E1; cbn [bind].
  destruct (int_add_assign_spec Benign _ _ _ _ Hc R1 ltac:(auto)) as (s & E2 & R2).
  unfold int_add. rewrite E2; cbn [bind]. rewrite int2; cbn [bind].
  rewrite Z.quot_div_nonneg in R2 by lia.
  assert (0 <= N / C) by (apply Z.div_pos; lia).
  unfold newton. rewrite <- (Z.quot_div_nonneg (C + N / C)) by lia.
  apply int_div_spec; auto; [apply repr2|lia].
Qed.

Lemma sqrt_loop_S : forall p f n cur pre, sqrt_loop p (S f) n cur pre =
  if negb (int_eqb cur pre)
  then c <- (q <- int_div p n cur ;; s <- int_add p cur q ;; two <- int_of_int 2 ;; int_div p s two) ;;
       sqrt_loop p f n c cur
  else Ok cur.
Proof.
  intros. cbn [sqrt_loop]. destruct (negb _); auto.
  destruct (int_div p n cur); cbn [bind]; auto. destruct (int_add p cur a); cbn [bind]; auto.
Qed.

Lemma sqrt_loop_conv : forall f n cur pre N C P, repr n N -> repr cur C -> repr pre P ->
  4 <= N -> ~ pred_square N -> Z.sqrt N <= C -> C <> P -> C - Z.sqrt N + 1 < Z.of_nat f ->
  returns (sqrt_loop Benign f n cur pre) (Z.sqrt N).
Proof.
  induction f; intros n cur pre N C P Hn Hc Hp HN HS HC HCP Hf; [lia|].
  assert (2 <= Z.sqrt N) by (apply Z.sqrt_le_square; lia).
  rewrite sqrt_loop_S, (int_eqb_spec _ _ _ _ Hc Hp).
  destruct (Z.eqb_spec C P); [lia|]. cbn [negb].
  destruct (sqrt_step n cur N C Hn Hc HN ltac:(lia)) as (c & E & R). rewrite E; cbn [bind].
  pose proof (newton_ge N C ltac:(lia) ltac:(lia)).
  destruct (Z.eq_dec C (Z.sqrt N)).
  - subst C. rewrite newton_fixed in * by auto.
    destruct f; [lia|]. rewrite sqrt_loop_S, (int_eqb_spec _ _ _ _ R Hc), Z.eqb_refl. cbn [negb].
    exists c; auto.
  - pose proof (newton_lt N C ltac:(lia) ltac:(lia)).
    eapply IHf; eauto; lia.
Qed.

Lemma sqrt_loop_div : forall f n cur pre N C P, repr n N -> repr cur C -> repr pre P ->
  4 <= N -> pred_square N -> 1 <= C -> C <> P ->
  sqrt_loop Benign f n cur pre = OutOfFuel.
Proof.
  induction f; intros n cur pre N C P Hn Hc Hp HN HS HC HCP; auto.
  rewrite sqrt_loop_S, (int_eqb_spec _ _ _ _ Hc Hp).
  destruct (Z.eqb_spec C P); [lia|]. cbn [negb].
  destruct (sqrt_step n cur N C Hn Hc HN ltac:(lia)) as (c & E & R). rewrite E; cbn [bind].
  pose proof (newton_ge N C ltac:(lia) ltac:(lia)).
  assert (2 <= Z.sqrt N) by (apply Z.sqrt_le_square; lia).
  eapply IHf; eauto; [lia|]. apply newton_not_fixed; auto.
Qed.

Lemma sqrt_start : forall k, repr (MkInt 1 (repeat 0 k ++ [1])) (p10 k).
Proof.
  intros k. pose proof (repr_shift _ _ k repr1 ltac:(lia)) as H. cbn [chunks] in H.
  rewrite Z.abs_eq, Z.mul_1_l in H by lia. exact H.
Qed.

Lemma int_sqrt_small : forall p f x z, repr x z -> 0 <= z < 4 ->
  returns (int_sqrt p f x) (Z.sqrt z).
Proof.
  intros p f x z H Hz. unfold int_sqrt, is_zero. rewrite (repr_sign _ _ H).
  destruct (Z.eqb_spec (Z.sgn z) (-1)); [lia|].
  destruct (Z.eqb_spec (Z.sgn z) 0).
  - rewrite int0. eexists; split; [reflexivity|]. replace z with 0 by lia. apply repr_zero.
  - rewrite int4; cbn [bind]. rewrite (int_lt_spec _ _ _ _ H repr4). cbn [bind].
    destruct (Z.ltb_spec z 4); [|lia]. rewrite int1. eexists; split; [reflexivity|].
    assert (z = 1 \/ z = 2 \/ z = 3) as [->|[->| ->]] by lia; apply repr1.
Qed.

Lemma int_sqrt_big : forall p f x z, repr x z -> 4 <= z ->
  int_sqrt p f x = sqrt_loop p f x (MkInt 1 (repeat 0 (Nat.div (length (chunks x)) 2) ++ [1])) (MkInt 0 []).
Proof.
  intros p f x z H Hz. unfold int_sqrt, is_zero. rewrite (repr_sign _ _ H).
  destruct (Z.eqb_spec (Z.sgn z) (-1)); [lia|].
  destruct (Z.eqb_spec (Z.sgn z) 0); [lia|].
  rewrite int4; cbn [bind]. rewrite (int_lt_spec _ _ _ _ H repr4). cbn [bind].
  destruct (Z.ltb_spec z 4); [lia|]. rewrite int0. reflexivity.
Qed.

Lemma int_sqrt_neg : forall p f x z, repr x z -> z < 0 -> int_sqrt p f x = Throw NegativeSqrt.
Proof.
  intros. unfold int_sqrt. rewrite (repr_sign _ _ H). destruct (Z.eqb_spec (Z.sgn z) (-1)); auto; lia.
Qed.

Lemma int_sqrt_conv : forall x z, repr x z -> 0 <= z -> z < 4 \/ ~ pred_square z ->
  computes (fun f => int_sqrt Benign f x) (Z.sqrt z).
Proof.
  intros x z H Hz Hs. destruct (Z.lt_ge_cases z 4) as [L|L].
  { apply computes_intro with O. intros. apply int_sqrt_small; auto. }
  destruct Hs as [|HS]; [lia|].
  set (k := Nat.div (length (chunks x)) 2).
  set (C0 := p10 k). pose proof (p10_pos k) as HC0. fold C0 in HC0.
  assert (2 <= Z.sqrt z) by (apply Z.sqrt_le_square; lia).
  apply computes_intro with (S (Z.to_nat (C0 + newton z C0 - Z.sqrt z + 3)))%nat. intros fuel Hf.
  rewrite (int_sqrt_big _ _ _ _ H L). fold k.
  pose proof (newton_ge z C0 ltac:(lia) ltac:(lia)).
  destruct (Z.lt_ge_cases C0 (Z.sqrt z)) as [LT|GE].
  - destruct fuel; [lia|]. rewrite sqrt_loop_S, (int_eqb_spec _ _ _ _ (sqrt_start k) repr_zero).
    fold C0. destruct (Z.eqb_spec C0 0); [lia|]. cbn [negb].
    destruct (sqrt_step x _ z C0 H (sqrt_start k) L ltac:(lia)) as (c & E & R). rewrite E; cbn [bind].
    eapply sqrt_loop_conv; eauto using sqrt_start; fold C0; lia.
  - eapply sqrt_loop_conv; eauto using sqrt_start, repr_zero; fold C0; lia.
Qed.

Lemma int_sqrt_div : forall x z, repr x z -> 4 <= z -> pred_square z ->
  diverges (fun f => int_sqrt Benign f x).
Proof.
  intros x z H Hz HS f. rewrite (int_sqrt_big _ _ _ _ H Hz).
  set (k := Nat.div (length (chunks x)) 2). pose proof (p10_pos k).
  eapply sqrt_loop_div; eauto using sqrt_start, repr_zero; lia.
Qed.

(** ** Power *)

Lemma is_one_abs : forall x z, repr x z ->
  (d <- int_digits x ;; if d =? 1 then c0 <- vget (chunks x) 0 ;; Ok (c0 =? 1) else Ok false)
  = Ok (Z.abs z =? 1).
Proof.
  intros x z H. rewrite (int_digits_spec _ _ H). cbn [bind].
  pose proof (repr_val _ _ H) as V. pose proof (repr_digits _ _ H) as D. pose proof (repr_last _ _ H) as L.
  destruct (chunks x) as [|d [|e l]]; cbn [length].
  - rewrite val_nil in V. rewrite <- V. reflexivity.
  - rewrite val_cons, val_nil in V. simpl. f_equal. rewrite <- V. f_equal. lia.
  - destruct (Z.eqb_spec (Z.of_nat (S (S (length l)))) 1); [lia|]. f_equal. symmetry. apply Z.eqb_neq.
    pose proof (val_ge _ D ltac:(discriminate) L). cbn [length] in H0.
    replace (S (S (length l)) - 1)%nat with (S (length l)) in H0 by lia. rewrite p10_S in H0.
    pose proof (p10_pos (length l)). lia.
Qed.

Lemma pow_loop_spec : forall f num n result B N R, repr num B -> repr n N -> repr result R ->
  0 <= N < 2 ^ Z.of_nat f -> (0 < f)%nat ->
  returns (pow_loop Benign (S f) (MkInt 0 []) num n result) (R * B ^ N).
Proof.
  induction f; intros num n result B N R Hb Hn Hr HN Hf; [lia|].
  remember (S f) as f1. cbn [pow_loop].
  unfold is_zero at 1. rewrite (repr_sign _ _ Hn).
  destruct (Z.eqb_spec (Z.sgn N) 0); cbn [negb].
  { replace N with 0 by lia. rewrite Z.pow_0_r, Z.mul_1_r. exists result; auto. }
  rewrite (is_odd_spec _ _ Hn). cbn [bind]. change (is_zero (MkInt 0 [])) with true. cbv iota.
  set (R1 := if Z.odd N then R * B else R).
  assert (HR1: returns (if Z.odd N then t <- int_mul Benign result num ;; Ok t else Ok result) R1).
  { unfold R1. destruct (Z.odd N).
    - destruct (int_mul_assign_spec Benign _ _ _ _ Hr Hb) as (t & E & R'). unfold int_mul. rewrite E. exists t; auto.
    - exists result; auto. }
  destruct HR1 as (r1 & E1 & Q1). rewrite E1; cbn [bind].
  destruct (int_mul_assign_spec Benign _ _ _ _ Hb Hb) as (sq & E2 & Q2). unfold int_mul. rewrite E2; cbn [bind].
  rewrite int2; cbn [bind].
  destruct (int_div_spec _ _ _ _ Hn repr2 ltac:(lia)) as (nh & E3 & Q3). rewrite E3; cbn [bind].
  rewrite Z.quot_div_nonneg in Q3 by lia.
  assert (Heq: R * B ^ N = R1 * (B * B) ^ (N / 2)).
  { pose proof (Zdiv2_odd_eqn N) as E. rewrite Z.div2_div in E.
    rewrite E at 1. unfold R1. rewrite <- Z.pow_2_r, <- Z.pow_mul_r by (try apply Z.div_pos; lia).
    destruct (Z.odd N); rewrite ?Z.pow_add_r by (try apply Z.mul_nonneg_nonneg; try apply Z.div_pos; lia).
    - rewrite Z.pow_1_r. ring.
    - rewrite Z.pow_0_r. ring. }
  rewrite Heq. subst f1. rewrite Nat2Z.inj_succ, Z.pow_succ_r in HN by lia.
  assert (0 <= N / 2) by (apply Z.div_pos; lia).
  assert (N / 2 < 2 ^ Z.of_nat f) by (apply Z.div_lt_upper_bound; lia).
  destruct f as [|f'].
  - change (2 ^ Z.of_nat 0) with 1 in *. assert (N / 2 = 0) by lia.
    rewrite H1 in *. rewrite Z.pow_0_r, Z.mul_1_r.
    cbn [pow_loop]. unfold is_zero. rewrite (repr_sign _ _ Q3). exists r1; auto.
  - apply IHf; auto; lia.
Qed.

Lemma pow_loop_mod_spec : forall f m num n result M B N R, repr m M -> M <> 0 ->
  repr num B -> repr n N -> repr result R -> 0 <= B -> 0 <= R ->
  0 <= N < 2 ^ Z.of_nat f -> (0 < f)%nat ->
  returns (pow_loop Benign (S f) m num n result) (if N =? 0 then R else (R * B ^ N) mod Z.abs M).
Proof.
  induction f; intros m num n result M B N R Hm HM Hb Hn Hr HB HR HN Hf; [lia|].
  remember (S f) as f1. cbn [pow_loop].
  unfold is_zero at 1. rewrite (repr_sign _ _ Hn).
  destruct (Z.eqb_spec (Z.sgn N) 0); cbn [negb].
  { replace N with 0 by lia. exists result; auto. }
  destruct (Z.eqb_spec N 0); [lia|].
  rewrite (is_odd_spec _ _ Hn). cbn [bind]. unfold is_zero. rewrite (repr_sign _ _ Hm).
  destruct (Z.eqb_spec (Z.sgn M) 0); [lia|].
  set (R1 := if Z.odd N then (R * B) mod Z.abs M else R).
  assert (HR1: returns (if Z.odd N then t <- int_mul Benign result num ;; int_mod Benign t m else Ok result) R1).
  { unfold R1. destruct (Z.odd N).
    - destruct (int_mul_assign_spec Benign _ _ _ _ Hr Hb) as (t & E & R'). unfold int_mul. rewrite E; cbn [bind].
      apply int_mod_nonneg; auto. nia.
    - exists result; auto. }
  destruct HR1 as (r1 & E1 & Q1). rewrite E1; cbn [bind].
  destruct (int_mul_assign_spec Benign _ _ _ _ Hb Hb) as (sq & E2 & Q2). unfold int_mul. rewrite E2; cbn [bind].
  destruct (int_mod_nonneg _ _ _ _ Q2 Hm HM ltac:(nia)) as (sm & E2' & Q2'). rewrite E2'; cbn [bind].
  rewrite int2; cbn [bind].
  destruct (int_div_spec _ _ _ _ Hn repr2 ltac:(lia)) as (nh & E3 & Q3). rewrite E3; cbn [bind].
  rewrite Z.quot_div_nonneg in Q3 by lia.
  assert (HM0: 0 < Z.abs M) by lia.
  pose proof (Z.mod_pos_bound (B * B) _ HM0). pose proof (Z.mod_pos_bound (R * B) _ HM0).
  assert (0 <= R1) by (unfold R1; destruct (Z.odd N); lia).
  assert (0 <= N / 2) by (apply Z.div_pos; lia).
  assert (Heq: (R * B ^ N) mod Z.abs M = if N / 2 =? 0 then R1 else (R1 * ((B * B) mod Z.abs M) ^ (N / 2)) mod Z.abs M).
  { pose proof (Zdiv2_odd_eqn N) as E. rewrite Z.div2_div in E.
    assert (EX: (R1 * ((B * B) mod Z.abs M) ^ (N / 2)) mod Z.abs M = (R * B ^ N) mod Z.abs M).
    { rewrite Zmult_mod, <- Zpower_mod, <- Zmult_mod by lia.
      rewrite E at 2. rewrite <- Z.pow_2_r, <- Z.pow_mul_r by lia. unfold R1.
      destruct (Z.odd N); rewrite ?Z.pow_add_r by lia.
      - rewrite Zmult_mod_idemp_l, Z.pow_1_r. f_equal. ring.
      - rewrite Z.pow_0_r. f_equal. ring. }
    destruct (Z.eqb_spec (N / 2) 0); [|auto].
    rewrite <- EX, e, Z.pow_0_r, Z.mul_1_r.
    assert (N = 1) by (destruct (Z.odd N); lia). subst N. unfold R1. change (Z.odd 1) with true. cbv iota.
    apply Z.mod_mod; lia. }
  rewrite Heq. subst f1. rewrite Nat2Z.inj_succ, Z.pow_succ_r in HN by lia.
  assert (N / 2 < 2 ^ Z.of_nat f) by (apply Z.div_lt_upper_bound; lia).
  destruct f as [|f'].
  - change (2 ^ Z.of_nat 0) with 1 in *. assert (N / 2 = 0) by lia. rewrite H4 in *.
    rewrite Z.eqb_refl. cbn [pow_loop]. unfold is_zero. rewrite (repr_sign _ _ Q3). exists r1; auto.
  - apply IHf; auto; lia.
Qed.

Lemma pow_fuel : forall N f, 0 <= N -> (S (S (Z.to_nat N)) <= f)%nat ->
  exists f', f = S f' /\ (0 < f')%nat /\ N < 2 ^ Z.of_nat f'.
Proof.
  intros N f HN Hf. exists (pred f). repeat split; try lia.
  apply Z.lt_le_trans with (2 ^ N); [apply Z.pow_gt_lin_r; lia|]. apply Z.pow_le_mono_r; lia.
Qed.

Lemma int_pow_unfold : forall p f b e m B, repr b B ->
  int_pow p f b e m =
   if Z.abs B =? 1
   then odd <- (if sign b =? -1 then is_odd e else Ok false) ;; int_of_int (if odd then -1 else 1)
   else if is_negative e
   then if is_zero b then Throw MathDomain else int_of_int 0
   else one <- int_of_int 1 ;; pow_loop p f m b e one.
Proof.
  intros. unfold int_pow. pose proof (is_one_abs _ _ H) as K.
  destruct (int_digits b) as [d| | |]; cbn [bind] in *; try discriminate. rewrite K. reflexivity.
Qed.

Lemma int_pow_one : forall p f b e m B E, repr b B -> repr e E -> Z.abs B = 1 ->
  returns (int_pow p f b e m) (if (B =? -1) && Z.odd E then -1 else 1).
Proof.
  intros p f b e m B E Hb He HB. rewrite (int_pow_unfold _ _ _ _ _ _ Hb).
  destruct (Z.eqb_spec (Z.abs B) 1); [|lia].
  rewrite (repr_sign _ _ Hb), (is_odd_spec _ _ He).
  assert (B = 1 \/ B = -1) as [->| ->] by lia; simpl.
  - apply int_of_int_spec. zsimp; lia.
  - destruct (Z.odd E); apply int_of_int_spec; zsimp; lia.
Qed.

Lemma pow_m1 : forall E, 0 <= E -> (-1) ^ E = if Z.odd E then -1 else 1.
Proof.
  intros E H. pose proof (Zdiv2_odd_eqn E) as K. rewrite Z.div2_div in K.
  rewrite K at 1. assert (0 <= E / 2) by (apply Z.div_pos; lia).
  rewrite Z.pow_add_r, Z.pow_mul_r by (destruct (Z.odd E); lia).
  change ((-1) ^ 2) with 1. rewrite Z.pow_1_l by lia. destruct (Z.odd E); reflexivity.
Qed.

Lemma int_pow_spec : forall b e B E, repr b B -> repr e E -> 0 <= E ->
  computes (fun f => int_pow Benign f b e (MkInt 0 [])) (B ^ E).
Proof.
  intros b e B E Hb He HE. apply computes_intro with (S (S (Z.to_nat E))). intros fuel Hf.
  destruct (Z.eq_dec (Z.abs B) 1).
  - replace (B ^ E) with (if (B =? -1) && Z.odd E then -1 else 1); [apply int_pow_one; auto|].
    assert (B = 1 \/ B = -1) as [->| ->] by lia; simpl.
    + symmetry. apply Z.pow_1_l; auto.
    + symmetry. apply pow_m1; auto.
  - rewrite (int_pow_unfold _ _ _ _ _ _ Hb). destruct (Z.eqb_spec (Z.abs B) 1); [lia|].
    unfold is_negative. rewrite (repr_sign _ _ He). destruct (Z.eqb_spec (Z.sgn E) (-1)); [lia|].
    rewrite int1; cbn [bind]. destruct (pow_fuel E fuel HE Hf) as (f' & -> & F1 & F2).
    rewrite <- (Z.mul_1_l (B ^ E)). apply pow_loop_spec; auto. apply repr1.
Qed.

Lemma int_pow_neg_exp : forall p f b e m B E, repr b B -> repr e E -> E < 0 -> 2 <= Z.abs B ->
  returns (int_pow p f b e m) 0.
Proof.
  intros. rewrite (int_pow_unfold _ _ _ _ _ _ H). destruct (Z.eqb_spec (Z.abs B) 1); [lia|].
  unfold is_negative, is_zero. rewrite (repr_sign _ _ H0), (repr_sign _ _ H).
  destruct (Z.eqb_spec (Z.sgn E) (-1)); [|lia]. destruct (Z.eqb_spec (Z.sgn B) 0); [lia|].
  rewrite int0. eexists; split; [reflexivity|apply repr_zero].
Qed.

Lemma int_pow_neg_exp_zero : forall p f b e m E, repr b 0 -> repr e E -> E < 0 ->
  int_pow p f b e m = Throw MathDomain.
Proof.
  intros. rewrite (int_pow_unfold _ _ _ _ _ _ H). simpl.
  unfold is_negative, is_zero. rewrite (repr_sign _ _ H0), (repr_sign _ _ H).
  destruct (Z.eqb_spec (Z.sgn E) (-1)); [|lia]. reflexivity.
Qed.

Lemma int_pow_mod_spec : forall b e m B E M, repr b B -> repr e E -> repr m M ->
  0 <= B -> B <> 1 -> 0 < E -> M <> 0 ->
  computes (fun f => int_pow Benign f b e m) (B ^ E mod Z.abs M).
Proof.
  intros b e m B E M Hb He Hm HB HB1 HE HM. apply computes_intro with (S (S (Z.to_nat E))). intros fuel Hf.
  rewrite (int_pow_unfold _ _ _ _ _ _ Hb). destruct (Z.eqb_spec (Z.abs B) 1); [lia|].
  unfold is_negative. rewrite (repr_sign _ _ He). destruct (Z.eqb_spec (Z.sgn E) (-1)); [lia|].
  rewrite int1; cbn [bind]. destruct (pow_fuel E fuel ltac:(lia) Hf) as (f' & -> & F1 & F2).
  pose proof (pow_loop_mod_spec f' m b e _ M B E 1 Hm HM Hb He repr1 HB ltac:(lia) ltac:(lia) F1) as K.
  destruct (Z.eqb_spec E 0); [lia|]. rewrite Z.mul_1_l in K. exact K.
Qed.

Lemma int_pow_zero_exp : forall p b e m B, repr b B -> repr e 0 ->
  computes (fun f => int_pow p f b e m) 1.
Proof.
  intros p b e m B Hb He. apply computes_intro with 1%nat. intros fuel Hf.
  destruct (Z.eq_dec (Z.abs B) 1).
  - replace 1 with (if (B =? -1) && Z.odd 0 then -1 else 1); [apply int_pow_one; auto|].
    rewrite andb_false_r. auto.
  - rewrite (int_pow_unfold _ _ _ _ _ _ Hb). destruct (Z.eqb_spec (Z.abs B) 1); [lia|].
    apply repr_zero_inv in He. subst e. simpl is_negative. cbv iota. rewrite int1; cbn [bind].
    destruct fuel; [lia|]. cbn [pow_loop]. simpl. eexists; split; [reflexivity|apply repr1].
Qed.

(** ** Logarithm *)

Lemma log_loop_spec : forall f value base result V B R, repr value V -> repr base B -> repr result R ->
  2 <= B -> 0 <= V < Z.of_nat f ->
  exists k, returns (log_loop Benign f value base result) (R + k) /\ 0 <= k /\
    (V = 0 -> k = 0) /\ (0 < V -> 1 <= k /\ B ^ (k - 1) <= V < B ^ k).
Proof.
  induction f; intros value base result V B R Hv Hb Hr HB HV; [lia|]. cbn [log_loop].
  unfold is_zero. rewrite (repr_sign _ _ Hv). destruct (Z.eqb_spec (Z.sgn V) 0); cbn [negb].
  - exists 0. rewrite Z.add_0_r. repeat split; try lia. exists result; auto.
  - destruct (int_inc_spec _ _ Hr) as (r1 & E1 & R1). rewrite E1; cbn [bind].
    destruct (int_div_spec _ _ _ _ Hv Hb ltac:(lia)) as (v1 & E2 & R2). rewrite E2; cbn [bind].
    rewrite Z.quot_div_nonneg in R2 by lia.
    assert (0 <= V / B) by (apply Z.div_pos; lia).
    assert (V / B < V) by (apply Z.div_lt; lia).
    destruct (IHf v1 base r1 (V / B) B (R + 1)) as (k & K1 & K2 & K3 & K4); auto; [lia|].
    exists (k + 1). replace (R + (k + 1)) with (R + 1 + k) by ring. split; auto. split; [lia|].
    split; [lia|]. intros _. replace (k + 1 - 1) with k by ring. split; [lia|].
    rewrite Z.pow_add_r, Z.pow_1_r by lia.
    pose proof (Z.div_mod V B ltac:(lia)). pose proof (Z.mod_pos_bound V B ltac:(lia)).
    destruct (Z.eq_dec (V / B) 0).
    + rewrite (K3 e) in *. rewrite Z.pow_0_r. nia.
    + destruct (K4 ltac:(lia)) as (K5 & K6).
      replace (B ^ k) with (B * B ^ (k - 1)) in *.
      2:{ rewrite <- Z.pow_succ_r by lia. f_equal. lia. }
      set (P := B ^ (k - 1)) in *. nia.
Qed.

Lemma int_log_domain : forall p f n b N B, repr n N -> repr b B -> N <= 0 \/ B < 2 ->
  int_log p f n b = Throw MathDomain.
Proof.
  intros p f n b N B Hn Hb H. unfold int_log. rewrite int2; cbn [bind].
  rewrite (repr_sign _ _ Hn), (int_lt_spec _ _ _ _ Hb repr2).
  destruct (Z.leb_spec (Z.sgn N) 0); cbn [bind]; auto.
  destruct (Z.ltb_spec B 2); auto. lia.
Qed.

Lemma int_log_spec : forall n b N B, repr n N -> repr b B -> 0 < N -> 2 <= B ->
  Z.of_nat (length (chunks n)) <= INT_MAX ->
  exists k, computes (fun f => int_log Benign f n b) k /\ 0 <= k /\ B ^ k <= N < B ^ (k + 1).
Proof.
  intros n b N B Hn Hb HN HB HL.
  assert (U: forall f, int_log Benign f n b =
     if B =? 10 then d <- int_digits n ;; int_of_int (d - 1)
     else v <- int_div Benign n b ;; log_loop Benign f v b (MkInt 0 [])).
  { intros f. unfold int_log. rewrite int2; cbn [bind].
    rewrite (repr_sign _ _ Hn), (int_lt_spec _ _ _ _ Hb repr2).
    destruct (Z.leb_spec (Z.sgn N) 0); [lia|]. cbn [bind].
    destruct (Z.ltb_spec B 2); [lia|]. rewrite int10; cbn [bind].
    rewrite (int_eqb_spec _ _ _ _ Hb repr10). destruct (B =? 10); auto. }
  destruct (Z.eqb_spec B 10).
  - subst B. exists (Z.of_nat (length (chunks n)) - 1).
    pose proof (digits_count _ _ Hn ltac:(lia)) as DC. rewrite Z.abs_eq in DC by lia.
    pose proof (repr_nonnil _ _ Hn ltac:(lia)) as NN.
    assert (0 < length (chunks n))%nat by (destruct (chunks n); simpl; [congruence|lia]).
    split; [|split; [lia|]].
    + apply computes_intro with O. intros. rewrite U, (int_digits_spec _ _ Hn). cbn [bind].
      apply int_of_int_spec. zsimp. lia.
    + replace (Z.of_nat (length (chunks n)) - 1 + 1) with (Z.of_nat (length (chunks n))) by ring. auto.
  - destruct (int_div_spec _ _ _ _ Hn Hb ltac:(lia)) as (v & E & R).
    rewrite Z.quot_div_nonneg in R by lia.
    assert (0 <= N / B) by (apply Z.div_pos; lia).
    destruct (log_loop_spec (S (Z.to_nat (N / B))) v b (MkInt 0 []) (N / B) B 0 R Hb repr_zero HB ltac:(lia))
      as (k & K1 & K2 & K3 & K4).
    exists k. split; [|split; auto].
    + apply computes_intro with (S (Z.to_nat (N / B))). intros fuel Hf. rewrite U, E. cbn [bind].
      destruct (log_loop_spec fuel v b (MkInt 0 []) (N / B) B 0 R Hb repr_zero HB ltac:(lia))
        as (k' & K1' & K2' & K3' & K4').
      assert (k' = k); [|subst; rewrite Z.add_0_l in *; auto].
      destruct (Z.eq_dec (N / B) 0); [rewrite K3, K3' by auto; auto|].
      destruct (K4 ltac:(lia)), (K4' ltac:(lia)).
      assert (k - 1 < k') by (apply (Z.pow_lt_mono_r_iff B); lia).
      assert (k' - 1 < k) by (apply (Z.pow_lt_mono_r_iff B); lia). lia.
    + pose proof (Z.div_mod N B ltac:(lia)). pose proof (Z.mod_pos_bound N B ltac:(lia)).
      rewrite Z.pow_add_r, Z.pow_1_r by lia.
      destruct (Z.eq_dec (N / B) 0).
      * rewrite (K3 e) in *. rewrite Z.pow_0_r. nia.
      * destruct (K4 ltac:(lia)) as (K5 & K6).
        replace (B ^ k) with (B * B ^ (k - 1)) in *.
        2:{ rewrite <- Z.pow_succ_r by lia. f_equal. lia. }
        set (P := B ^ (k - 1)) in *. nia.
Qed.

(** ** Greatest common divisor, least common multiple *)

Lemma gcd_loop_spec : forall f a b A B, repr a A -> repr b B -> 0 <= A -> 0 <= B < Z.of_nat f ->
  returns (gcd_loop Benign f a b) (Z.gcd A B).
Proof.
  induction f; intros a b A B Ha Hb HA HB; [lia|]. cbn [gcd_loop]. rewrite int0; cbn [bind].
  rewrite (int_eqb_spec _ _ _ _ Hb repr_zero). destruct (Z.eqb_spec B 0); cbn [negb].
  - subst. rewrite Z.gcd_0_r, Z.abs_eq by lia. exists a; auto.
  - destruct (int_mod_nonneg _ _ _ _ Ha Hb ltac:(lia) HA) as (r & E & R). rewrite E; cbn [bind].
    rewrite Z.abs_eq in R by lia. pose proof (Z.mod_pos_bound A B ltac:(lia)).
    replace (Z.gcd A B) with (Z.gcd B (A mod B)); [apply IHf; auto; lia|].
    rewrite Z.gcd_comm, Z.gcd_mod by lia. apply Z.gcd_comm.
Qed.

Lemma int_gcd_fuel : forall f a b A B, repr a A -> repr b B -> (S (Z.to_nat (Z.abs B)) <= f)%nat ->
  returns (int_gcd Benign f a b) (Z.gcd A B).
Proof.
  intros. unfold int_gcd. rewrite <- Z.gcd_abs_l, <- Z.gcd_abs_r.
  apply gcd_loop_spec; auto using int_abs_spec; lia.
Qed.

Lemma int_gcd_spec : forall a b A B, repr a A -> repr b B ->
  computes (fun f => int_gcd Benign f a b) (Z.gcd A B).
Proof.
  intros. apply computes_intro with (S (Z.to_nat (Z.abs B))). intros. apply int_gcd_fuel; auto.
Qed.

Lemma int_lcm_spec : forall a b A B, repr a A -> repr b B ->
  computes (fun f => int_lcm Benign f a b) (Z.lcm A B).
Proof.
  intros a b A B Ha Hb. apply computes_intro with (S (Z.to_nat (Z.abs B))). intros fuel Hf.
  unfold int_lcm, is_zero. rewrite (repr_sign _ _ Ha), (repr_sign _ _ Hb).
  destruct (Z.eqb_spec (Z.sgn A) 0); cbn [orb].
  { replace A with 0 by lia. rewrite Z.lcm_0_l, int0. eexists; split; [reflexivity|apply repr_zero]. }
  destruct (Z.eqb_spec (Z.sgn B) 0).
  { replace B with 0 by lia. rewrite Z.lcm_0_r, int0. eexists; split; [reflexivity|apply repr_zero]. }
  destruct (int_mul_assign_spec Benign _ _ _ _ Ha Hb) as (m & E1 & R1). unfold int_mul. rewrite E1; cbn [bind].
  destruct (int_gcd_fuel fuel _ _ _ _ Ha Hb Hf) as (g & E2 & R2). rewrite E2; cbn [bind].
  pose proof (Z.gcd_nonneg A B). assert (Z.gcd A B <> 0) by (intros G; apply Z.gcd_eq_0_l in G; lia).
  replace (Z.lcm A B) with (Z.quot (Z.abs (A * B)) (Z.gcd A B)).
  - apply int_div_spec; auto. apply int_abs_spec; auto.
  - rewrite Z.quot_div_nonneg by lia. unfold Z.lcm.
    destruct (Z.gcd_divide_r A B) as (k & K). set (g0 := Z.gcd A B) in *.
    rewrite K at 2. rewrite Z.div_mul by auto. rewrite K at 1.
    rewrite Z.mul_assoc, !Z.abs_mul. rewrite (Z.abs_eq g0) by lia. apply Z.div_mul; auto.
Qed.
