(** Program-level refinement for Int. *)
From Coq Require Import ZArith Znumtheory List Bool Ascii Lia.
From Verif Require Import Outcome IntModel IntSpec IntBase IntAddSub IntMulDiv IntIO IntFuncs IntPolicy
  Show ShowFacts IntProgModel IntProgSpec.
Import ListNotations.
Open Scope Z_scope.

Lemma represents_set : forall s e v x z, represents s e -> repr x z -> represents (set s v x) (zset e v z).
Proof. intros s e v x z H R w. unfold set, zset. destruct (Nat.eqb w v); auto. Qed.

(** What an outcome must be for a spec result. *)
Definition meets (f : nat -> outcome Int) (r : Z + exn) : Prop :=
  match r with
  | inl z => computes f z
  | inr e => converges f (Throw e)
  end.

Lemma computes_const : forall o z, returns o z -> computes (fun _ => o) z.
Proof. intros o z H. apply computes_intro with O. auto. Qed.

Lemma conv_const : forall A (o : outcome A), o <> OutOfFuel -> converges (fun _ => o) o.
Proof. intros. split; auto. exists O; auto. Qed.

Lemma conv_fun : forall A (f : nat -> outcome A) o, o <> OutOfFuel -> (forall n, f n = o) -> converges f o.
Proof. intros. split; auto. exists O; auto. Qed.

Lemma eval_un_spec : forall o x a r, repr x a -> zun o a r -> meets (fun f => eval_un Benign f o x) r.
Proof.
  intros o x a r H Z. destruct Z; cbn [eval_un meets].
  - apply computes_const. exists x. auto.
  - apply computes_const. eexists; split; [reflexivity|]. apply int_neg_spec; auto.
  - apply computes_const. eexists; split; [reflexivity|]. apply int_abs_spec; auto.
  - apply int_factorial_spec; auto.
  - apply conv_fun; [discriminate|]. intros. eapply int_factorial_neg; eauto.
  - eapply int_next_prime_spec; eauto.
  - apply int_sqrt_conv; auto.
  - apply conv_fun; [discriminate|]. intros. eapply int_sqrt_neg; eauto.
Qed.

Lemma fewer_digits_dec : forall a b, b <> 0 ->
  (exists k, 0 <= k /\ Z.abs a < 10 ^ k <= Z.abs b) \/ ~ (exists k, 0 <= k /\ Z.abs a < 10 ^ k <= Z.abs b).
Proof.
  intros a b Hb.
  (* only finitely many exponents are small enough *)
  assert (D: forall n : nat, (exists k, 0 <= k < Z.of_nat n /\ Z.abs a < 10 ^ k <= Z.abs b) \/
     ~ (exists k, 0 <= k < Z.of_nat n /\ Z.abs a < 10 ^ k <= Z.abs b)).
  { induction n.
    - right. intros (j & J & _). lia.
    - destruct IHn as [(j & J & P)|N].
      + left. exists j. split; [lia|auto].
      + destruct (Z_lt_dec (Z.abs a) (10 ^ Z.of_nat n)) as [A|A];
        destruct (Z_le_dec (10 ^ Z.of_nat n) (Z.abs b)) as [B|B].
        * left. exists (Z.of_nat n). split; [lia|auto].
        * right. intros (j & J & P). destruct (Z.eq_dec j (Z.of_nat n)); [subst; lia|].
          apply N. exists j. split; [lia|auto].
        * right. intros (j & J & P). destruct (Z.eq_dec j (Z.of_nat n)); [subst; lia|].
          apply N. exists j. split; [lia|auto].
        * right. intros (j & J & P). destruct (Z.eq_dec j (Z.of_nat n)); [subst; lia|].
          apply N. exists j. split; [lia|auto]. }
  destruct (D (S (Z.to_nat (Z.abs b)))) as [(j & J & P)|N].
  - left. exists j. split; [lia|auto].
  - right. intros (j & J & P). apply N. exists j. split; auto. split; auto.
    pose proof (Z.pow_gt_lin_r 10 j ltac:(lia) J). lia.
Qed.

Lemma rem_value_unique : forall a b r r', b <> 0 -> rem_value a b r -> rem_value a b r' -> r = r'.
Proof.
  intros a b r r' Hb [A B] [A' B']. destruct (fewer_digits_dec a b Hb) as [E|E].
  - rewrite A, A' by auto. auto.
  - rewrite B, B' by auto. auto.
Qed.

Lemma rem_value_exists : forall a b, b <> 0 -> exists r, rem_value a b r.
Proof.
  intros a b Hb. destruct (fewer_digits_dec a b Hb) as [E|E].
  - exists a. split; [auto|intros N; contradiction].
  - exists (Z.abs a mod Z.abs b). split; [intros N; contradiction|auto].
Qed.

Lemma digit_count_spec : forall x a, repr x a -> digit_count a (Z.of_nat (length (chunks x))).
Proof.
  intros x a H. destruct (Z.eq_dec a 0).
  - left. subst. rewrite (repr_zero_inv _ H). auto.
  - right. split; auto. split; [|apply digits_count; auto].
    pose proof (repr_nonnil _ _ H n). destruct (chunks x); [congruence|simpl; lia].
Qed.

Lemma digit_count_unique : forall a d d', digit_count a d -> digit_count a d' -> d = d'.
Proof.
  intros a d d' [[A D]|(A & D & P)] [[A' D']|(A' & D' & P')]; try lia.
  assert (d - 1 < d') by (apply (Z.pow_lt_mono_r_iff 10); lia).
  assert (d' - 1 < d) by (apply (Z.pow_lt_mono_r_iff 10); lia). lia.
Qed.

Lemma eval_bin_spec : forall o x y a b r, repr x a -> repr y b -> zbin o a b r ->
  meets (fun f => eval_bin Benign f o x y) r.
Proof.
  intros o x y a b r Hx Hy Z. destruct Z; cbn [eval_bin meets].
  - apply computes_const. apply int_add_assign_spec; auto.
  - apply computes_const. apply int_sub_assign_spec; auto.
  - apply computes_const. apply int_mul_assign_spec; auto.
  - apply computes_const. apply int_div_spec; auto.
  - rewrite int_div_zero by auto. apply conv_const. discriminate.
  - apply computes_const. destruct (int_mod_spec _ _ _ _ Hx Hy H) as (z & R & V).
    replace r with z; auto. 
    eapply rem_value_unique; eauto.
  - rewrite int_mod_zero by auto. apply conv_const. discriminate.
  - apply int_pow_spec; auto.
  - apply computes_intro with O. intros fuel _.
    pose proof (int_pow_one Benign fuel _ _ (MkInt 0 []) _ _ Hx Hy H0) as R.
    replace (a ^ (- b)) with (if (a =? -1) && Z.odd b then -1 else 1); auto.
    destruct (Z.eqb_spec a (-1)).
    + subst a. rewrite pow_m1 by lia. rewrite Z.odd_opp. auto.
    + assert (a = 1) by lia. subst a. rewrite Z.pow_1_l by lia. auto.
  - apply conv_fun; [discriminate|]. intros. eapply int_pow_neg_exp_zero; eauto.
  - apply computes_intro with O. intros. eapply int_pow_neg_exp; eauto.
  - destruct (int_log_spec _ _ _ _ Hx Hy) as (k' & C & K0 & K); try lia.
    { rewrite <- (digit_count_unique _ _ _ H0 (digit_count_spec _ _ Hx)). auto. }
    replace k with k'; auto.
    assert (k' < k + 1). { apply (Z.pow_lt_mono_r_iff b); lia. }
    assert (k < k' + 1). { apply (Z.pow_lt_mono_r_iff b); lia. }
    lia.
  - apply conv_fun; [discriminate|]. intros. eapply int_log_domain; eauto.
  - apply int_gcd_spec; auto.
  - apply int_lcm_spec; auto.
Qed.

Lemma eval_cmp_spec : forall o x y a b, repr x a -> repr y b -> eval_cmp o x y = Ok (zcmp o a b).
Proof.
  intros o x y a b Hx Hy. destruct o; cbn [eval_cmp zcmp].
  - rewrite (int_eqb_spec _ _ _ _ Hx Hy); auto.
  - rewrite (int_eqb_spec _ _ _ _ Hx Hy); auto.
  - apply int_lt_spec; auto.
  - apply int_le_spec; auto.
  - apply int_gt_spec; auto.
  - apply int_ge_spec; auto.
Qed.

Lemma bool_iff_eq : forall (b c : bool) P, (b = true <-> P) -> (c = true <-> P) -> b = c.
Proof. intros [] [] P H1 H2; auto; [symmetry; apply H2, H1; auto|apply H1, H2; auto]. Qed.

Lemma is_zero_spec : forall x a, repr x a -> (is_zero x = true <-> a = 0).
Proof. intros x a H. unfold is_zero. rewrite (repr_sign _ _ H). rewrite Z.eqb_eq. lia. Qed.
Lemma is_positive_spec : forall x a, repr x a -> (is_positive x = true <-> 0 < a).
Proof. intros x a H. unfold is_positive. rewrite (repr_sign _ _ H). rewrite Z.eqb_eq. lia. Qed.
Lemma is_negative_spec : forall x a, repr x a -> (is_negative x = true <-> a < 0).
Proof. intros x a H. unfold is_negative. rewrite (repr_sign _ _ H). rewrite Z.eqb_eq. lia. Qed.

Lemma eval_query_spec : forall o x a b, repr x a -> zquery o a b ->
  converges (fun f => eval_query Benign f o x) (Ok b).
Proof.
  intros o x a b H Q. destruct Q; cbn [eval_query].
  - rewrite (bool_iff_eq _ _ _ H0 (is_zero_spec _ _ H)). apply conv_const. discriminate.
  - rewrite (bool_iff_eq _ _ _ H0 (is_positive_spec _ _ H)). apply conv_const. discriminate.
  - rewrite (bool_iff_eq _ _ _ H0 (is_negative_spec _ _ H)). apply conv_const. discriminate.
  - rewrite (is_even_spec _ _ H). rewrite (bool_iff_eq b (Z.even a) (Z.Even a)); auto.
    + apply conv_const. discriminate.
    + apply Z.even_spec.
  - rewrite (is_odd_spec _ _ H). rewrite (bool_iff_eq b (Z.odd a) (Z.Odd a)); auto.
    + apply conv_const. discriminate.
    + apply Z.odd_spec.
  - rewrite (bool_iff_eq b (if prime_dec a then true else false) (prime a)); auto.
    + apply int_is_prime_spec; auto.
    + destruct (prime_dec a); split; auto; discriminate.
Qed.

Lemma assign_meets : forall f s v z, computes f z ->
  exists x, repr x z /\ converges (fun n => assign s v (f n)) (Ok (set s v x, [])).
Proof.
  intros f s v z (x & [_ (n & C)] & R). exists x. split; auto. split; [discriminate|].
  exists n. intros fuel Hf. rewrite C by auto. reflexivity.
Qed.

Lemma assign_throws : forall f s v e, converges f (Throw e) ->
  converges (fun n => assign s v (f n)) (Ok (s, [EThrow e])).
Proof.
  intros f s v e [_ (n & C)]. split; [discriminate|]. exists n. intros fuel Hf. rewrite C by auto. reflexivity.
Qed.

Lemma represents_set_eta : forall s e v x z, represents s e -> repr x z -> e v = z -> represents (set s v x) e.
Proof.
  intros s e v x z H R E w. unfold set. destruct (Nat.eqb_spec w v); auto. subst. auto.
Qed.

Lemma step_refines : forall c e e' ev s, zstep c e e' ev -> represents s e ->
  exists s', converges (fun f => step Benign f c s) (Ok (s', ev)) /\ represents s' e'.
Proof.
  assert (DONE: forall f s e v z, represents s e -> computes f z ->
    exists s', converges (fun n => assign s v (f n)) (Ok (s', [])) /\ represents s' (zset e v z)).
  { intros f s e v z H C. destruct (assign_meets f s v z C) as (x & R & K).
    exists (set s v x). split; auto. apply represents_set; auto. }
  assert (DONE1: forall o s e v z, represents s e -> returns o z ->
    exists s', converges (fun n => assign s v o) (Ok (s', [])) /\ represents s' (zset e v z)).
  { intros o s e v z H C. apply (DONE (fun _ => o)); auto. apply computes_const; auto. }
  intros c e e' ev s Z H. destruct Z; cbn [step].
  - apply DONE1; auto. apply int_of_int_spec; auto.
  - apply DONE1; auto. apply int_of_chars_ok; auto.
  - exists s. split; auto. rewrite int_of_chars_bad by auto. apply conv_const. discriminate.
  - eexists. split; [apply conv_const; discriminate|]. apply represents_set; auto.
  - destruct (Nat.eqb_spec v w); [contradiction|]. cbn [int_move].
    eexists. split; [apply conv_const; discriminate|].
    apply represents_set; [apply represents_set; auto|apply repr_zero].
  - destruct o; cbn [bop_of] in *.
    + inversion H1; subst. destruct (Nat.eqb_spec v w).
      * subst w. pose proof (H0 eq_refl eq_refl) as E0. rewrite E0 in *.
        apply DONE1; auto. unfold int_add_assign_self. pose proof (H v) as Hv. rewrite E0 in Hv.
        rewrite (repr_sign _ _ Hv). simpl. exists (s v). auto.
      * apply DONE1; auto. apply int_add_assign_spec; auto.
    + inversion H1; subst. apply DONE1; auto. apply int_sub_assign_spec; auto.
    + inversion H1; subst. apply DONE1; auto. apply int_mul_assign_spec; auto.
    + inversion H1; subst. destruct (int_div_assign_spec _ _ _ _ (H v) (H w)) as (x & E & R); auto.
      rewrite E. cbn [assign_mut]. eexists. split; [apply conv_const; discriminate|].
      apply represents_set; auto.
    + inversion H1; subst. destruct (int_mod_assign_spec _ _ _ _ (H v) (H w)) as (x & z & E & R & V); auto.
      rewrite E. cbn [assign_mut]. eexists. split; [apply conv_const; discriminate|].
      apply represents_set; auto. replace r with z; auto. eapply rem_value_unique; eauto.
  - destruct o; cbn [bop_of] in *; inversion H0; subst.
    + rewrite int_div_assign_zero by (pose proof (H w); congruence). cbn [assign_mut].
      eexists. split; [apply conv_const; discriminate|]. eapply represents_set_eta; eauto.
    + rewrite int_mod_assign_zero by (pose proof (H w); congruence). cbn [assign_mut].
      eexists. split; [apply conv_const; discriminate|]. eapply represents_set_eta; eauto.
  - apply DONE1; auto. apply int_inc_spec; auto.
  - apply DONE1; auto. apply int_dec_spec; auto.
  - apply (DONE (fun f => eval_un Benign f o (s w))); auto. apply (eval_un_spec _ _ _ _ (H w) H0).
  - exists s. split; auto. apply (assign_throws (fun f => eval_un Benign f o (s w))).
    apply (eval_un_spec _ _ _ _ (H w) H0).
  - apply (DONE (fun f => eval_bin Benign f o (s u) (s w))); auto.
    apply (eval_bin_spec _ _ _ _ _ _ (H u) (H w) H0).
  - exists s. split; auto. apply (assign_throws (fun f => eval_bin Benign f o (s u) (s w))).
    apply (eval_bin_spec _ _ _ _ _ _ (H u) (H w) H0).
  - apply (DONE (fun f => int_pow Benign f (s b) (s x) (s m))); auto.
    apply int_pow_mod_spec; auto.
  - exists s. split; auto. rewrite (eval_cmp_spec _ _ _ _ _ (H v) (H w)). apply conv_const. discriminate.
  - exists s. split; auto. destruct (eval_query_spec _ _ _ _ (H v) H0) as (_ & n & C).
    split; [discriminate|]. exists n. intros. rewrite C by auto. reflexivity.
  - exists s. split; auto. rewrite (int_digits_spec _ _ (H v)). cbn [bind].
    rewrite (digit_count_unique _ _ _ H0 (digit_count_spec _ _ (H v))). apply conv_const. discriminate.
  - exists s. split; auto. rewrite (int_print_show _ _ (H v)). apply conv_const. discriminate.
Qed.

Lemma run_refines : forall prog e e' ev s, zrun prog e e' ev -> represents s e ->
  exists s', converges (fun f => run Benign f prog s) (Ok (s', ev)) /\ represents s' e'.
Proof.
  intros prog e e' ev s Z. revert s. induction Z; intros s H0.
  - exists s. split; auto. apply conv_const. discriminate.
  - destruct (step_refines _ _ _ _ _ H H0) as (s1 & [_ (n1 & C1)] & R1).
    destruct (IHZ _ R1) as (s2 & [_ (n2 & C2)] & R2).
    exists s2. split; auto. split; [discriminate|]. exists (Nat.max n1 n2). intros fuel Hf. cbn [run].
    rewrite C1 by lia. cbn [bind fst snd]. rewrite C2 by lia. reflexivity.
Qed.

Lemma zun_total : forall o a, (o = USqrt -> a < 4 \/ ~ pred_square a) -> exists r, zun o a r.
Proof.
  intros o a H. destruct o; try (eexists; constructor; fail).
  - destruct (Z_lt_dec a 0); [eexists; apply zu_fact_neg; auto|eexists; apply zu_fact; lia].
  - destruct (next_prime_exists a) as (q & Q). eexists. apply zu_next; eauto.
  - destruct (Z_lt_dec a 0); [eexists; apply zu_sqrt_neg; auto|]. eexists; apply zu_sqrt; auto; lia.
Qed.

Lemma log_exists : forall a b, 0 < a -> 2 <= b -> exists k, 0 <= k /\ b ^ k <= a < b ^ (k + 1).
Proof.
  intros a b Ha Hb.
  assert (D: forall n : nat, a < b ^ (Z.of_nat n + 1) -> exists k, 0 <= k /\ b ^ k <= a < b ^ (k + 1)).
  { induction n; intros L.
    - exists 0. rewrite Z.pow_0_r. split; [lia|]. split; [lia|]. exact L.
    - destruct (Z_lt_dec a (b ^ (Z.of_nat n + 1))) as [A|A]; auto.
      exists (Z.of_nat n + 1). split; [lia|]. split; [lia|].
      replace (Z.of_nat n + 1 + 1) with (Z.of_nat (S n) + 1) by lia. auto. }
  apply (D (Z.to_nat a)). rewrite Z2Nat.id by lia.
  pose proof (Z.pow_gt_lin_r b (a + 1) ltac:(lia) ltac:(lia)). lia.
Qed.

Lemma zbin_total : forall o a b, (o = BLog -> exists d, digit_count a d /\ d <= INT_MAX) -> exists r, zbin o a b r.
Proof.
  intros o a b H. destruct o; try (eexists; constructor; fail).
  - destruct (Z.eq_dec b 0); [subst; eexists; apply zb_div0|eexists; apply zb_div; auto].
  - destruct (Z.eq_dec b 0); [subst; eexists; apply zb_mod0|].
    destruct (rem_value_exists a b n) as (r & R). eexists; eapply zb_mod; eauto.
  - destruct (Z_lt_dec b 0); [|eexists; apply zb_pow; lia].
    destruct (Z.eq_dec a 0); [subst; eexists; apply zb_pow_neg0; auto|].
    destruct (Z.eq_dec (Z.abs a) 1); [eexists; apply zb_pow_neg1; auto|].
    eexists; apply zb_pow_neg; lia.
  - destruct (Z_le_dec a 0); [eexists; apply zb_log_dom; auto|].
    destruct (Z_lt_dec b 2); [eexists; apply zb_log_dom; auto|].
    destruct (log_exists a b) as (k & K0 & K); try lia. destruct (H eq_refl) as (d & D & DM).
    eexists; eapply zb_log; eauto; lia.
Qed.

Lemma zstep_total : forall c e, allowed c e -> exists e' ev, zstep c e e' ev.
Proof.
  intros c e A. destruct c.
  - do 2 eexists; apply z_int; auto.
  - destruct (literal cs) eqn:L; do 2 eexists; [eapply z_chars; eauto|eapply z_chars_bad; eauto].
  - do 2 eexists; apply z_copy.
  - do 2 eexists; apply z_move; auto.
  - destruct (zbin_total (bop_of o) (e v) (e w)) as ([r|x] & B).
    + destruct o; discriminate.
    + do 2 eexists; eapply z_assign; eauto. intros ->. exact A.
    + do 2 eexists; eapply z_assign_throw; eauto.
  - do 2 eexists; apply z_inc.
  - do 2 eexists; apply z_dec.
  - destruct (zun_total o (e w)) as ([r|x] & B).
    + intros ->. exact A.
    + do 2 eexists; eapply z_un; eauto.
    + do 2 eexists; eapply z_un_throw; eauto.
  - destruct (zbin_total o (e u) (e w)) as ([r|x] & B).
    + intros ->. exact A.
    + do 2 eexists; eapply z_bin; eauto.
    + do 2 eexists; eapply z_bin_throw; eauto.
  - destruct A as (A1 & A2 & A3 & A4). do 2 eexists; apply z_powmod; auto.
  - do 2 eexists; apply z_compare.
  - assert (Q: exists b, zquery o (e v) b).
    { destruct o.
      - exists (e v =? 0). constructor. apply Z.eqb_eq.
      - exists (0 <? e v). constructor. apply Z.ltb_lt.
      - exists (e v <? 0). constructor. apply Z.ltb_lt.
      - exists (Z.even (e v)). constructor. apply Z.even_spec.
      - exists (Z.odd (e v)). constructor. apply Z.odd_spec.
      - exists (if prime_dec (e v) then true else false). constructor.
        destruct (prime_dec (e v)); split; auto; discriminate. }
    destruct Q as (b & Q). do 2 eexists; apply z_query; eauto.
  - assert (exists d, digit_count (e v) d) as (d & D).
    { destruct (Z.eq_dec (e v) 0); [exists 0; left; auto|].
      destruct (log_exists (Z.abs (e v)) 10) as (k & K0 & K); try lia.
      exists (k + 1). right. split; auto. split; [lia|]. replace (k + 1 - 1) with k by lia. auto. }
    do 2 eexists; eapply z_digits; eauto.
  - do 2 eexists; apply z_print.
Qed.
