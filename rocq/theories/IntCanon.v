(** Every execution, standard or benign, of every program keeps all Ints canonical. *)
From Coq Require Import ZArith Znumtheory List Bool Ascii Lia.
From Verif Require Import Outcome IntModel IntSpec IntBase IntAddSub IntMulDiv IntIO IntFuncs IntPolicy
  Show ShowFacts IntProgModel IntProgSpec IntProg.
Import ListNotations.
Open Scope Z_scope.

Lemma refines_ok : forall A (o1 o2 : outcome A) r, refines o1 o2 -> o1 = Ok r -> o2 = Ok r.
Proof. intros A o1 o2 r [->|(u & ->)] H; auto; discriminate. Qed.

Lemma assign_refines : forall s v o1 o2, refines o1 o2 -> refines (assign s v o1) (assign s v o2).
Proof. intros s v o1 o2 [->|(u & ->)]; [apply refines_refl|right; exists u; auto]. Qed.

Lemma assign_mut_refines : forall s v r1 r2, r1 = r2 \/ (exists u, fst r1 = UB u) ->
  refines (assign_mut s v r1) (assign_mut s v r2).
Proof.
  intros s v r1 r2 [->|(u & E)]; [apply refines_refl|]. destruct r1; simpl in E; subst. right; exists u; auto.
Qed.

Lemma add_loop_self_refines : forall n i a, refines (add_loop_self Strict n i a) (add_loop_self Benign n i a).
Proof. induction n; intros; cbn [add_loop_self]; refd. Qed.
Global Hint Resolve add_loop_self_refines : refdb.
Lemma self_refines : forall x, refines (int_add_assign_self Strict x) (int_add_assign_self Benign x).
Proof. intros; unfold int_add_assign_self; refd. Qed.

Lemma int_add_assign_refines : forall x y, refines (int_add_assign Strict x y) (int_add_assign Benign x y).
Proof. intros; apply add_sub_refines. Qed.

Lemma step_policy : forall f c s, refines (step Strict f c s) (step Benign f c s).
Proof.
  intros f c s. destruct c; cbn [step]; try apply refines_refl.
  - destruct o; try (apply assign_refines); try (apply assign_mut_refines).
    + destruct (Nat.eqb v w); [apply self_refines|apply int_add_assign_refines].
    + apply int_sub_assign_refines.
    + apply int_mul_refines.
    + apply int_div_assign_refines.
    + apply int_mod_assign_refines.
  - apply assign_refines. destruct o; cbn [eval_un]; try apply refines_refl.
    + apply int_factorial_refines.
    + apply int_next_prime_refines.
    + apply int_sqrt_refines.
  - apply assign_refines. destruct o; cbn [eval_bin].
    + apply int_add_refines.
    + apply int_sub_refines.
    + apply int_mul_refines'.
    + apply int_div_refines.
    + apply int_mod_refines.
    + apply int_pow_refines.
    + apply int_log_refines.
    + apply int_gcd_refines.
    + apply int_lcm_refines.
  - apply assign_refines. apply int_pow_refines.
  - apply refines_bind; [|intros; apply refines_refl]. destruct o; cbn [eval_query]; try apply refines_refl.
    apply int_is_prime_refines.
Qed.

Lemma run_policy : forall f prog s, refines (run Strict f prog s) (run Benign f prog s).
Proof.
  induction prog; intros s; cbn [run]; [apply refines_refl|].
  apply refines_bind; [apply step_policy|]. intros r. apply refines_bind; [apply IHprog|].
  intros; apply refines_refl.
Qed.

(** ** Closure of the canonical form *)

Definition closed (o : outcome Int) : Prop := forall r, o = Ok r -> canonical r.

Lemma closed_returns : forall o z, returns o z -> closed o.
Proof. intros o z (r & E & R) r' E'. rewrite E in E'. inversion E'; subst. eapply repr_canonical; eauto. Qed.

Lemma canon_repr : forall x, canonical x -> repr x (value x).
Proof. intros x H. split; auto. Qed.

Lemma closed_bind : forall A (o : outcome A) (k : A -> outcome Int) (P : A -> Prop),
  (forall a, o = Ok a -> P a) -> (forall a, P a -> closed (k a)) -> closed (bind o k).
Proof.
  intros A o k P H K r E. destruct o; cbn [bind] in E; try discriminate. eapply K; eauto.
Qed.

Lemma closed_ok : forall x, canonical x -> closed (Ok x).
Proof. intros x H r E. inversion E; subst; auto. Qed.

Lemma closed_if : forall (b : bool) o1 o2, closed o1 -> closed o2 -> closed (if b then o1 else o2).
Proof. destruct b; auto. Qed.

Lemma closed_throw : forall e, closed (Throw e).
Proof. intros e r E; discriminate. Qed.
Lemma closed_fuel : closed OutOfFuel.
Proof. intros r E; discriminate. Qed.

Lemma c_int : forall n, closed (int_of_int n).
Proof.
  intros n r E. destruct (Z_le_dec n INT_MIN).
  - destruct (Z.eq_dec n INT_MIN); [subst; rewrite int_of_int_min in E; discriminate|].
    revert E. unfold int_of_int. rewrite chk32_ub; [discriminate|]. unfold INT_MIN, INT_MAX in *. lia.
  - destruct (Z_le_dec n INT_MAX).
    + eapply closed_returns; eauto. apply int_of_int_spec; lia.
    + revert E. unfold int_of_int. rewrite chk32_ub; [discriminate|]. unfold INT_MIN, INT_MAX in *. lia.
Qed.

(** A computation whose result, if it returns, is canonical and fuel-independent. *)
Definition settles (f : nat -> outcome Int) : Prop :=
  (exists x, canonical x /\ converges f (Ok x)) \/ (exists e, converges f (Throw e)) \/
  (exists u, converges f (UB u)) \/ diverges f.

Lemma settles_computes : forall f z, computes f z -> settles f.
Proof. intros f z (x & C & R). left. exists x. split; auto. eapply repr_canonical; eauto. Qed.

Lemma settles_const : forall o, o <> OutOfFuel -> closed o -> settles (fun _ => o).
Proof.
  intros o N C. destruct o.
  - left. exists a. split; [apply C; auto|apply conv_const; auto].
  - right; left. exists e. apply conv_const; auto.
  - right; right; left. exists u. apply conv_const; auto.
  - congruence.
Qed.

Lemma meets_settles : forall f r, meets f r -> settles f.
Proof.
  intros f [z|e] M; [eapply settles_computes; eauto|]. right; left. exists e. auto.
Qed.

Lemma pow_loop_S : forall p f m num n result, pow_loop p (S f) m num n result =
  if negb (is_zero n)
  then
    odd <- is_odd n ;;
    r1 <- (if odd
           then t <- int_mul p result num ;;
                (if is_zero m then Ok t else int_mod p t m)
           else Ok result) ;;
    sq <- int_mul p num num ;;
    num1 <- (if is_zero m then Ok sq else int_mod p sq m) ;;
    two <- int_of_int 2 ;;
    n1 <- int_div p n two ;;
    pow_loop p f m num1 n1 r1
  else Ok result.
Proof. reflexivity. Qed.

Lemma mod_any : forall t m, canonical t -> canonical m ->
  exists r, (if is_zero m then Ok t else int_mod Benign t m) = Ok r /\ canonical r.
Proof.
  intros t m Ht Hm. destruct (is_zero m) eqn:E; [exists t; auto|].
  assert (value m <> 0).
  { intros Z0. pose proof (proj2 (is_zero_spec _ _ (canon_repr _ Hm)) Z0). congruence. }
  destruct (int_mod_spec _ _ _ _ (canon_repr _ Ht) (canon_repr _ Hm) H) as (z & (r & R & P) & _).
  exists r. split; auto. eapply repr_canonical; eauto.
Qed.

Lemma pow_loop_settles : forall k m num n result N, canonical m -> canonical num -> repr n N ->
  canonical result -> 0 <= N < 2 ^ Z.of_nat k ->
  exists r, canonical r /\ forall f, (k <= f)%nat -> pow_loop Benign (S f) m num n result = Ok r.
Proof.
  induction k; intros m num n result N Hm Hnum Hn Hr B.
  - assert (N = 0) by (simpl in B; lia). subst N. exists result. split; auto. intros f _.
    rewrite pow_loop_S, (proj2 (is_zero_spec _ _ Hn)) by auto. reflexivity.
  - destruct (Z.eq_dec N 0) as [E0|E0].
    + exists result. split; auto. intros f _.
      rewrite pow_loop_S, (proj2 (is_zero_spec _ _ Hn)) by auto. reflexivity.
    + assert (Z0: is_zero n = false).
      { destruct (is_zero n) eqn:E; auto. apply (is_zero_spec _ _ Hn) in E. lia. }
      destruct (int_mul_assign_spec Benign _ _ _ _ (canon_repr _ Hr) (canon_repr _ Hnum)) as (t & Et & Rt).
      destruct (mod_any t m (repr_canonical _ _ Rt) Hm) as (t' & Et' & Ct').
      destruct (int_mul_assign_spec Benign _ _ _ _ (canon_repr _ Hnum) (canon_repr _ Hnum)) as (q & Eq & Rq).
      destruct (mod_any q m (repr_canonical _ _ Rq) Hm) as (q' & Eq' & Cq').
      destruct (int_of_int_spec 2) as (two & E2 & R2); [unfold INT_MIN, INT_MAX; lia|].
      destruct (int_div_spec _ _ _ _ Hn R2) as (n1 & En & Rn); [lia|].
      assert (B1: 0 <= Z.quot N 2 < 2 ^ Z.of_nat k).
      { rewrite Z.quot_div_nonneg by lia. replace (Z.of_nat (S k)) with (Z.of_nat k + 1) in B by lia.
        rewrite Z.pow_add_r in B by lia. split; [apply Z.div_pos; lia|apply Z.div_lt_upper_bound; lia]. }
      set (r1 := if Z.odd N then t' else result).
      assert (C1: canonical r1) by (unfold r1; destruct (Z.odd N); auto).
      destruct (IHk m q' n1 r1 _ Hm Cq' Rn C1 B1) as (r & Cr & Er).
      exists r. split; auto. intros f Hf. rewrite pow_loop_S, Z0. cbn [negb].
      rewrite (is_odd_spec _ _ Hn). cbn [bind].
      assert (Eo: (if Z.odd N then t0 <- int_mul Benign result num ;;
                (if is_zero m then Ok t0 else int_mod Benign t0 m) else Ok result) = Ok r1).
      { unfold r1. destruct (Z.odd N); auto. unfold int_mul. rewrite Et. cbn [bind]. auto. }
      rewrite Eo. cbn [bind]. unfold int_mul at 1. rewrite Eq. cbn [bind]. rewrite Eq'. cbn [bind].
      rewrite E2. cbn [bind]. rewrite En. cbn [bind].
      destruct f; [lia|]. apply Er. lia.
Qed.

Lemma pow_settles : forall b e m, canonical b -> canonical e -> canonical m ->
  settles (fun f => int_pow Benign f b e m).
Proof.
  intros b e m Hb He Hm. set (B := value b). set (E := value e).
  pose proof (canon_repr _ Hb) as Rb. pose proof (canon_repr _ He) as Re. fold B in Rb. fold E in Re.
  destruct (Z.eq_dec (Z.abs B) 1) as [B1|B1].
  { eapply settles_computes. apply computes_intro with O. intros. eapply int_pow_one; eauto. }
  destruct (Z_lt_dec E 0) as [E0|E0].
  { destruct (Z.eq_dec B 0) as [B0|B0].
    - right; left. exists MathDomain. apply conv_fun; [discriminate|]. intros.
      eapply int_pow_neg_exp_zero; eauto. rewrite <- B0. auto.
    - eapply settles_computes. apply computes_intro with O. intros. eapply int_pow_neg_exp; eauto. lia. }
  destruct (int_of_int_spec 1) as (one & E1 & R1); [unfold INT_MIN, INT_MAX; lia|].
  destruct (pow_loop_settles (Z.to_nat (Z.log2_up (E + 1))) m b e one E Hm Hb Re (repr_canonical _ _ R1))
    as (r & Cr & Er).
  { split; [lia|]. rewrite Z2Nat.id by (apply Z.log2_up_nonneg).
    destruct (Z.eq_dec E 0); [rewrite e0; simpl; lia|].
    pose proof (Z.log2_up_spec (E + 1) ltac:(lia)). lia. }
  left. exists r. split; auto. split; [discriminate|]. exists (S (Z.to_nat (Z.log2_up (E + 1)))).
  intros fuel Hf. rewrite (int_pow_unfold _ _ _ _ _ _ Rb).
  destruct (Z.eqb_spec (Z.abs B) 1); [contradiction|].
  assert (N: is_negative e = false).
  { destruct (is_negative e) eqn:K; auto. apply (is_negative_spec _ _ Re) in K. lia. }
  rewrite N, E1. cbn [bind]. destruct fuel; [lia|]. apply Er. lia.
Qed.

Lemma eval_un_settles : forall o x, canonical x -> settles (fun f => eval_un Benign f o x).
Proof.
  intros o x H. pose proof (canon_repr _ H) as R.
  destruct o; try (destruct (zun_total UPos (value x)) as (r & Z); [discriminate|eapply meets_settles, eval_un_spec; eauto]; fail).
  - destruct (zun_total UNeg (value x)) as (r & Z); [discriminate|]. eapply meets_settles, eval_un_spec; eauto.
  - destruct (zun_total UAbs (value x)) as (r & Z); [discriminate|]. eapply meets_settles, eval_un_spec; eauto.
  - destruct (zun_total UFactorial (value x)) as (r & Z); [discriminate|]. eapply meets_settles, eval_un_spec; eauto.
  - destruct (zun_total UNextPrime (value x)) as (r & Z); [discriminate|]. eapply meets_settles, eval_un_spec; eauto.
  - destruct (Z_lt_dec (value x) 4) as [L|L].
    + destruct (zun_total USqrt (value x)) as (r & Z); [auto|]. eapply meets_settles, eval_un_spec; eauto.
    + destruct (Z.eq_dec (Z.sqrt (value x + 1) * Z.sqrt (value x + 1)) (value x + 1)) as [E|E].
      * right; right; right. cbn [eval_un]. eapply int_sqrt_div; [exact R|lia|].
        exists (Z.sqrt (value x + 1)). lia.
      * destruct (zun_total USqrt (value x)) as (r & Z); [|eapply meets_settles, eval_un_spec; eauto].
        intros _. right. intros (k & K). apply E.
        rewrite K. replace (k * k) with (Z.abs k * Z.abs k) by lia. rewrite Z.sqrt_square by lia. lia.
Qed.

Lemma int_log_settles : forall x y, canonical x -> canonical y -> settles (fun f => int_log Benign f x y).
Proof.
  intros x y Hx Hy. pose proof (canon_repr _ Hx) as Rx. pose proof (canon_repr _ Hy) as Ry.
  destruct (Z_le_dec (value x) 0) as [A|A].
  { right; left. exists MathDomain. apply conv_fun; [discriminate|]. intros. eapply int_log_domain; eauto. }
  destruct (Z_lt_dec (value y) 2) as [B|B].
  { right; left. exists MathDomain. apply conv_fun; [discriminate|]. intros. eapply int_log_domain; eauto. }
  destruct (Z_le_dec (Z.of_nat (length (chunks x))) INT_MAX) as [L|L].
  { destruct (int_log_spec _ _ _ _ Rx Ry) as (k & C & _); try lia. eapply settles_computes; eauto. }
  (* more than INT_MAX digits: base 10 uses digits() alone *)
  destruct (Z.eq_dec (value y) 10) as [T|T].
  - set (o := int_of_int (Z.of_nat (length (chunks x)) - 1)).
    assert (E: forall f, int_log Benign f x y = o).
    { intros f. unfold int_log. rewrite int2. cbn [bind].
      rewrite (repr_sign _ _ Rx), (Z.sgn_pos (value x)) by lia. simpl (1 <=? 0). cbv iota.
      rewrite (int_lt_spec _ _ _ _ Ry repr2). cbn [bind]. rewrite T. simpl (10 <? 2). cbv iota.
      rewrite int10. cbn [bind]. rewrite (int_eqb_spec _ _ _ _ Ry repr10), T. simpl (10 =? 10). cbv iota.
      rewrite (int_digits_spec _ _ Rx). reflexivity. }
    assert (N: o <> OutOfFuel).
    { unfold o, int_of_int. destruct (chk32_cases (Z.abs (Z.of_nat (length (chunks x)) - 1))) as [(I & K)|K];
        rewrite K; cbn [bind]; [|discriminate].
      destruct (int_of_int_spec (Z.of_nat (length (chunks x)) - 1)) as (r & Er & _);
        [unfold INT_MIN, INT_MAX in *; lia|].
      unfold int_of_int in Er. rewrite K in Er. cbn [bind] in Er. rewrite Er. discriminate. }
    pose proof (settles_const o N (c_int _)) as S.
    destruct S as [(r & Cr & _ & n & Sr)|[(e & _ & n & Sr)|[(u & _ & n & Sr)|Sr]]].
    + left. exists r. split; auto. split; [discriminate|]. exists n. intros. rewrite E. apply (Sr fuel); auto.
    + right; left. exists e. split; [discriminate|]. exists n. intros. rewrite E. apply (Sr fuel); auto.
    + right; right; left. exists u. split; [discriminate|]. exists n. intros. rewrite E. apply (Sr fuel); auto.
    + right; right; right. intros fuel. rewrite E. apply (Sr fuel).
  - destruct (int_div_spec _ _ _ _ Rx Ry) as (v & Ev & Rv); [lia|].
    assert (V0: 0 <= Z.quot (value x) (value y)) by (apply Z.quot_pos; lia).
    assert (E: forall f, int_log Benign f x y = log_loop Benign f v y (MkInt 0 [])).
    { intros f. unfold int_log. rewrite int2. cbn [bind].
      rewrite (repr_sign _ _ Rx), (Z.sgn_pos (value x)) by lia. simpl (1 <=? 0). cbv iota.
      rewrite (int_lt_spec _ _ _ _ Ry repr2). cbn [bind].
      destruct (Z.ltb_spec (value y) 2); [lia|].
      rewrite int10. cbn [bind]. rewrite (int_eqb_spec _ _ _ _ Ry repr10).
      destruct (Z.eqb_spec (value y) 10); [contradiction|].
      rewrite int0. cbn [bind]. rewrite Ev. reflexivity. }
    destruct (log_loop_spec (S (Z.to_nat (Z.quot (value x) (value y)))) _ _ _ _ _ _ Rv Ry repr_zero)
      as (k & _ & K0 & K1 & K2); try lia.
    assert (Q: forall f, (S (Z.to_nat (Z.quot (value x) (value y))) <= f)%nat ->
       returns (log_loop Benign f v y (MkInt 0 [])) k).
    { intros f Hf. destruct (log_loop_spec f _ _ _ _ _ _ Rv Ry repr_zero) as (k' & R' & K0' & K1' & K2'); try lia.
      replace k with k'; [replace k' with (0 + k') by lia; auto|].
      destruct (Z.eq_dec (Z.quot (value x) (value y)) 0) as [Z0|Z0]; [rewrite K1, K1'; auto|].
      destruct K2 as (A1 & A2 & A3); [lia|]. destruct K2' as (B1 & B2 & B3); [lia|].
      assert (k - 1 < k') by (apply (Z.pow_lt_mono_r_iff (value y)); lia).
      assert (k' - 1 < k) by (apply (Z.pow_lt_mono_r_iff (value y)); lia). lia. }
    eapply settles_computes. apply computes_intro with (S (Z.to_nat (Z.quot (value x) (value y)))).
    intros fuel Hf. rewrite E. apply Q. exact Hf.
Qed.

Lemma eval_bin_settles : forall o x y, canonical x -> canonical y -> settles (fun f => eval_bin Benign f o x y).
Proof.
  intros o x y Hx Hy. pose proof (canon_repr _ Hx) as Rx. pose proof (canon_repr _ Hy) as Ry.
  assert (G: o <> BLog -> settles (fun f => eval_bin Benign f o x y)).
  { intros N. destruct (zbin_total o (value x) (value y)) as (r & Z); [congruence|].
    eapply meets_settles, eval_bin_spec; eauto. }
  destruct o; try (apply G; discriminate). apply int_log_settles; auto.
Qed.

Definition all_canonical (s : store) : Prop := forall v, canonical (s v).

Lemma canonical_set : forall s v x, all_canonical s -> canonical x -> all_canonical (set s v x).
Proof. intros s v x H C w. unfold set. destruct (Nat.eqb w v); auto. Qed.

(** A step settles: it converges (to a canonical store when it returns) or diverges. *)
Lemma step_settles : forall c s, all_canonical s ->
  (exists s' ev, converges (fun f => step Benign f c s) (Ok (s', ev)) /\ all_canonical s') \/
  (exists n, forall f, (n <= f)%nat -> forall r, step Benign f c s <> Ok r).
Proof.
  intros c s H.
  assert (AS: forall v f, settles f ->
    (exists s' ev, converges (fun n => assign s v (f n)) (Ok (s', ev)) /\ all_canonical s') \/
    (exists n, forall fuel, (n <= fuel)%nat -> forall r, assign s v (f fuel) <> Ok r)).
  { intros v f [(x & Cx & _ & n & Hx)|[(e & _ & n & He)|[(u & _ & n & Hu)|Hd]]].
    - left. exists (set s v x), []. split; [|apply canonical_set; auto].
      split; [discriminate|]. exists n. intros. rewrite Hx by auto. reflexivity.
    - left. exists s, [EThrow e]. split; auto. split; [discriminate|]. exists n. intros. rewrite He by auto. reflexivity.
    - right. exists n. intros fuel Hf r. rewrite Hu by auto. discriminate.
    - right. exists O. intros fuel _ r. rewrite Hd. discriminate. }
  assert (AC: forall v o, o <> OutOfFuel -> closed o ->
    (exists s' ev, converges (fun n : nat => assign s v o) (Ok (s', ev)) /\ all_canonical s') \/
    (exists n, forall fuel, (n <= fuel)%nat -> forall r, assign s v o <> Ok r)).
  { intros v o N C. apply (AS v (fun _ => o)). apply settles_const; auto. }
  assert (AR: forall v o z, returns o z ->
    (exists s' ev, converges (fun n : nat => assign s v o) (Ok (s', ev)) /\ all_canonical s') \/
    (exists n, forall fuel, (n <= fuel)%nat -> forall r, assign s v o <> Ok r)).
  { intros v o z R. apply AC; [destruct R as (r & -> & _); discriminate|eapply closed_returns; eauto]. }
  assert (RP: forall v, repr (s v) (value (s v))) by (intros; apply canon_repr; auto).
  destruct c; cbn [step].
  - apply AC; [|apply c_int]. unfold int_of_int.
    destruct (chk32_cases (Z.abs n)) as [(I & K)|K]; rewrite K; cbn [bind]; [|discriminate].
    destruct (int_of_int_spec n) as (r & Er & _); [unfold INT_MIN, INT_MAX in *; lia|].
    unfold int_of_int in Er. rewrite K in Er. cbn [bind] in Er. rewrite Er. discriminate.
  - destruct (literal cs) eqn:L.
    + eapply AR. apply int_of_chars_ok; eauto.
    + rewrite int_of_chars_bad by auto. apply AC; [discriminate|apply closed_throw].
  - left. exists (set s v (s w)), []. split; [apply conv_const; discriminate|apply canonical_set; auto].
  - destruct (Nat.eqb v w).
    + right. exists O. intros; discriminate.
    + cbn [int_move]. left. eexists _, []. split; [apply conv_const; discriminate|].
      apply canonical_set; [apply canonical_set; auto|eapply repr_canonical; apply repr_zero].
  - destruct o.
    + destruct (Nat.eqb v w).
      * destruct (Z.eq_dec (value (s v)) 0) as [Z0|Z0].
        -- apply (AR v _ 0). unfold int_add_assign_self. rewrite (repr_sign _ _ (RP v)), Z0. simpl.
           exists (s v). split; auto. rewrite <- Z0. auto.
        -- destruct (self_add_benign _ _ (RP v) Z0) as (r & w0 & E & R & _). eapply AR. exists r. eauto.
      * eapply AR. apply int_add_assign_spec; auto.
    + eapply AR. apply int_sub_assign_spec; auto.
    + eapply AR. apply int_mul_assign_spec; auto.
    + left. destruct (Z.eq_dec (value (s w)) 0) as [Z0|Z0].
      * rewrite int_div_assign_zero by (rewrite <- Z0; auto). cbn [assign_mut].
        eexists _, _. split; [apply conv_const; discriminate|apply canonical_set; auto].
      * destruct (int_div_assign_spec _ _ _ _ (RP v) (RP w) Z0) as (r & E & R). rewrite E. cbn [assign_mut].
        eexists _, _. split; [apply conv_const; discriminate|apply canonical_set; auto].
        eapply repr_canonical; eauto.
    + left. destruct (Z.eq_dec (value (s w)) 0) as [Z0|Z0].
      * rewrite int_mod_assign_zero by (rewrite <- Z0; auto). cbn [assign_mut].
        eexists _, _. split; [apply conv_const; discriminate|apply canonical_set; auto].
      * destruct (int_mod_assign_spec _ _ _ _ (RP v) (RP w) Z0) as (r & z & E & R & _). rewrite E. cbn [assign_mut].
        eexists _, _. split; [apply conv_const; discriminate|apply canonical_set; auto].
        eapply repr_canonical; eauto.
  - eapply AR. apply int_inc_spec; auto.
  - eapply AR. apply int_dec_spec; auto.
  - apply (AS v (fun f => eval_un Benign f o (s w))). apply eval_un_settles; auto.
  - apply (AS v (fun f => eval_bin Benign f o (s u) (s w))). apply eval_bin_settles; auto.
  - apply (AS v (fun f => int_pow Benign f (s b) (s e) (s m))). apply pow_settles; auto.
  - left. rewrite (eval_cmp_spec _ _ _ _ _ (RP v) (RP w)). eexists s, _. split; auto. apply conv_const. discriminate.
  - left. assert (Q: exists b, converges (fun f => eval_query Benign f o (s v)) (Ok b)).
    { destruct (zstep_total (SQuery o v) (fun _ => value (s v)) I) as (e' & ev & Zs).
      inversion Zs; subst. eexists. eapply eval_query_spec; eauto. }
    destruct Q as (b & _ & n & C). exists s, [EBool b]. split; auto. split; [discriminate|].
    exists n. intros. rewrite C by auto. reflexivity.
  - left. rewrite (int_digits_spec _ _ (RP v)). cbn [bind]. eexists s, _. split; auto. apply conv_const. discriminate.
  - left. eexists s, _. split; auto. apply conv_const. discriminate.
Qed.

Lemma run_canonical_benign : forall prog s s' ev, all_canonical s ->
  converges (fun f => run Benign f prog s) (Ok (s', ev)) -> all_canonical s'.
Proof.
  induction prog; intros s s' ev H [_ (n & C)].
  - specialize (C n (le_n n)). cbn [run] in C. inversion C; subst; auto.
  - destruct (step_settles a s H) as [(s1 & ev1 & (_ & n1 & C1) & H1)|(n1 & N1)].
    + apply (IHprog s1 s' (skipn (length ev1) ev) H1). split; [discriminate|].
      exists (Nat.max n n1). intros fuel Hf. specialize (C fuel ltac:(lia)). cbn [run] in C.
      rewrite C1 in C by lia. cbn [bind fst snd] in C.
      destruct (run Benign fuel prog s1) as [[s2 ev2]| | |]; cbn [bind] in C; try discriminate.
      cbn [fst snd] in C. inversion C; subst. do 2 f_equal.
      rewrite skipn_app, skipn_all, Nat.sub_diag. reflexivity.
    + exfalso. specialize (C (Nat.max n n1) ltac:(lia)). cbn [run] in C.
      destruct (step Benign (Nat.max n n1) a s) eqn:E; cbn [bind] in C; try discriminate.
      eapply N1; [|exact E]. lia.
Qed.

Lemma run_canonical : forall p prog s s' ev, all_canonical s ->
  converges (fun f => run p f prog s) (Ok (s', ev)) -> all_canonical s'.
Proof.
  intros p prog s s' ev H C. apply (run_canonical_benign prog s s' ev H).
  destruct p; auto. destruct C as [_ (n & C)]. split; [discriminate|]. exists n. intros fuel Hf.
  eapply refines_ok; [apply run_policy|]. apply C; auto.
Qed.

Lemma canonical_eqb : forall x y, canonical x -> canonical y -> (int_eqb x y = true <-> value x = value y).
Proof.
  intros x y Hx Hy. rewrite (int_eqb_spec _ _ _ _ (canon_repr _ Hx) (canon_repr _ Hy)). apply Z.eqb_eq.
Qed.
