(** The standard ([Strict]) reading of an operation either is undefined or
    agrees with the [Benign] reading; and the behaviour of [x += x]. *)
From Coq Require Import ZArith List Bool Lia Arith.
From Verif Require Import Outcome IntModel IntSpec IntBase IntAddSub IntMulDiv.
Import ListNotations.
Open Scope Z_scope.

Definition refines {A} (o1 o2 : outcome A) : Prop := o1 = o2 \/ exists u, o1 = UB u.

Lemma refines_refl : forall A (o : outcome A), refines o o.
Proof. left; auto. Qed.

Lemma refines_bind : forall A B (o1 o2 : outcome A) (k1 k2 : A -> outcome B),
  refines o1 o2 -> (forall a, refines (k1 a) (k2 a)) -> refines (bind o1 k1) (bind o2 k2).
Proof.
  intros A B o1 o2 k1 k2 [->|(u & ->)] H.
  - destruct o2; cbn [bind]; auto using refines_refl.
  - right. exists u. auto.
Qed.

Lemma refines_if : forall A (b : bool) (a1 a2 b1 b2 : outcome A),
  refines a1 a2 -> refines b1 b2 -> refines (if b then a1 else b1) (if b then a2 else b2).
Proof. destruct b; auto. Qed.

Ltac ref :=
  repeat first
    [ apply refines_refl
    | assumption
    | match goal with H : forall _, _ |- _ => apply H end
    | apply refines_bind; [|intros]
    | apply refines_if ].

Lemma vadd_refines : forall v i d, refines (vadd Strict v i d) (vadd Benign v i d).
Proof.
  intros. unfold vadd. destruct (nth_error v i); [apply refines_refl|]. right; eauto.
Qed.
Global Hint Resolve vadd_refines refines_refl : refdb.
Ltac refd := repeat first
    [ solve [auto with refdb]
    | apply refines_bind; [|intros]
    | apply refines_if
    | match goal with |- refines (match ?x with _ => _ end) (match ?x with _ => _ end) => destruct x end ].

Lemma add_loop_refines : forall n i a b, refines (add_loop Strict n i a b) (add_loop Benign n i a b).
Proof. induction n; intros; cbn [add_loop]; refd. Qed.
Lemma add_carry_refines : forall n i a, refines (add_carry Strict n i a) (add_carry Benign n i a).
Proof. induction n; intros; cbn [add_carry]; refd. Qed.
Lemma sub_loop_refines : forall n i a b, refines (sub_loop Strict n i a b) (sub_loop Benign n i a b).
Proof. induction n; intros; cbn [sub_loop]; refd. Qed.
Lemma sub_borrow_refines : forall n i a, refines (sub_borrow Strict n i a) (sub_borrow Benign n i a).
Proof. induction n; intros; cbn [sub_borrow]; refd. Qed.
Global Hint Resolve add_loop_refines add_carry_refines sub_loop_refines sub_borrow_refines : refdb.

Lemma add_same_refines : forall x y, refines (add_same Strict x y) (add_same Benign x y).
Proof. intros; unfold add_same; refd. Qed.
Lemma sub_same_refines : forall x y, refines (sub_same Strict x y) (sub_same Benign x y).
Proof.
  intros; unfold sub_same. apply refines_bind; [refd|intros c].
  destruct (c =? -1); refd.
Qed.
Global Hint Resolve add_same_refines sub_same_refines : refdb.

Lemma add_sub_refines : forall d m x y, refines (add_sub Strict d m x y) (add_sub Benign d m x y).
Proof. induction d; intros; cbn [add_sub]; refd. Qed.
Global Hint Resolve add_sub_refines : refdb.

Lemma int_add_refines : forall x y, refines (int_add Strict x y) (int_add Benign x y).
Proof. intros; apply add_sub_refines. Qed.
Lemma int_sub_refines : forall x y, refines (int_sub Strict x y) (int_sub Benign x y).
Proof. intros; apply add_sub_refines. Qed.
Lemma int_sub_assign_refines : forall x y, refines (int_sub_assign Strict x y) (int_sub_assign Benign x y).
Proof. intros; apply add_sub_refines. Qed.
Global Hint Resolve int_add_refines int_sub_refines int_sub_assign_refines : refdb.

Lemma mul_inner_refines : forall n i j ai b c, refines (mul_inner Strict n i j ai b c) (mul_inner Benign n i j ai b c).
Proof. induction n; intros; cbn [mul_inner]; refd. Qed.
Global Hint Resolve mul_inner_refines : refdb.
Lemma mul_outer_refines : forall n i a b c, refines (mul_outer Strict n i a b c) (mul_outer Benign n i a b c).
Proof. induction n; intros; cbn [mul_outer]; refd. Qed.
Global Hint Resolve mul_outer_refines : refdb.
Lemma int_mul_refines : forall x y, refines (int_mul_assign Strict x y) (int_mul_assign Benign x y).
Proof. intros; unfold int_mul_assign; refd. Qed.
Lemma int_mul_refines' : forall x y, refines (int_mul Strict x y) (int_mul Benign x y).
Proof. exact int_mul_refines. Qed.
Global Hint Resolve int_mul_refines int_mul_refines' : refdb.

Lemma div_digit_refines : forall f t m i r, refines (div_digit Strict f t m i r) (div_digit Benign f t m i r).
Proof. induction f; intros; cbn [div_digit]; refd. Qed.
Global Hint Resolve div_digit_refines : refdb.
Lemma div_loop_refines : forall n t m r, refines (div_loop Strict n t m r) (div_loop Benign n t m r).
Proof. induction n; intros; cbn [div_loop]; refd. Qed.
Global Hint Resolve div_loop_refines : refdb.
Lemma div_core_refines : forall x y, refines (div_core Strict x y) (div_core Benign x y).
Proof. intros; unfold div_core; refd. Qed.
Lemma mod_digit_refines : forall f t m, refines (mod_digit Strict f t m) (mod_digit Benign f t m).
Proof. induction f; intros; cbn [mod_digit]; refd. Qed.
Global Hint Resolve mod_digit_refines : refdb.
Lemma mod_loop_refines : forall n t m, refines (mod_loop Strict n t m) (mod_loop Benign n t m).
Proof. induction n; intros; cbn [mod_loop]; refd. Qed.
Global Hint Resolve mod_loop_refines : refdb.
Lemma mod_core_refines : forall x y, refines (mod_core Strict x y) (mod_core Benign x y).
Proof. intros; unfold mod_core; refd. Qed.

Lemma int_div_assign_refines : forall x y,
  int_div_assign Strict x y = int_div_assign Benign x y \/ exists u, fst (int_div_assign Strict x y) = UB u.
Proof.
  intros; unfold int_div_assign. destruct (check_zero (sign y)); auto.
  destruct (div_core_refines x y) as [->|(u & ->)]; simpl; eauto.
Qed.
Lemma int_mod_assign_refines : forall x y,
  int_mod_assign Strict x y = int_mod_assign Benign x y \/ exists u, fst (int_mod_assign Strict x y) = UB u.
Proof.
  intros; unfold int_mod_assign. destruct (check_zero (sign y)); auto.
  destruct (mod_core_refines x y) as [->|(u & ->)]; simpl; eauto.
Qed.
Lemma int_div_refines : forall x y, refines (int_div Strict x y) (int_div Benign x y).
Proof.
  intros; unfold int_div. destruct (int_div_assign_refines x y) as [->|(u & E)]; [apply refines_refl|].
  destruct (int_div_assign Strict x y) as [o s]; simpl in E; subst. right; eauto.
Qed.
Lemma int_mod_refines : forall x y, refines (int_mod Strict x y) (int_mod Benign x y).
Proof.
  intros; unfold int_mod. destruct (int_mod_assign_refines x y) as [->|(u & E)]; [apply refines_refl|].
  destruct (int_mod_assign Strict x y) as [o s]; simpl in E; subst. right; eauto.
Qed.
Global Hint Resolve int_div_refines int_mod_refines : refdb.

Lemma factorial_loop_refines : forall f i r, refines (factorial_loop Strict f i r) (factorial_loop Benign f i r).
Proof. induction f; intros; cbn [factorial_loop]; refd. Qed.
Global Hint Resolve factorial_loop_refines : refdb.
Lemma int_factorial_refines : forall f x, refines (int_factorial Strict f x) (int_factorial Benign f x).
Proof. intros; unfold int_factorial; refd. Qed.
Lemma prime_loop_refines : forall f x i, refines (prime_loop Strict f x i) (prime_loop Benign f x i).
Proof. induction f; intros; cbn [prime_loop]; refd. Qed.
Global Hint Resolve prime_loop_refines : refdb.
Lemma int_is_prime_refines : forall f x, refines (int_is_prime Strict f x) (int_is_prime Benign f x).
Proof. intros; unfold int_is_prime; refd. Qed.
Global Hint Resolve int_is_prime_refines : refdb.
Lemma next_prime_loop_refines : forall f k x, refines (next_prime_loop Strict f k x) (next_prime_loop Benign f k x).
Proof. induction f; intros; cbn [next_prime_loop]; refd. Qed.
Global Hint Resolve next_prime_loop_refines : refdb.
Lemma int_next_prime_refines : forall f x, refines (int_next_prime Strict f x) (int_next_prime Benign f x).
Proof. intros; unfold int_next_prime; refd. Qed.
Lemma sqrt_loop_refines : forall f n c p, refines (sqrt_loop Strict f n c p) (sqrt_loop Benign f n c p).
Proof. induction f; intros; cbn [sqrt_loop]; refd. Qed.
Global Hint Resolve sqrt_loop_refines : refdb.
Lemma int_sqrt_refines : forall f x, refines (int_sqrt Strict f x) (int_sqrt Benign f x).
Proof. intros; unfold int_sqrt; refd. Qed.
Lemma pow_loop_refines : forall f m x n r, refines (pow_loop Strict f m x n r) (pow_loop Benign f m x n r).
Proof. induction f; intros; cbn [pow_loop]; refd. Qed.
Global Hint Resolve pow_loop_refines : refdb.
Lemma int_pow_refines : forall f b e m, refines (int_pow Strict f b e m) (int_pow Benign f b e m).
Proof. intros; unfold int_pow; refd. Qed.
Lemma log_loop_refines : forall f v b r, refines (log_loop Strict f v b r) (log_loop Benign f v b r).
Proof. induction f; intros; cbn [log_loop]; refd. Qed.
Global Hint Resolve log_loop_refines : refdb.
Lemma int_log_refines : forall f n b, refines (int_log Strict f n b) (int_log Benign f n b).
Proof. intros; unfold int_log; refd. Qed.
Lemma gcd_loop_refines : forall f a b, refines (gcd_loop Strict f a b) (gcd_loop Benign f a b).
Proof. induction f; intros; cbn [gcd_loop]; refd. Qed.
Global Hint Resolve gcd_loop_refines : refdb.
Lemma int_gcd_refines : forall f a b, refines (int_gcd Strict f a b) (int_gcd Benign f a b).
Proof. intros; unfold int_gcd; refd. Qed.
Global Hint Resolve int_gcd_refines : refdb.
Lemma int_lcm_refines : forall f a b, refines (int_lcm Strict f a b) (int_lcm Benign f a b).
Proof. intros; unfold int_lcm; refd. Qed.

(** ** Self addition *)

Lemma skipn_upd_lt : forall l i k x, (i < k)%nat -> skipn k (upd l i x) = skipn k l.
Proof.
  induction l; intros; destruct k, i; simpl; auto; try lia. apply IHl; lia.
Qed.

Lemma skipn_upd_eq : forall l k x, (k < length l)%nat ->
  val (skipn k (upd l k x)) = val (skipn k l) + x - nth k l 0.
Proof.
  induction l; intros; simpl length in *; [lia|]. destruct k; cbn [upd skipn nth].
  - rewrite !val_cons. lia.
  - apply IHl; lia.
Qed.

Lemma add_loop_self_spec : forall n i a, (i + n = length a)%nat -> (0 < n)%nat ->
  (forall j, (j < length a)%nat -> 0 <= nth j a 0 <= if Nat.eqb j i then 11 else 9) ->
  nth (length a - 1) a 0 <= (if Nat.eqb (length a - 1) i then 2 else 0) ->
  exists a' extra, add_loop_self Benign n i a = Ok a' /\ length a' = length a /\ Forall digit a' /\
    val a' = val a + p10 i * val (skipn i a) + extra /\ 0 <= extra /\
    (extra = 0 <-> forall j, (i <= j < length a)%nat -> nth j a 0 <= 4).
Proof.
  induction n; intros i a Hn Hpos Hc Htop; [lia|]. cbn [add_loop_self].
  pose proof (Hc i ltac:(lia)) as Hi. rewrite Nat.eqb_refl in Hi.
  rewrite !vget_ok by lia. cbn [bind]. rewrite chk32_ok by (zsimp; lia). cbn [bind].
  set (t := nth i a 0 + nth i a 0) in *.
  assert (Hq: 0 <= Z.quot t BASE <= 2 /\ 0 <= Z.rem t BASE <= 9 /\ t = 10 * Z.quot t BASE + Z.rem t BASE).
  { zsimp. rewrite Z.quot_div_nonneg, Z.rem_mod_nonneg by lia.
    pose proof (Z.mod_pos_bound t 10). pose proof (Z.div_mod t 10). lia. }
  destruct Hq as (Hq & Hr & Ht). set (q := Z.quot t BASE) in *.
  rewrite vset_ok by lia. cbn [bind].
  destruct (Nat.eq_dec (S i) (length a)) as [EL|NL].
  - assert (n = 0)%nat by lia. subst n. replace (length a - 1)%nat with i in Htop by lia.
    rewrite Nat.eqb_refl in Htop. assert (q = 0) by lia. rewrite H.
    rewrite vadd_end by (rewrite upd_length; auto). cbn [bind add_loop_self].
    eexists _, 0. split; [reflexivity|]. rewrite upd_length. split; auto. split; [|split; [|split]].
    + apply Forall_cells. intros j Hj. rewrite upd_length in Hj. rewrite nth_upd by lia.
      destruct (Nat.eqb_spec j i); [lia|]. pose proof (Hc j Hj) as Hj2.
      rewrite (proj2 (Nat.eqb_neq j i)) in Hj2 by auto. auto.
    + rewrite val_upd, (val_skipn a i), (val_skipn_all a (S i)) by lia.
      replace (Z.rem t BASE) with t by lia. unfold t. ring.
    + lia.
    + split; auto. intros _ j Hj. replace j with i by lia. lia.
  - pose proof (Hc (S i) ltac:(lia)) as HSi. rewrite (proj2 (Nat.eqb_neq (S i) i)) in HSi by lia.
    rewrite vadd_ok; [|rewrite upd_length; lia|rewrite nth_upd by lia;
      rewrite (proj2 (Nat.eqb_neq (S i) i)) by lia; zsimp; lia].
    cbn [bind]. rewrite nth_upd by lia. rewrite (proj2 (Nat.eqb_neq (S i) i)) by lia.
    set (a2 := upd (upd a i (Z.rem t BASE)) (S i) (nth (S i) a 0 + q)).
    assert (L2: length a2 = length a) by (unfold a2; rewrite !upd_length; auto).
    assert (N2: forall j, nth j a2 0 = if Nat.eqb j (S i) then nth (S i) a 0 + q else if Nat.eqb j i then Z.rem t BASE else nth j a 0).
    { intros j. unfold a2. rewrite nth_upd by (rewrite upd_length; lia).
      destruct (Nat.eqb_spec j (S i)); auto. rewrite nth_upd by lia. auto. }
    assert (V2: val a2 = val a + nth i a 0 * p10 i).
    { unfold a2. rewrite val_upd by (rewrite upd_length; lia). rewrite nth_upd by lia.
      rewrite (proj2 (Nat.eqb_neq (S i) i)) by lia. rewrite val_upd by lia. rewrite p10_S.
      replace (Z.rem t BASE) with (t - 10 * q) by lia. unfold t. ring. }
    assert (S2: val (skipn (S i) a2) = val (skipn (S i) a) + q).
    { unfold a2. rewrite skipn_upd_eq by (rewrite upd_length; lia).
      rewrite skipn_upd_lt by lia. rewrite nth_upd by lia. rewrite (proj2 (Nat.eqb_neq (S i) i)) by lia. lia. }
    destruct (IHn (S i) a2) as (a' & ex & E & L & D & V & X & XI).
    + lia.
    + lia.
    + intros j Hj. rewrite N2. destruct (Nat.eqb_spec j (S i)); [lia|].
      destruct (Nat.eqb_spec j i); [lia|]. pose proof (Hc j ltac:(lia)) as Hj2.
      rewrite (proj2 (Nat.eqb_neq j i)) in Hj2 by auto. auto.
    + rewrite L2, N2. rewrite (proj2 (Nat.eqb_neq (length a - 1) i)) in * by lia.
      destruct (Nat.eqb_spec (length a - 1) (S i)); [|lia]. rewrite e in Htop. lia.
    + exists a', (q * p10 (S i) + ex). rewrite E. pose proof (p10_pos (S i)).
      split; auto. split; [lia|]. split; auto. split; [|split].
      * rewrite V, V2, S2, (val_skipn a i), p10_S by lia. ring.
      * nia.
      * split.
        -- intros Z0. assert (q = 0) by nia. assert (ex = 0) by nia.
           intros j Hj. destruct (Nat.eq_dec j i).
           ++ subst j. lia.
           ++ pose proof (proj1 XI H1 j ltac:(lia)) as K. rewrite N2 in K.
              destruct (Nat.eqb_spec j (S i)); [subst j; lia|].
              rewrite (proj2 (Nat.eqb_neq j i)) in K by auto. auto.
        -- intros A. pose proof (A i ltac:(lia)). assert (q = 0) by lia.
           assert (ex = 0); [|nia]. apply XI. intros j Hj. rewrite N2.
           destruct (Nat.eqb_spec j (S i)); [subst j; pose proof (A (S i) ltac:(lia)); lia|].
           rewrite (proj2 (Nat.eqb_neq j i)) by lia. apply A; lia.
Qed.

Lemma self_add_benign : forall x z, repr x z -> z <> 0 ->
  exists r w, int_add_assign_self Benign x = Ok r /\ repr r w /\
    2 * Z.abs z <= Z.abs w /\ Z.sgn w = Z.sgn z /\
    (w = 2 * z <-> Forall (fun d => d <= 4) (chunks x)).
Proof.
  intros x z H Hz. unfold int_add_assign_self. rewrite (repr_sign _ _ H).
  destruct (Z.eqb_spec (Z.sgn z) 0); [lia|].
  pose proof (repr_digits _ _ H) as D.
  set (a := resize (chunks x) (length (chunks x) + 1)).
  assert (La: length a = (length (chunks x) + 1)%nat) by (apply resize_length; lia).
  assert (Ea: a = chunks x ++ [0]).
  { unfold a, resize. rewrite firstn_all2 by lia. f_equal.
    replace (length (chunks x) + 1 - length (chunks x))%nat with 1%nat by lia. auto. }
  assert (Da: Forall digit a) by (apply resize_digits; auto).
  assert (Va: val a = Z.abs z).
  { unfold a. rewrite resize_val by lia. apply (repr_val _ _ H). }
  destruct (add_loop_self_spec (length a) 0 a) as (a' & ex & E & L & D' & V & X & XI).
  - lia.
  - lia.
  - intros j Hj. pose proof (proj1 (Forall_cells a) Da j Hj) as K. cbv beta in K.
    destruct (Nat.eqb j 0); lia.
  - rewrite Ea, app_length. simpl length. replace (length (chunks x) + 1 - 1)%nat with (length (chunks x)) by lia.
    rewrite app_nth2, Nat.sub_diag by lia. simpl. destruct (Nat.eqb (length (chunks x)) 0); lia.
  - rewrite E; cbn [bind]. replace (length a' - length a)%nat with 0%nat by lia. cbn [add_carry bind].
    rewrite p10_0 in V. simpl skipn in V.
    eexists _, (Z.sgn z * val a'). split; [reflexivity|].
    assert (W: Z.abs (Z.sgn z * val a') = val a').
    { rewrite Z.abs_mul. replace (Z.abs (Z.sgn z)) with 1 by lia. rewrite Z.mul_1_l. apply Z.abs_eq.
      apply val_nonneg; auto. }
    assert (0 < val a') by lia.
    split; [apply trim_repr; auto; lia|]. rewrite W. split; [lia|]. split.
    { rewrite Z.sgn_mul, (Z.sgn_pos (val a')) by lia. lia. }
    rewrite <- (Z.abs_sgn z) at 2. rewrite (Z.mul_comm (Z.abs z)), Z.mul_assoc, (Z.mul_comm 2), <- Z.mul_assoc.
    rewrite Z.mul_cancel_l by lia.
    assert (P: ex = 0 <-> Forall (fun d => d <= 4) (chunks x)).
    { rewrite XI. rewrite Ea. split; intros K.
      - apply Forall_forall. intros d Hd. destruct (In_nth _ _ 0 Hd) as (j & Hj & <-).
        specialize (K j). rewrite app_length, app_nth1 in K by lia. apply K. lia.
      - intros j Hj. rewrite app_length in Hj. simpl length in Hj.
        destruct (lt_dec j (length (chunks x))).
        + rewrite app_nth1 by lia. rewrite Forall_forall in K. apply K. apply nth_In; auto.
        + replace j with (length (chunks x)) by lia. rewrite app_nth2, Nat.sub_diag by lia. simpl; lia. }
    rewrite <- P. lia.
Qed.

Lemma add_loop_self_strict : forall n i a, (i + n = length a)%nat -> (0 < n)%nat ->
  (forall j, (j < length a)%nat -> 0 <= nth j a 0 <= if Nat.eqb j i then 11 else 9) ->
  add_loop_self Strict n i a = UB OutOfBounds.
Proof.
  induction n; intros i a Hn Hpos Hc; [lia|]. cbn [add_loop_self].
  pose proof (Hc i ltac:(lia)) as Hi. rewrite Nat.eqb_refl in Hi.
  rewrite !vget_ok by lia. cbn [bind]. rewrite chk32_ok by (zsimp; lia). cbn [bind].
  set (t := nth i a 0 + nth i a 0) in *.
  assert (Hq: 0 <= Z.quot t BASE <= 2 /\ 0 <= Z.rem t BASE <= 9 /\ t = 10 * Z.quot t BASE + Z.rem t BASE).
  { zsimp. rewrite Z.quot_div_nonneg, Z.rem_mod_nonneg by lia.
    pose proof (Z.mod_pos_bound t 10). pose proof (Z.div_mod t 10). lia. }
  destruct Hq as (Hq & Hr & Ht). set (q := Z.quot t BASE) in *.
  rewrite vset_ok by lia. cbn [bind].
  destruct (Nat.eq_dec (S i) (length a)) as [EL|NL].
  - rewrite vadd_end_strict by (rewrite upd_length; lia). reflexivity.
  - pose proof (Hc (S i) ltac:(lia)) as HSi. rewrite (proj2 (Nat.eqb_neq (S i) i)) in HSi by lia.
    rewrite vadd_ok; [|rewrite upd_length; lia|rewrite nth_upd by lia;
      rewrite (proj2 (Nat.eqb_neq (S i) i)) by lia; zsimp; lia].
    cbn [bind]. apply IHn.
    + rewrite !upd_length; lia.
    + lia.
    + intros j Hj. rewrite !upd_length in Hj. rewrite nth_upd by (rewrite upd_length; lia).
      destruct (Nat.eqb_spec j (S i)).
      * rewrite nth_upd by lia. rewrite (proj2 (Nat.eqb_neq (S i) i)) by lia. lia.
      * rewrite nth_upd by lia. destruct (Nat.eqb_spec j i); [lia|].
        pose proof (Hc j ltac:(lia)) as Hj2. rewrite (proj2 (Nat.eqb_neq j i)) in Hj2 by auto. auto.
Qed.

Lemma self_add_strict : forall x z, repr x z -> z <> 0 ->
  int_add_assign_self Strict x = UB OutOfBounds.
Proof.
  intros x z H Hz. unfold int_add_assign_self. rewrite (repr_sign _ _ H).
  destruct (Z.eqb_spec (Z.sgn z) 0); [lia|].
  pose proof (repr_digits _ _ H) as D.
  set (a := resize (chunks x) (length (chunks x) + 1)).
  assert (La: length a = (length (chunks x) + 1)%nat) by (apply resize_length; lia).
  assert (Da: Forall digit a) by (apply resize_digits; auto).
  rewrite add_loop_self_strict; auto; try lia.
  intros j Hj. pose proof (proj1 (Forall_cells a) Da j Hj) as K. cbv beta in K.
  destruct (Nat.eqb j 0); lia.
Qed.
