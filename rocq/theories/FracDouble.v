(** Conversion of fractions to double, and how ==, < and the hash fit together. *)
From Coq Require Import ZArith QArith Qreals Reals List Bool Lia Lra.
From Flocq Require Import Core BinarySingleNaN.
From Verif Require Import Outcome IntModel IntSpec FloatModel FloatFacts FracModel FracSpec FracFacts FracMore.
Open Scope Z_scope.
#[local] Existing Instance dvalid.

Lemma qval_R : forall x, valid x -> Q2R (qval x) = (IZR (num x) / IZR (den x))%R.
Proof. intros x ((D & _) & _). unfold qval, Q2R. cbn [Qnum Qden]. rewrite Z2Pos.id by lia. reflexivity. Qed.

Lemma to_double : forall x, valid x ->
  is_finite (frac_double x) = true /\ B2R (frac_double x) = drnd (Q2R (qval x)).
Proof.
  intros x V. destruct (valid_double x V) as (A & B & C). rewrite qval_R by auto.
  destruct (div_int (num x) (den x) A B C). split; auto.
Qed.

Lemma to_double_nearest : forall x (d : double), valid x -> is_finite d = true ->
  (Rabs (B2R (frac_double x) - Q2R (qval x)) <= Rabs (B2R d - Q2R (qval x)))%R.
Proof.
  intros x d V F. rewrite (proj2 (to_double x V)).
  assert (G := round_N_pt radix2 dfexp (fun z => negb (Z.even z)) (Q2R (qval x))).
  destruct G as (_ & G). apply G. apply generic_format_B2R.
Qed.

Lemma to_double_mono : forall x y, valid x -> valid y -> (qval x <= qval y)%Q ->
  dleb (frac_double x) (frac_double y) = true.
Proof.
  intros x y Vx Vy H. destruct (to_double x Vx) as (Fx & Rx). destruct (to_double y Vy) as (Fy & Ry).
  unfold dleb. rewrite Bleb_correct by auto. apply Rle_bool_true. rewrite Rx, Ry. apply drnd_le. apply Qle_Rle. auto.
Qed.

Lemma to_double_err : forall x, valid x ->
  (Rabs (B2R (frac_double x) - Q2R (qval x)) <= / IZR (2 ^ 53) * Rabs (Q2R (qval x)))%R.
Proof.
  intros x V. destruct (valid_double x V) as (A & B & C). rewrite (proj2 (to_double x V)), qval_R, <- pm53 by auto.
  apply drnd_err; auto.
Qed.

Lemma to_double_dyadic : forall x k, valid x -> 0 <= k -> den x = 2 ^ k -> B2R (frac_double x) = Q2R (qval x).
Proof.
  intros x k V K E. rewrite (proj2 (to_double x V)). apply round_generic; [apply valid_rnd_N|].
  apply (generic_format_FLT radix2 (-1074) 53). exists (Float radix2 (num x) (- k)); simpl.
  - rewrite qval_R, E by auto. unfold F2R. cbn [Fnum Fexp]. rewrite bpow_opp, <- IZR_Zpower by auto. reflexivity.
  - destruct V as (_ & N & _). unfold INT_MAX in N. change (Z.pow_pos 2 53) with (2 ^ 53). lia.
  - destruct V as ((_ & D) & _). rewrite E in D. destruct (Z_lt_le_dec k 32); [lia|].
    assert (2 ^ 32 <= 2 ^ k) by (apply Z.pow_le_mono_r; lia). unfold INT_MAX in D. lia.
Qed.

Lemma to_double_sign : forall x, valid x ->
  (dltb (frac_double x) (double_of_Z 0) = true <-> (qval x < 0)%Q) /\
  (dltb (double_of_Z 0) (frac_double x) = true <-> (0 < qval x)%Q) /\
  (deqb (frac_double x) (double_of_Z 0) = true <-> (qval x == 0)%Q).
Proof.
  intros x V. destruct (valid_double x V) as (A & B & C). destruct (to_double x V) as (F & R).
  destruct (of_int_exact 0) as (R0 & F0); [simpl; lia|].
  assert (E0: deqb (frac_double x) (double_of_Z 0) = (num x =? 0)) by (apply quot_eqb_zero; auto).
  assert (D: 0 < den x) by (destruct V; lia).
  assert (N: (qval x == 0)%Q <-> num x = 0).
  { unfold qval, Qeq. cbn [Qnum Qden]. rewrite !Z.mul_1_r. cbn. lia. }
  assert (P: (qval x < 0)%Q <-> num x < 0).
  { unfold qval, Qlt. cbn [Qnum Qden]. lia. }
  assert (P': (0 < qval x)%Q <-> 0 < num x).
  { unfold qval, Qlt. cbn [Qnum Qden]. lia. }
  unfold dltb. rewrite !Bltb_correct by auto.
  assert (M: forall y, (y < 0)%R -> (drnd y <= 0)%R).
  { intros y Hy. replace 0%R with (drnd 0) by (apply round_0; apply valid_rnd_N). apply drnd_le; lra. }
  assert (M': forall y, (0 < y)%R -> (0 <= drnd y)%R).
  { intros y Hy. replace 0%R with (drnd 0) by (apply round_0; apply valid_rnd_N). apply drnd_le; lra. }
  assert (Z0: B2R (frac_double x) = 0%R <-> num x = 0).
  { unfold deqb in E0. rewrite Beqb_correct in E0 by auto. rewrite R0 in E0.
    destruct (Req_bool_spec (B2R (frac_double x)) (IZR 0)); split; intros; try lia; try (exfalso; auto; fail); auto. }
  assert (S1: num x < 0 -> (B2R (frac_double x) < 0)%R).
  { intros H. assert (L := M (Q2R (qval x))). rewrite <- R in L.
    assert ((Q2R (qval x) < 0)%R) as Q. { replace 0%R with (Q2R 0) by (unfold Q2R; simpl; lra). apply Qlt_Rlt. apply P. auto. }
    specialize (L Q). destruct L as [|L]; auto. apply Z0 in L. lia. }
  assert (S2: 0 < num x -> (0 < B2R (frac_double x))%R).
  { intros H. assert (L := M' (Q2R (qval x))). rewrite <- R in L.
    assert ((0 < Q2R (qval x))%R) as Q. { replace 0%R with (Q2R 0) by (unfold Q2R; simpl; lra). apply Qlt_Rlt. apply P'. auto. }
    specialize (L Q). destruct L as [|L]; auto. symmetry in L. apply Z0 in L. lia. }
  rewrite R0, E0, P, P', N. repeat split; intros H.
  - destruct (Rlt_bool_spec (B2R (frac_double x)) 0); [|discriminate].
    destruct (Z.lt_trichotomy (num x) 0) as [|[K|K]]; auto; exfalso; [apply Z0 in K|apply S2 in K]; lra.
  - apply Rlt_bool_true. auto.
  - destruct (Rlt_bool_spec 0 (B2R (frac_double x))); [|discriminate].
    destruct (Z.lt_trichotomy (num x) 0) as [K|[K|K]]; auto; exfalso; [apply S1 in K|apply Z0 in K]; lra.
  - apply Rlt_bool_true. auto.
  - lia.
  - lia.
Qed.

(** ** == and < *)

Lemma cmp_defined : forall x y c, frac_cmp x y = Ok c -> c = num x * den y - den x * num y /\
  fits (num x * den y) /\ fits (den x * num y) /\ fits c.
Proof.
  intros x y c. unfold frac_cmp, bind, chk32, in_int, fits.
  repeat match goal with |- context [if ?b then _ else _] => destruct b eqn:?; try discriminate end.
  intros [= <-]. lia.
Qed.

Lemma cmp_eqb : forall x y c, valid x -> valid y -> frac_cmp x y = Ok c -> (frac_eqb x y = true <-> c = 0).
Proof.
  intros x y c Vx Vy H. destruct (cmp_defined x y c H) as (E & A & B & C). unfold fits, INT_MIN, INT_MAX in *.
  rewrite eq_moderate by (auto; assert (2 ^ 52 = 4503599627370496) by reflexivity; lia).
  unfold qval, Qeq. cbn [Qnum Qden]. destruct Vx as (Dx & _), Vy as (Dy & _). rewrite !Z2Pos.id by lia. lia.
Qed.

Lemma trichotomy : forall x y, valid x -> valid y ->
  (exists l g, frac_lt x y = Ok l /\ frac_gt x y = Ok g /\
    ((l = true /\ frac_eqb x y = false /\ g = false) \/
     (l = false /\ frac_eqb x y = true /\ g = false) \/
     (l = false /\ frac_eqb x y = false /\ g = true))) \/
  (frac_lt x y = UB SignedOverflow /\ frac_gt x y = UB SignedOverflow).
Proof.
  intros x y Vx Vy. unfold frac_lt, frac_gt. destruct (frac_cmp x y) as [c|e|u|] eqn:E.
  - left. exists (c <? 0), (0 <? c). split; [reflexivity|]. split; [reflexivity|].
    pose proof (cmp_eqb x y c Vx Vy E) as Q. destruct (frac_eqb x y).
    + right. left. assert (c = 0) by (apply Q; auto). subst. auto.
    + assert (c <> 0) by (intros K; apply Q in K; discriminate).
      destruct (Z.ltb_spec c 0); [left|right; right]; repeat split; auto; lia.
  - unfold frac_cmp, bind, chk32 in E. repeat match type of E with context [if ?b then _ else _] => destruct b; try discriminate end.
  - right. unfold frac_cmp, bind, chk32 in E.
    repeat match type of E with context [if ?b then _ else _] => destruct b; try discriminate end; injection E as <-; auto.
  - unfold frac_cmp, bind, chk32 in E. repeat match type of E with context [if ?b then _ else _] => destruct b; try discriminate end.
Qed.

(** ** Hash *)

Lemma hash_moderate : forall hi lx sh x y, valid x -> valid y ->
  Z.abs (num x * den y) < 2 ^ 52 -> Z.abs (num y * den x) < 2 ^ 52 ->
  frac_eqb x y = true -> frac_hash hi lx sh x = frac_hash hi lx sh y.
Proof. intros. apply hash_congr; auto. apply eq_moderate; auto. Qed.

(** libstdc++: the hash of an int is the int as a 64-bit word. *)
Lemma hash_witness : let h := frac_hash (fun z => z mod 2 ^ 64) Z.lxor (fun z => z * 2 mod 2 ^ 64) in
  let x := Frac 2147483647 2147483646 in let y := Frac 2147483646 2147483645 in
  valid x /\ valid y /\ frac_eqb x y = true /\ h x <> h y.
Proof.
  cbv zeta. repeat split; try (vm_compute; congruence).
Qed.
