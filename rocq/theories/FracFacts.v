(** Proofs about Fraction arithmetic. *)
From Coq Require Import ZArith QArith Qreduction Qabs List Bool Ascii Lia Lqa Field.
From Verif Require Import Outcome IntModel FloatModel FloatFacts FracModel FracSpec.
Import ListNotations.
Open Scope Z_scope.

Definition cross (r : Fraction) (n d : Z) : Prop := num r * d = n * den r.

Lemma quot_div_g : forall n g, g <> 0 -> (g | n) -> n = Z.quot n g * g.
Proof. intros n g G (k & ->). rewrite Z.quot_mul by auto. auto. Qed.

Lemma lowest : forall n d, 0 < d <= INT_MAX -> fits1 n ->
  valid (Frac (Z.quot n (Z.gcd n d)) (Z.quot d (Z.gcd n d))) /\
  cross (Frac (Z.quot n (Z.gcd n d)) (Z.quot d (Z.gcd n d))) n d.
Proof.
  intros n d D N. unfold fits1 in N. set (g := Z.gcd n d).
  assert (G0: 0 <= g) by apply Z.gcd_nonneg.
  assert (G: g <> 0). { intros E. apply Z.gcd_eq_0_r in E. lia. }
  pose proof (quot_div_g n g G (Z.gcd_divide_l n d)) as En.
  pose proof (quot_div_g d g G (Z.gcd_divide_r n d)) as Ed.
  set (n' := Z.quot n g) in *. set (d' := Z.quot d g) in *.
  assert (C: Z.gcd n' d' = 1).
  { pose proof (Z.gcd_mul_mono_r n' d' g) as M. rewrite <- En, <- Ed in M. fold g in M.
    rewrite Z.abs_eq in M by auto. nia. }
  clearbody n' d' g. assert (1 <= g) by lia.
  split.
  - split; [|split]; cbn [num den]; auto.
    + assert (0 < d') by (clear - Ed H D; nia). split; auto. apply Z.le_trans with (d' * g); [clear - H0 H; nia|lia].
    + assert (Z.abs n' <= Z.abs n' * g) by (clear - H; nia).
      assert (Z.abs n = Z.abs n' * g) by (rewrite En, Z.abs_mul, (Z.abs_eq g) by auto; auto). lia.
  - unfold cross. cbn [num den]. rewrite En, Ed. ring.
Qed.

Lemma make_cases : forall n d, fits n -> fits d ->
  (d = 0 /\ frac_make n d = Throw DivideByZero) \/
  (d <> 0 /\ ~ (fits1 n /\ fits1 d) /\ frac_make n d = UB SignedOverflow) \/
  (d <> 0 /\ fits1 n /\ fits1 d /\ exists r, frac_make n d = Ok r /\ valid r /\ cross r n d).
Proof.
  intros n d Hn Hd. unfold fits, fits1 in *. unfold frac_make, check_zero.
  destruct (Z.eqb_spec d 0) as [->|D0]; [left; auto|right]. cbn [bind].
  destruct (Z.eq_dec n INT_MIN) as [En|En]; [left|].
  { split; auto. split; [unfold INT_MIN, INT_MAX in *; lia|]. destruct (Z.ltb_spec d 0).
    - rewrite chk32_ub; [reflexivity|]. unfold INT_MIN, INT_MAX in *; lia.
    - cbn [bind fst snd]. unfold std_gcd. rewrite En. reflexivity. }
  destruct (Z.eq_dec d INT_MIN) as [Ed|Ed]; [left|right].
  { split; auto. split; [unfold INT_MIN, INT_MAX in *; lia|].
    destruct (Z.ltb_spec d 0); [|unfold INT_MIN, INT_MAX in *; lia].
    rewrite chk32_ok by (unfold INT_MIN, INT_MAX in *; lia). cbn [bind].
    rewrite chk32_ub by (unfold INT_MIN, INT_MAX in *; lia). reflexivity. }
  split; auto. split; [unfold INT_MIN, INT_MAX in *; lia|]. split; [unfold INT_MIN, INT_MAX in *; lia|].
  destruct (Z.ltb_spec d 0) as [L|L].
  - rewrite !chk32_ok by (unfold INT_MIN, INT_MAX in *; lia). cbn [bind fst snd].
    unfold std_gcd. destruct (Z.eqb_spec (- n) INT_MIN); [unfold INT_MIN, INT_MAX in *; lia|].
    destruct (Z.eqb_spec (- d) INT_MIN); [unfold INT_MIN, INT_MAX in *; lia|]. cbn [orb bind].
    destruct (lowest (- n) (- d)) as (V & C); [unfold INT_MIN, INT_MAX in *; lia|unfold fits1, INT_MIN, INT_MAX in *; lia|].
    eexists. split; [reflexivity|]. split; auto. unfold cross in *. lia.
  - cbn [bind fst snd]. unfold std_gcd. destruct (Z.eqb_spec n INT_MIN); [contradiction|].
    destruct (Z.eqb_spec d INT_MIN); [contradiction|]. cbn [orb bind].
    destruct (lowest n d) as (V & C); [unfold INT_MIN, INT_MAX in *; lia|unfold fits1, INT_MIN, INT_MAX in *; lia|].
    eexists. split; [reflexivity|]. auto.
Qed.

Lemma valid_unique : forall r s, valid r -> valid s -> num r * den s = num s * den r -> r = s.
Proof.
  intros [n d] [n' d'] (D & N & G) (D' & N' & G') C. simpl in *.
  assert (d | d').
  { apply (Z.gauss d n d'); [exists n'; lia|rewrite Z.gcd_comm; auto]. }
  assert (d' | d).
  { apply (Z.gauss d' n' d); [exists n; lia|rewrite Z.gcd_comm; auto]. }
  assert (d = d') by (apply Z.divide_antisym_nonneg; auto; lia). subst d'.
  f_equal. nia.
Qed.

Lemma make_valid : forall f, valid f -> frac_make (num f) (den f) = Ok f.
Proof.
  intros f V. pose proof V as (D & N & G).
  destruct (make_cases (num f) (den f)) as [(E & _)|[(_ & E & _)|(_ & _ & _ & r & R & Vr & C)]];
    try (unfold fits, fits1, INT_MIN, INT_MAX in *; lia).
  rewrite R. f_equal. apply valid_unique; auto. 
Qed.

Lemma of_int_valid : forall n, fits1 n -> frac_of_int n = Ok (Frac n 1) /\ valid (Frac n 1).
Proof.
  intros n H. assert (V: valid (Frac n 1)).
  { unfold fits1 in H. split; [|split]; cbn [num den]; auto; [unfold INT_MAX; lia|apply Z.gcd_1_r]. }
  split; auto. apply (make_valid _ V).
Qed.

(** ** Rationals *)

Lemma inj_nz : forall z, z <> 0 -> ~ (inject_Z z == 0)%Q.
Proof. intros z H E. apply H. unfold Qeq in E. simpl in E. lia. Qed.

Lemma qval_div : forall f, 0 < den f -> (qval f == inject_Z (num f) / inject_Z (den f))%Q.
Proof.
  intros f H. unfold qval. rewrite (Qmake_Qdiv (num f)). rewrite Z2Pos.id by auto. reflexivity.
Qed.

Lemma qval_cross : forall r n d, 0 < den r -> d <> 0 -> cross r n d -> (qval r == inject_Z n / inject_Z d)%Q.
Proof.
  intros r n d R D C. rewrite qval_div by auto. unfold cross in C.
  assert (C': (inject_Z (num r) * inject_Z d == inject_Z n * inject_Z (den r))%Q)
    by (rewrite <- !inject_Z_mult, C; reflexivity).
  apply Qmult_inj_r with (inject_Z (den r)); [apply inj_nz; lia|].
  apply Qmult_inj_r with (inject_Z d); [apply inj_nz; lia|].
  transitivity (inject_Z (num r) * inject_Z d)%Q; [field; apply inj_nz; lia|]. rewrite C'. field.
  apply inj_nz; lia.
Qed.

Lemma make_rat : forall n d q, fits n -> fits d -> d <> 0 ->
  (inject_Z n / inject_Z d == q)%Q ->
  (fits1 n -> fits1 d -> is_rat (frac_make n d) q) /\
  (~ (fits1 n /\ fits1 d) -> frac_make n d = UB SignedOverflow).
Proof.
  intros n d q Hn Hd D Q. destruct (make_cases n d Hn Hd) as [(E & _)|[(_ & E & U)|(_ & E1 & E2 & r & R & V & C)]].
  - contradiction.
  - split; intros; [exfalso; auto|auto].
  - split; intros; [|exfalso; auto]. exists r. split; auto. split; auto.
    rewrite <- Q. apply qval_cross; auto. apply V.
Qed.

Lemma chk_fits : forall z, fits z -> chk32 z = Ok z.
Proof. exact chk32_ok. Qed.
Lemma chk_nofits : forall z, ~ fits z -> chk32 z = UB SignedOverflow.
Proof. intros z H. apply chk32_ub. unfold fits in H. lia. Qed.

Lemma fits_dec : forall z, {fits z} + {~ fits z}.
Proof.
  intros z. unfold fits. destruct (Z_le_dec INT_MIN z); [destruct (Z_le_dec z INT_MAX)|]; auto; right; lia.
Qed.
Lemma fits1_dec : forall z, {fits1 z} + {~ fits1 z}.
Proof.
  intros z. unfold fits1. destruct (Z_le_dec (- INT_MAX) z); [destruct (Z_le_dec z INT_MAX)|]; auto; right; lia.
Qed.
Lemma fits1_fits : forall z, fits1 z -> fits z.
Proof. unfold fits, fits1, INT_MIN, INT_MAX. lia. Qed.

(** Exactness with the exact condition. *)
Definition exact_if (o : outcome Fraction) (cond : Prop) (q : Q) : Prop :=
  (cond -> is_rat o q) /\ (~ cond -> o = UB SignedOverflow).

Ltac chk z :=
  let H := fresh "F" in
  destruct (fits_dec z) as [H|H];
  [rewrite (chk_fits z H); cbn [bind]
  |rewrite (chk_nofits z H); cbn [bind]; split; intros; [exfalso; tauto|reflexivity]].

Lemma add_exact_if : forall x y, valid x -> valid y ->
  exact_if (frac_add x y)
    (fits (num x * den y) /\ fits (den x * num y) /\ fits1 (num x * den y + den x * num y) /\ fits (den x * den y))
    (qval x + qval y).
Proof.
  intros x y (Dx & Nx & Gx) (Dy & Ny & Gy). unfold exact_if, frac_add.
  chk (num x * den y). chk (den x * num y).
  destruct (fits_dec (num x * den y + den x * num y)) as [F1|F1];
    [rewrite (chk_fits _ F1)|rewrite (chk_nofits _ F1); split; intros K; [exfalso; destruct K as (_ & _ & K & _); apply fits1_fits in K; auto|reflexivity]].
  cbn [bind]. chk (den x * den y).
  destruct (make_rat (num x * den y + den x * num y) (den x * den y) (qval x + qval y) F1 F2) as (A & B).
  - nia.
  - rewrite !qval_div by lia. rewrite inject_Z_plus, !inject_Z_mult. field. split; apply inj_nz; lia.
  - assert (fits1 (den x * den y)) by (unfold fits, fits1, INT_MIN, INT_MAX in *; nia).
    split; intros; [apply A; tauto|apply B; tauto].
Qed.

Lemma sub_exact_if : forall x y, valid x -> valid y ->
  exact_if (frac_sub x y)
    (fits (num x * den y) /\ fits (den x * num y) /\ fits1 (num x * den y - den x * num y) /\ fits (den x * den y))
    (qval x - qval y).
Proof.
  intros x y (Dx & Nx & Gx) (Dy & Ny & Gy). unfold exact_if, frac_sub.
  chk (num x * den y). chk (den x * num y).
  destruct (fits_dec (num x * den y - den x * num y)) as [F1|F1];
    [rewrite (chk_fits _ F1)|rewrite (chk_nofits _ F1); split; intros K; [exfalso; destruct K as (_ & _ & K & _); apply fits1_fits in K; auto|reflexivity]].
  cbn [bind]. chk (den x * den y).
  destruct (make_rat (num x * den y - den x * num y) (den x * den y) (qval x - qval y) F1 F2) as (A & B).
  - nia.
  - rewrite !qval_div by lia. unfold Z.sub. rewrite inject_Z_plus, inject_Z_opp, !inject_Z_mult. field. split; apply inj_nz; lia.
  - assert (fits1 (den x * den y)) by (unfold fits, fits1, INT_MIN, INT_MAX in *; nia).
    split; intros; [apply A; tauto|apply B; tauto].
Qed.

Lemma mul_exact_if : forall x y, valid x -> valid y ->
  exact_if (frac_mul x y) (fits1 (num x * num y) /\ fits (den x * den y)) (qval x * qval y).
Proof.
  intros x y (Dx & Nx & Gx) (Dy & Ny & Gy). unfold exact_if, frac_mul.
  destruct (fits_dec (num x * num y)) as [F1|F1];
    [rewrite (chk_fits _ F1)|rewrite (chk_nofits _ F1); split; intros K; [exfalso; destruct K as (K & _); apply fits1_fits in K; auto|reflexivity]].
  cbn [bind]. chk (den x * den y).
  destruct (make_rat (num x * num y) (den x * den y) (qval x * qval y) F1 F) as (A & B).
  - nia.
  - rewrite !qval_div by lia. rewrite !inject_Z_mult. field. split; apply inj_nz; lia.
  - assert (fits1 (den x * den y)) by (unfold fits, fits1, INT_MIN, INT_MAX in *; nia).
    split; intros; [apply A; tauto|apply B; tauto].
Qed.

Lemma div_exact_if : forall x y, valid x -> valid y ->
  (num y <> 0 -> exact_if (frac_div x y) (fits1 (num x * den y) /\ fits1 (den x * num y)) (qval x / qval y)) /\
  (num y = 0 -> frac_div x y = Throw DivideByZero).
Proof.
  intros x y (Dx & Nx & Gx) (Dy & Ny & Gy). split.
  - intros N0. unfold exact_if, frac_div.
    destruct (fits_dec (num x * den y)) as [F1|F1];
      [rewrite (chk_fits _ F1)|rewrite (chk_nofits _ F1); split; intros K; [exfalso; destruct K as (K & _); apply fits1_fits in K; auto|reflexivity]].
    cbn [bind]. destruct (fits_dec (den x * num y)) as [F2|F2];
      [rewrite (chk_fits _ F2)|rewrite (chk_nofits _ F2); split; intros K; [exfalso; destruct K as (_ & K); apply fits1_fits in K; auto|reflexivity]].
    cbn [bind].
    destruct (make_rat (num x * den y) (den x * num y) (qval x / qval y) F1 F2) as (A & B).
    + nia.
    + rewrite !qval_div by lia. rewrite !inject_Z_mult. field. repeat split; apply inj_nz; lia.
    + split; intros; [apply A; tauto|apply B; tauto].
  - intros E. rewrite E in Gy. rewrite Z.gcd_0_l in Gy. assert (D1: den y = 1) by lia.
    unfold frac_div. rewrite E, D1. rewrite Z.mul_1_r, Z.mul_0_r.
    rewrite chk_fits by (unfold fits, INT_MIN, INT_MAX in *; lia). reflexivity.
Qed.

Lemma neg_exact : forall x, valid x -> is_rat (frac_neg x) (- qval x) /\ is_rat (frac_abs x) (Qabs (qval x)).
Proof.
  intros x (Dx & Nx & Gx).
  assert (NE: is_rat (frac_neg x) (- qval x)).
  { unfold frac_neg. rewrite chk_fits by (unfold fits, INT_MIN, INT_MAX in *; lia). cbn [bind].
    apply make_rat; try (unfold fits, fits1, INT_MIN, INT_MAX in *; lia).
    rewrite qval_div by lia. rewrite inject_Z_opp. field. apply inj_nz; lia. }
  split; auto. unfold frac_abs. destruct (Z.leb_spec 0 (num x)).
  - exists x. split; auto. split; [split; auto|]. unfold qval, Qabs. rewrite Z.abs_eq by auto. reflexivity.
  - destruct NE as (r & E & V & Q). exists r. split; auto. split; auto. rewrite Q.
    unfold qval, Qabs, Qopp. simpl. rewrite Z.abs_neq by lia. reflexivity.
Qed.

(** ** Comparison *)

Lemma qlt_cross : forall x y, 0 < den x -> 0 < den y ->
  ((qval x < qval y)%Q <-> num x * den y < num y * den x) /\
  ((qval x <= qval y)%Q <-> num x * den y <= num y * den x) /\
  ((qval x == qval y)%Q <-> num x * den y = num y * den x).
Proof.
  intros x y Dx Dy. unfold qval, Qlt, Qle, Qeq. simpl. rewrite !Z2Pos.id by auto. tauto.
Qed.

Lemma cmp_exact : forall x y, valid x -> valid y ->
  (fits (num x * den y) /\ fits (den x * num y) /\ fits (num x * den y - den x * num y) ->
    frac_cmp x y = Ok (num x * den y - den x * num y)) /\
  (~ (fits (num x * den y) /\ fits (den x * num y) /\ fits (num x * den y - den x * num y)) ->
    frac_cmp x y = UB SignedOverflow).
Proof.
  intros x y Vx Vy. unfold frac_cmp. chk (num x * den y). chk (den x * num y).
  destruct (fits_dec (num x * den y - den x * num y)) as [K|K]; split; intros; try tauto;
  [apply chk_fits|apply chk_nofits]; auto.
Qed.

Lemma ord_exact : forall x y, valid x -> valid y ->
  fits (num x * den y) -> fits (den x * num y) -> fits (num x * den y - den x * num y) ->
  exists l le g ge, frac_lt x y = Ok l /\ frac_le x y = Ok le /\ frac_gt x y = Ok g /\ frac_ge x y = Ok ge /\
    (l = true <-> qval x < qval y)%Q /\ (le = true <-> qval x <= qval y)%Q /\
    (g = true <-> qval y < qval x)%Q /\ (ge = true <-> qval y <= qval x)%Q.
Proof.
  intros x y Vx Vy A B C. destruct (cmp_exact x y Vx Vy) as (E & _). specialize (E (conj A (conj B C))).
  destruct (qlt_cross x y) as (L1 & L2 & _); [apply Vx|apply Vy|].
  destruct (qlt_cross y x) as (M1 & M2 & _); [apply Vy|apply Vx|].
  unfold frac_lt, frac_le, frac_gt, frac_ge. rewrite E. cbn [bind].
  do 4 eexists. split; [reflexivity|]. split; [reflexivity|]. split; [reflexivity|]. split; [reflexivity|].
  rewrite L1, L2, M1, M2, !Z.ltb_lt, !Z.leb_le. lia.
Qed.

Lemma valid_double : forall x, valid x -> Z.abs (num x) <= 2 ^ 53 /\ Z.abs (den x) <= 2 ^ 53 /\ den x <> 0.
Proof. intros x (D & N & _). change (2 ^ 53) with 9007199254740992. unfold INT_MAX in *. lia. Qed.

Lemma is0_exact : forall x, valid x -> frac_is0 x = (num x =? 0) /\ frac_eqb x (Frac 0 1) = (num x =? 0).
Proof.
  intros x V. destruct (valid_double x V) as (A & B & C). split.
  - apply quot_eqb_zero; auto.
  - unfold frac_eqb, frac_double. cbn [num den].
    destruct V as (D & N & _). unfold INT_MAX in *.
    rewrite quot_eqb_moderate; auto; try (change (2 ^ 53) with 9007199254740992 in *; lia).
Qed.

Lemma eq_moderate : forall x y, valid x -> valid y ->
  Z.abs (num x * den y) < 2 ^ 52 -> Z.abs (num y * den x) < 2 ^ 52 ->
  (frac_eqb x y = true <-> (qval x == qval y)%Q).
Proof.
  intros x y Vx Vy A B. destruct (valid_double x Vx) as (X1 & X2 & X3). destruct (valid_double y Vy) as (Y1 & Y2 & Y3).
  unfold frac_eqb, frac_double. rewrite quot_eqb_moderate; auto.
  - rewrite Z.eqb_eq. destruct (qlt_cross x y) as (_ & _ & E); [apply Vx|apply Vy|]. tauto.
  - change (2 ^ 52) with 4503599627370496 in *. change (2 ^ 53) with 9007199254740992. lia.
Qed.

(** ** Remainder *)

Lemma inj_le : forall a b, (inject_Z a <= inject_Z b)%Q <-> a <= b.
Proof. intros. rewrite Zle_Qle. tauto. Qed.
Lemma inj_lt : forall a b, (inject_Z a < inject_Z b)%Q <-> a < b.
Proof. intros. rewrite Zlt_Qlt. tauto. Qed.

Lemma qabs_scaled : forall a b d, 0 < d -> ((Qabs (inject_Z a / inject_Z d) < Qabs (inject_Z b / inject_Z d))%Q <-> Z.abs a < Z.abs b).
Proof.
  intros a b d D. unfold Qdiv, Qinv, inject_Z. destruct d; try lia. unfold Qabs, Qlt, Qmult. simpl.
  rewrite !Z.mul_1_r. nia.
Qed.

Lemma rem_spec : forall x y p q D, 0 < D -> q <> 0 -> (x == inject_Z p / inject_Z D)%Q -> (y == inject_Z q / inject_Z D)%Q ->
  qrem x y (inject_Z (Z.rem p q) / inject_Z D).
Proof.
  intros x y p q D HD Q X Y. exists (Z.quot p q). split; [|split].
  - rewrite X, Y. rewrite (Z.quot_rem' p q) at 1. rewrite inject_Z_plus, inject_Z_mult. field. apply inj_nz; lia.
  - rewrite Y. apply qabs_scaled; auto. pose proof (Z.rem_bound_abs p q Q). lia.
  - rewrite X. assert (S: 0 <= p * Z.rem p q).
    { pose proof (Z.rem_sign_mul p q Q). lia. }
    setoid_replace (inject_Z p / inject_Z D * (inject_Z (Z.rem p q) / inject_Z D))%Q
      with (inject_Z (p * Z.rem p q) / inject_Z (D * D))%Q.
    + apply Qle_shift_div_l; [change 0%Q with (inject_Z 0); apply inj_lt; nia|].
      rewrite Qmult_0_l. change 0%Q with (inject_Z 0). apply inj_le; auto.
    + rewrite !inject_Z_mult. field. apply inj_nz; lia.
Qed.

Lemma qabs_congr : forall a b, (a == b)%Q -> (Qabs a == Qabs b)%Q.
Proof. intros a b E. rewrite E. reflexivity. Qed.

Lemma qrem_congr : forall a b r r', (r == r')%Q -> qrem a b r -> qrem a b r'.
Proof.
  intros a b r r' E (t & A & B & C). exists t. rewrite <- E. split; auto. 
Qed.

Lemma mod_exact : forall x y, valid x -> valid y ->
  (num y <> 0 ->
   let cond := fits (num x * den y) /\ fits (num y * den x) /\ fits (den x * den y) /\
               ~ (num x * den y = INT_MIN /\ num y * den x = -1) in
   (cond -> exists r, frac_mod x y = Ok r /\ valid r /\ qrem (qval x) (qval y) (qval r) /\
       cross r (Z.rem (num x * den y) (num y * den x)) (den x * den y)) /\
   (~ cond -> frac_mod x y = UB SignedOverflow)) /\
  (num y = 0 -> frac_mod x y = Throw DivideByZero).
Proof.
  intros x y Vx Vy. pose proof Vx as (Dx & Nx & Gx). pose proof Vy as (Dy & Ny & Gy). split.
  - intros N0. intros cond. unfold cond. clear cond. unfold frac_mod, frac_check_zero.
    destruct (is0_exact y Vy) as (_ & E). rewrite E. destruct (Z.eqb_spec (num y) 0); [contradiction|]. cbn [bind].
    chk (num x * den y). chk (num y * den x). unfold int_rem.
    destruct (Z.eqb_spec (num y * den x) 0); [nia|].
    destruct (Z.eqb_spec (num x * den y) INT_MIN) as [M|M]; cbn [andb].
    1: destruct (Z.eqb_spec (num y * den x) (-1)) as [M1|M1]; cbn [bind]; [split; intros; [exfalso; tauto|reflexivity]|].
    all: cbn [bind]; chk (den x * den y).
    all: assert (R: fits1 (Z.rem (num x * den y) (num y * den x)))
      by (pose proof (Z.rem_bound_abs (num x * den y) (num y * den x) ltac:(auto)); unfold fits, fits1, INT_MIN, INT_MAX in *; lia).
    all: destruct (make_cases (Z.rem (num x * den y) (num y * den x)) (den x * den y) (fits1_fits _ R) F1)
      as [(K & _)|[(_ & K & _)|(_ & _ & _ & r & Er & V & C)]];
      [nia|exfalso; apply K; split; auto; unfold fits, fits1, INT_MIN, INT_MAX in *; nia|].
    all: split; [|tauto]; intros _; exists r; split; auto; split; auto; split; auto.
    all: apply qrem_congr with (inject_Z (Z.rem (num x * den y) (num y * den x)) / inject_Z (den x * den y))%Q;
      [symmetry; apply qval_cross; auto; [apply V|nia]|].
    all: apply rem_spec; auto; try nia; rewrite qval_div by lia; rewrite !inject_Z_mult; field; split; apply inj_nz; lia.
  - intros E. unfold frac_mod, frac_check_zero. destruct (is0_exact y Vy) as (_ & E'). rewrite E', E. reflexivity.
Qed.
