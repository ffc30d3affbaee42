(** Fraction::gcd, Fraction::lcm, programs. *)
From Coq Require Import ZArith QArith Qreduction Qabs Qcanon List Bool Ascii Lia Field.
From Verif Require Import Outcome IntModel IntProgModel Show FloatModel FloatFacts FracModel FracProgModel FracSpec FracFacts.
Import ListNotations.
Open Scope Z_scope.

Lemma cross_zero : forall f A D, valid f -> 0 < D -> cross f A D -> (num f = 0 <-> A = 0).
Proof. unfold cross. intros f A D (H & _) HD C. split; intros E; rewrite E in C; nia. Qed.

Lemma cross_bound : forall f A D K, valid f -> 0 < D <= K -> 0 <= A <= K -> cross f A D ->
  0 <= num f <= K /\ 0 < den f <= K.
Proof.
  intros f A D K (Hd & Hn & G) HD HA C. unfold cross in C.
  assert (Dv: (den f | D)).
  { apply (Z.gauss (den f) (num f) D); [exists A; lia|rewrite Z.gcd_comm; auto]. }
  destruct Dv as (t & T). assert (0 < t) by nia. assert (num f * t = A) by nia. nia.
Qed.

Lemma loop_cases : forall fuel a b A B D, 0 < D -> valid a -> valid b -> cross a A D -> cross b B D ->
  0 <= A -> 0 <= B ->
  (frac_gcd_loop fuel a b = OutOfFuel /\ Z.of_nat fuel <= B) \/
  (frac_gcd_loop fuel a b = UB SignedOverflow /\ ~ (A <= safe_bound /\ B <= safe_bound /\ D <= safe_bound)) \/
  exists g, frac_gcd_loop fuel a b = Ok g /\ valid g /\ cross g (Z.gcd A B) D.
Proof.
  induction fuel; intros a b A B D HD Va Vb Ca Cb HA HB; [left; simpl; auto|].
  cbn [frac_gcd_loop]. rewrite (proj1 (is0_exact b Vb)).
  pose proof (cross_zero b B D Vb HD Cb) as Z0.
  destruct (Z.eqb_spec (num b) 0) as [E|E].
  - right; right. exists a. split; auto. split; auto. rewrite (proj1 Z0 E), Z.gcd_0_r, Z.abs_eq by auto. auto.
  - assert (B0: B <> 0) by tauto.
    destruct (mod_exact a b Va Vb) as (M & _). specialize (M E). cbv zeta in M.
    set (cond := fits (num a * den b) /\ fits (num b * den a) /\ fits (den a * den b) /\
               ~ (num a * den b = INT_MIN /\ num b * den a = -1)) in *.
    assert (CD: cond \/ ~ cond).
    { unfold cond. destruct (fits_dec (num a * den b)); [|right; tauto].
      destruct (fits_dec (num b * den a)); [|right; tauto].
      destruct (fits_dec (den a * den b)); [|right; tauto].
      destruct (Z.eq_dec (num a * den b) INT_MIN); destruct (Z.eq_dec (num b * den a) (-1)); try (left; tauto); right; tauto. }
    destruct M as (M1 & M2). destruct CD as [CD|CD].
    + destruct (M1 CD) as (r & Er & Vr & _ & Cr). rewrite Er. cbn [bind].
      assert (Cr': cross r (A mod B) D).
      { unfold cross in *. rewrite <- Z.rem_mod_nonneg by lia.
        set (p := num a * den b) in *. set (q := num b * den a) in *. set (K := den a * den b) in *.
        assert (P: p * D = A * K) by (unfold p, K; transitivity (num a * D * den b); [ring|rewrite Ca; ring]).
        assert (Q: q * D = B * K) by (unfold q, K; transitivity (num b * D * den a); [ring|rewrite Cb; ring]).
        assert (K0: 0 < K) by (unfold K; destruct Va as ((? & _) & _), Vb as ((? & _) & _); nia).
        assert (q0: q <> 0) by (intros q0; rewrite q0 in Q; symmetry in Q; apply Z.mul_eq_0 in Q; lia).
        pose proof (Z.mul_rem_distr_r p q D q0 ltac:(lia)) as R1. rewrite P, Q in R1.
        rewrite Z.mul_rem_distr_r in R1 by lia.
        apply (Z.mul_reg_r _ _ K); [lia|].
        transitivity (num r * K * D); [ring|]. rewrite Cr. transitivity (Z.rem p q * D * den r); [ring|].
        rewrite <- R1. ring. }
      pose proof (Z.mod_pos_bound A B ltac:(lia)).
      destruct (IHfuel b r B (A mod B) D HD Vb Vr Cb Cr' HB ltac:(lia)) as [(E1 & E2)|[(E1 & E2)|(g & E1 & V & C)]].
      * left. split; auto. lia.
      * right; left. split; auto. intros K. apply E2. split; [|split]; lia.
      * right; right. exists g. split; auto. split; auto. rewrite Z.gcd_comm, Z.gcd_mod, Z.gcd_comm in C by auto. auto.
    + right; left. rewrite (M2 CD). cbn [bind]. split; auto. intros (K1 & K2 & K3). apply CD. unfold cond.
      destruct (cross_bound a A D safe_bound Va ltac:(lia) ltac:(lia) Ca) as (A1 & A2).
      destruct (cross_bound b B D safe_bound Vb ltac:(lia) ltac:(lia) Cb) as (B1 & B2).
      unfold safe_bound, fits, INT_MIN, INT_MAX in *. nia.
Qed.

Lemma neg_valid : forall x, valid x -> valid (Frac (- num x) (den x)) /\ frac_neg x = Ok (Frac (- num x) (den x)).
Proof.
  intros x (D & N & G). assert (V: valid (Frac (- num x) (den x))).
  { split; [|split]; cbn [num den]; auto; [lia|rewrite Z.gcd_opp_l; auto]. }
  split; auto. unfold frac_neg. rewrite chk_fits by (unfold fits, INT_MIN, INT_MAX in *; lia). cbn [bind].
  apply (make_valid _ V).
Qed.

Lemma abs_valid : forall x, valid x -> valid (Frac (Z.abs (num x)) (den x)) /\ frac_abs x = Ok (Frac (Z.abs (num x)) (den x)).
Proof.
  intros x V. unfold frac_abs. destruct (Z.leb_spec 0 (num x)).
  - rewrite Z.abs_eq by auto. destruct x; auto.
  - rewrite Z.abs_neq by lia. apply neg_valid; auto.
Qed.

Lemma gcd_cases : forall fuel a b, valid a -> valid b ->
  (frac_gcd fuel a b = OutOfFuel /\ Z.of_nat fuel <= Z.abs (num b) * den a) \/
  (frac_gcd fuel a b = UB SignedOverflow /\ ~ scaled_ok a b) \/
  exists g, frac_gcd fuel a b = Ok g /\ valid g /\ cross g (Z.gcd (num a * den b) (num b * den a)) (den a * den b).
Proof.
  intros fuel a b Va Vb. unfold frac_gcd.
  destruct (abs_valid a Va) as (Va' & ->). destruct (abs_valid b Vb) as (Vb' & ->). cbn [bind].
  pose proof Va as ((Da & _) & _). pose proof Vb as ((Db & _) & _).
  destruct (loop_cases fuel _ _ (Z.abs (num a) * den b) (Z.abs (num b) * den a) (den a * den b)
    ltac:(nia) Va' Vb') as [K|[K|(g & E & V & C)]]; try (unfold cross; cbn [num den]; ring); try nia; auto.
  right; right. exists g. split; auto. split; auto.
  rewrite <- Z.gcd_abs_l, <- Z.gcd_abs_r, !Z.abs_mul, (Z.abs_eq (den a)), (Z.abs_eq (den b)) by lia. auto.
Qed.

Lemma scale_div : forall f D t, valid f -> 0 < t -> D = den f * t -> (qval f == inject_Z (num f * t) / inject_Z D)%Q.
Proof.
  intros f D t ((V & _) & _) T ->. rewrite qval_div by auto. rewrite !inject_Z_mult. field.
  split; apply inj_nz; lia.
Qed.

Lemma gcd_q : forall a b g, valid a -> valid b -> valid g ->
  cross g (Z.gcd (num a * den b) (num b * den a)) (den a * den b) -> qgcd (qval a) (qval b) (qval g).
Proof.
  intros a b g Va Vb Vg C. pose proof Va as ((Da & _) & _). pose proof Vb as ((Db & _) & _). pose proof Vg as ((Dg & _) & _).
  set (A := num a * den b) in *. set (B := num b * den a) in *. set (D := den a * den b) in *. set (G := Z.gcd A B) in *.
  assert (D0: D <> 0) by (unfold D; nia).
  assert (QA: (qval a == inject_Z A / inject_Z D)%Q) by (apply scale_div; auto).
  assert (QB: (qval b == inject_Z B / inject_Z D)%Q) by (apply scale_div; auto; unfold D; ring).
  assert (QG: (qval g == inject_Z G / inject_Z D)%Q) by (apply qval_cross; auto).
  assert (N: ~ (inject_Z D == 0)%Q) by (apply inj_nz; auto).
  split; [|split; [|split]].
  - unfold qval, Qle. simpl. rewrite Z.mul_1_r. unfold cross in C. assert (0 <= G) by apply Z.gcd_nonneg.
    unfold D in C. nia.
  - destruct (Z.gcd_divide_l A B) as (i & I). exists i. rewrite QA, QG. fold G in I. rewrite I, inject_Z_mult. field. auto.
  - destruct (Z.gcd_divide_r A B) as (i & I). exists i. rewrite QB, QG. fold G in I. rewrite I, inject_Z_mult. field. auto.
  - destruct (Z.gcd_bezout A B G eq_refl) as (u & v & E). exists u, v. rewrite QA, QB, QG, <- E.
    rewrite inject_Z_plus, !inject_Z_mult. field. auto.
Qed.

Lemma gcd_exact : forall a b, valid a -> valid b ->
  exists o, converges (fun fuel => frac_gcd fuel a b) o /\
    ((o = UB SignedOverflow /\ ~ scaled_ok a b) \/ exists g, o = Ok g /\ valid g /\ qgcd (qval a) (qval b) (qval g)).
Proof.
  intros a b Va Vb. set (n := S (Z.to_nat (Z.abs (num b) * den a))).
  assert (FU: forall fuel, (n <= fuel)%nat -> frac_gcd fuel a b <> OutOfFuel).
  { intros fuel Hf E. destruct (gcd_cases fuel a b Va Vb) as [(_ & K)|[(K & _)|(g & K & _)]]; try congruence.
    unfold n in Hf. lia. }
  assert (ST: forall f1 f2 x y, (f1 <= f2)%nat -> frac_gcd_loop f1 x y <> OutOfFuel -> frac_gcd_loop f2 x y = frac_gcd_loop f1 x y).
  { induction f1; intros f2 x y L E; [exfalso; apply E; auto|]. destruct f2; [lia|]. cbn [frac_gcd_loop] in *.
    destruct (frac_is0 y); auto. destruct (frac_mod x y); cbn [bind] in *; auto. apply IHf1; auto. lia. }
  exists (frac_gcd n a b). split; [split; [apply FU; auto|exists n]|].
  - intros fuel Hf. specialize (FU n (le_n n)). unfold frac_gcd in *. destruct (frac_abs a); auto. cbn [bind] in *.
    destruct (frac_abs b); auto. cbn [bind] in *. apply ST; auto.
  - destruct (gcd_cases n a b Va Vb) as [(K & _)|[(K & N)|(g & K & V & C)]].
    + exfalso. apply (FU n); auto.
    + left. auto.
    + right. exists g. split; auto. split; auto. apply gcd_q; auto.
Qed.

(** ** lcm *)

Lemma lcm_gcd : forall A B, Z.lcm A B * Z.gcd A B = Z.abs (A * B).
Proof.
  intros A B. unfold Z.lcm. destruct (Z.eq_dec (Z.gcd A B) 0) as [E|E].
  - rewrite E, Z.mul_0_r. apply Z.gcd_eq_0_l in E. subst. auto.
  - destruct (Z.gcd_divide_r A B) as (k & K). pose proof (Z.gcd_nonneg A B).
    replace (B / Z.gcd A B) with k by (rewrite K at 1; rewrite Z.div_mul; auto).
    rewrite K at 2. rewrite !Z.abs_mul, (Z.abs_eq (Z.gcd A B)) by auto. ring.
Qed.

Lemma lcm_q : forall a b l A B D, 0 < D -> A <> 0 -> B <> 0 ->
  (a == inject_Z A / inject_Z D)%Q -> (b == inject_Z B / inject_Z D)%Q -> (l == inject_Z (Z.lcm A B) / inject_Z D)%Q ->
  qlcm a b l.
Proof.
  intros a b l A B D HD A0 B0 QA QB QL. assert (N: ~ (inject_Z D == 0)%Q) by (apply inj_nz; lia).
  assert (ND: forall q z, z <> 0 -> (q == inject_Z z / inject_Z D)%Q -> ~ (q == 0)%Q).
  { intros q z Z0 E K. apply (inj_nz z Z0). rewrite E in K.
    setoid_replace (inject_Z z) with (inject_Z z / inject_Z D * inject_Z D)%Q by (field; auto). rewrite K. ring. }
  split; [|split].
  - rewrite QL. apply Qle_shift_div_l; [change 0%Q with (inject_Z 0); apply inj_lt; auto|].
    rewrite Qmult_0_l. change 0%Q with (inject_Z 0). apply inj_le, Z.lcm_nonneg.
  - intros [E|E]; exfalso; [exact (ND a A A0 QA E)|exact (ND b B B0 QB E)].
  - intros _ _. split; [|split].
    + destruct (Z.divide_lcm_l A B) as (k & K). exists k. rewrite QL, QA, K, inject_Z_mult. field; auto.
    + destruct (Z.divide_lcm_r A B) as (k & K). exists k. rewrite QL, QB, K, inject_Z_mult. field; auto.
    + intros m (i & I) (j & J). rewrite QA in I. rewrite QB in J.
      assert (E: i * A = j * B).
      { assert (E: (inject_Z (i * A) == inject_Z (j * B))%Q).
        { rewrite !inject_Z_mult.
          setoid_replace (inject_Z i * inject_Z A)%Q with (inject_Z i * (inject_Z A / inject_Z D) * inject_Z D)%Q by (field; auto).
          rewrite <- I, J. field; auto. }
        unfold Qeq in E. simpl in E. lia. }
      destruct (Z.lcm_least A B (i * A)) as (k & K); [exists i; auto|exists j; auto|].
      exists k. rewrite I, QL. assert (K': (inject_Z i * inject_Z A == inject_Z k * inject_Z (Z.lcm A B))%Q) by (rewrite <- !inject_Z_mult, K; reflexivity).
      setoid_replace (inject_Z i * (inject_Z A / inject_Z D))%Q with (inject_Z i * inject_Z A / inject_Z D)%Q by (field; auto).
      rewrite K'. field; auto.
Qed.

Lemma qlcm_congr : forall a b l a' b' l', (a == a')%Q -> (b == b')%Q -> (l == l')%Q -> qlcm a b l -> qlcm a' b' l'.
Proof.
  intros a b l a' b' l' Ea Eb El (H1 & H2 & H3). split; [rewrite <- El; auto|]. split.
  - intros K. rewrite <- El. apply H2. rewrite Ea, Eb. auto.
  - intros K1 K2. rewrite <- Ea in K1. rewrite <- Eb in K2. destruct (H3 K1 K2) as ((i & I) & (j & J) & L).
    split; [exists i; rewrite <- El, <- Ea; auto|]. split; [exists j; rewrite <- El, <- Eb; auto|].
    intros m (i' & I') (j' & J'). destruct (L m) as (k & K).
    + exists i'. rewrite Ea. auto.
    + exists j'. rewrite Eb. auto.
    + exists k. rewrite <- El. auto.
Qed.

Lemma qgcd_congr : forall a b g a' b' g', (a == a')%Q -> (b == b')%Q -> (g == g')%Q -> qgcd a b g -> qgcd a' b' g'.
Proof.
  intros a b l a' b' l' Ea Eb El (H1 & (i & I) & (j & J) & (u & v & U)). split; [rewrite <- El; auto|].
  split; [exists i; rewrite <- El, <- Ea; auto|]. split; [exists j; rewrite <- El, <- Eb; auto|].
  exists u, v. rewrite <- El, <- Ea, <- Eb. auto.
Qed.

Lemma qrem_congr3 : forall a b r a' b' r', (a == a')%Q -> (b == b')%Q -> (r == r')%Q -> qrem a b r -> qrem a' b' r'.
Proof.
  intros a b r a' b' r' Ea Eb Er (t & A & B & C). exists t. rewrite <- Ea, <- Eb, <- Er. auto.
Qed.

Lemma gcd_pos : forall x y, x <> 0 -> 0 < Z.gcd x y.
Proof. intros x y H. pose proof (Z.gcd_nonneg x y). destruct (Z.eq_dec (Z.gcd x y) 0) as [E|E]; [apply Z.gcd_eq_0_l in E; contradiction|lia]. Qed.

Lemma q_zero : forall f, valid f -> ((qval f == 0)%Q <-> num f = 0).
Proof. intros f V. unfold qval, Qeq. simpl. lia. Qed.

Lemma lcm_cases : forall fuel a b, valid a -> valid b ->
  (frac_lcm fuel a b = OutOfFuel /\ Z.of_nat fuel <= Z.abs (num b) * den a) \/
  (frac_lcm fuel a b = UB SignedOverflow /\ ~ (scaled_ok a b /\ Z.abs (num a * num b) <= safe_bound)) \/
  exists l, frac_lcm fuel a b = Ok l /\ valid l /\ qlcm (qval a) (qval b) (qval l).
Proof.
  intros fuel a b Va Vb. unfold frac_lcm. rewrite (proj1 (is0_exact a Va)), (proj1 (is0_exact b Vb)).
  pose proof Va as ((Da & _) & _). pose proof Vb as ((Db & _) & _).
  destruct (Z.eqb_spec (num a) 0) as [Na|Na]; [|destruct (Z.eqb_spec (num b) 0) as [Nb|Nb]]; cbn [orb].
  1,2: right; right; destruct (of_int_valid 0) as (E & V); [unfold fits1, INT_MAX; lia|];
    exists (Frac 0 1); split; auto; split; auto;
    (split; [unfold qval; simpl; apply Qle_refl|split; [intros; unfold qval; simpl; reflexivity|]]);
    intros K1 K2; exfalso; first [apply K1; apply (q_zero a Va); assumption|apply K2; apply (q_zero b Vb); assumption].
  destruct (mul_exact_if a b Va Vb) as (M1 & M2).
  destruct (fits1_dec (num a * num b)) as [F1|F1]; [destruct (fits_dec (den a * den b)) as [F2|F2]|].
  2,3: rewrite M2 by tauto; cbn [bind]; right; left; split; auto;
    unfold fits, fits1, scaled_ok, safe_bound, INT_MIN, INT_MAX in *; nia.
  destruct (M1 (conj F1 F2)) as (p & -> & Vp & Qp). cbn [bind].
  destruct (abs_valid p Vp) as (Vq & ->). cbn [bind]. set (q := Frac (Z.abs (num p)) (den p)) in *.
  destruct (gcd_cases fuel a b Va Vb) as [(E & K)|[(E & K)|(g & E & Vg & Cg)]]; rewrite E; cbn [bind].
  - left. auto.
  - right; left. split; auto. tauto.
  - set (A := num a * den b) in *. set (B := num b * den a) in *. set (D := den a * den b) in *.
    assert (A0: A <> 0) by (unfold A; nia). assert (B0: B <> 0) by (unfold B; nia). assert (D0: 0 < D) by (unfold D; nia).
    pose proof (gcd_pos A B A0) as G0. pose proof Vg as ((Dg & _) & _). pose proof Vp as ((Dp & _) & _).
    assert (Ng: num g <> 0) by (intros K; unfold cross in Cg; rewrite K in Cg; nia).
    destruct (div_exact_if q g Vq Vg) as (DV & _). destruct (DV Ng) as (D1 & D2).
    assert (QA: (qval a == inject_Z A / inject_Z D)%Q) by (apply scale_div; auto).
    assert (QB: (qval b == inject_Z B / inject_Z D)%Q) by (apply scale_div; auto; unfold D; ring).
    assert (QG: (qval g == inject_Z (Z.gcd A B) / inject_Z D)%Q) by (apply qval_cross; auto; lia).
    assert (QQ: (qval q == inject_Z (Z.abs (A * B)) / inject_Z (D * D))%Q).
    { assert (QP: (qval p == inject_Z (A * B) / inject_Z (D * D))%Q).
      { rewrite Qp, QA, QB, !inject_Z_mult. field. apply inj_nz; lia. }
      assert (CP: num p * (D * D) = (A * B) * den p).
      { rewrite qval_div in QP by auto.
        assert (E2: (inject_Z (num p * (D * D)) == inject_Z (A * B * den p))%Q).
        { rewrite !inject_Z_mult.
          setoid_replace (inject_Z (num p) * (inject_Z D * inject_Z D))%Q
            with (inject_Z (num p) / inject_Z (den p) * inject_Z (den p) * (inject_Z D * inject_Z D))%Q
            by (field; apply inj_nz; lia).
          rewrite QP, !inject_Z_mult. field. apply inj_nz; lia. }
        unfold Qeq in E2. simpl in E2. lia. }
      apply qval_cross; [auto|nia|]. unfold cross, q. cbn [num den].
      replace (D * D) with (Z.abs (D * D)) by (apply Z.abs_eq; nia). rewrite <- Z.abs_mul, CP, Z.abs_mul, (Z.abs_eq (den p)) by lia. auto. }
    assert (QL: (qval q / qval g == inject_Z (Z.lcm A B) / inject_Z D)%Q).
    { rewrite QQ, QG. rewrite <- lcm_gcd, !inject_Z_mult. field. split; apply inj_nz; lia. }
    destruct (fits1_dec (num q * den g)) as [G1|G1]; [destruct (fits1_dec (den q * num g)) as [G2|G2]|].
    + right; right. destruct (D1 (conj G1 G2)) as (l & El & Vl & Ql). exists l. split; auto. split; auto.
      apply (lcm_q _ _ _ A B D); auto. rewrite Ql, QL. reflexivity.
    + right; left. rewrite D2 by tauto. split; auto. intros ((S1 & S2 & S3) & S4). apply G2.
      assert (GB: 0 <= Z.gcd A B <= safe_bound).
      { split; [lia|]. apply Z.le_trans with (Z.abs A); [|unfold A; rewrite Z.abs_mul; lia].
        apply Z.divide_pos_le; [lia|]. apply Z.divide_abs_r, Z.gcd_divide_l. }
      destruct (cross_bound g _ D safe_bound Vg ltac:(unfold D in *; lia) GB Cg) as (U1 & U2).
      assert (PB: 0 <= num q <= safe_bound /\ 0 < den q <= safe_bound).
      { apply (cross_bound q (Z.abs (num a * num b)) D safe_bound Vq ltac:(unfold D in *; lia) ltac:(lia)).
        unfold cross, q. cbn [num den].
        assert (CP: num p * D = num a * num b * den p).
        { assert (E2: (inject_Z (num p * D) == inject_Z (num a * num b * den p))%Q).
          { rewrite !inject_Z_mult. rewrite !qval_div in Qp by auto.
            setoid_replace (inject_Z (num p))%Q with (inject_Z (num p) / inject_Z (den p) * inject_Z (den p))%Q
              by (field; apply inj_nz; lia).
            rewrite Qp. unfold D. rewrite inject_Z_mult. field. repeat split; apply inj_nz; lia. }
          unfold Qeq in E2. simpl in E2. lia. }
        replace D with (Z.abs D) by (apply Z.abs_eq; lia). rewrite <- Z.abs_mul, CP, Z.abs_mul, (Z.abs_eq (den p)) by lia. auto. }
      unfold fits1, safe_bound, INT_MAX in *. nia.
    + right; left. rewrite D2 by tauto. split; auto. intros ((S1 & S2 & S3) & S4). apply G1.
      assert (GB: 0 <= Z.gcd A B <= safe_bound).
      { split; [lia|]. apply Z.le_trans with (Z.abs A); [|unfold A; rewrite Z.abs_mul; lia].
        apply Z.divide_pos_le; [lia|]. apply Z.divide_abs_r, Z.gcd_divide_l. }
      destruct (cross_bound g _ D safe_bound Vg ltac:(unfold D in *; lia) GB Cg) as (U1 & U2).
      assert (PB: 0 <= num q <= safe_bound /\ 0 < den q <= safe_bound).
      { apply (cross_bound q (Z.abs (num a * num b)) D safe_bound Vq ltac:(unfold D in *; lia) ltac:(lia)).
        unfold cross, q. cbn [num den].
        assert (CP: num p * D = num a * num b * den p).
        { assert (E2: (inject_Z (num p * D) == inject_Z (num a * num b * den p))%Q).
          { rewrite !inject_Z_mult. rewrite !qval_div in Qp by auto.
            setoid_replace (inject_Z (num p))%Q with (inject_Z (num p) / inject_Z (den p) * inject_Z (den p))%Q
              by (field; apply inj_nz; lia).
            rewrite Qp. unfold D. rewrite inject_Z_mult. field. repeat split; apply inj_nz; lia. }
          unfold Qeq in E2. simpl in E2. lia. }
        replace D with (Z.abs D) by (apply Z.abs_eq; lia). rewrite <- Z.abs_mul, CP, Z.abs_mul, (Z.abs_eq (den p)) by lia. auto. }
      unfold fits1, safe_bound, INT_MAX in *. nia.
Qed.

Lemma lcm_exact : forall a b, valid a -> valid b ->
  exists o, converges (fun fuel => frac_lcm fuel a b) o /\
    ((o = UB SignedOverflow /\ ~ (scaled_ok a b /\ Z.abs (num a * num b) <= safe_bound)) \/
     exists l, o = Ok l /\ valid l /\ qlcm (qval a) (qval b) (qval l)).
Proof.
  intros a b Va Vb. set (n := S (Z.to_nat (Z.abs (num b) * den a))).
  destruct (gcd_exact a b Va Vb) as (og & (NG & m & CG) & _).
  set (k := Nat.max n m). exists (frac_lcm k a b). split; [split; [|exists k]|].
  - intros E. destruct (lcm_cases k a b Va Vb) as [(_ & K)|[(K & _)|(g & K & _)]]; try congruence. unfold k, n in K. lia.
  - intros fuel Hf. unfold frac_lcm. rewrite (CG fuel), (CG k) by (unfold k in *; lia). auto.
  - destruct (lcm_cases k a b Va Vb) as [(_ & K)|[(K & N)|(g & K & V & Q)]].
    + unfold k, n in K. lia.
    + left; auto.
    + right. exists g. auto.
Qed.

(** ** Printing *)

Lemma qtext_print : forall f, valid f -> qtext (qval f) = frac_print f.
Proof.
  intros f ((D & _) & _ & G). unfold qtext, frac_print.
  assert (E: Qred (qval f) = qval f).
  { apply Qred_identity. unfold qval. simpl. rewrite Z2Pos.id by auto. auto. }
  rewrite E. unfold qval. cbn [Qden Qnum]. destruct (Z.eqb_spec (den f) 1) as [->|N]; [reflexivity|].
  destruct (Z.to_pos (den f)) eqn:P; try (rewrite <- P, Z2Pos.id by auto; reflexivity).
  exfalso. apply N. apply (f_equal Zpos) in P. rewrite Z2Pos.id in P by auto. auto.
Qed.

Lemma qtext_congr : forall a b, (a == b)%Q -> qtext a = qtext b.
Proof. intros a b E. unfold qtext. rewrite (Qred_complete a b E). auto. Qed.

(** ** Programs *)

Lemma fset_rep : forall s e v x q, frepresents s e -> valid x -> (qval x == q)%Q ->
  frepresents (fset s v x) (qset e v q).
Proof. intros s e v x q H V Q w. unfold fset, qset. destruct (Nat.eqb w v); auto. Qed.

Lemma qdec : forall q : Q, {(q == 0)%Q} + {~ (q == 0)%Q}.
Proof. intros. apply Qeq_dec. Qed.

Lemma exact_ok : forall o cond q r, exact_if o cond q -> (cond \/ ~ cond) -> o = Ok r -> valid r /\ (qval r == q)%Q.
Proof.
  intros o cond q r (A & B) [C|C] E.
  - destruct (A C) as (r' & E' & V & Q). rewrite E in E'. inversion E'; subst. auto.
  - rewrite (B C) in E. discriminate.
Qed.

Lemma exact_nothrow : forall o cond q x, exact_if o cond q -> (cond \/ ~ cond) -> o <> Throw x.
Proof.
  intros o cond q r (A & B) [C|C] E.
  - destruct (A C) as (r' & E' & _). congruence.
  - rewrite (B C) in E. discriminate.
Qed.

Lemma dec_and : forall P Q : Prop, P \/ ~ P -> Q \/ ~ Q -> (P /\ Q) \/ ~ (P /\ Q).
Proof. tauto. Qed.
Lemma dec_not : forall P : Prop, P \/ ~ P -> ~ P \/ ~ ~ P.
Proof. tauto. Qed.
Lemma dec_fits : forall z, fits z \/ ~ fits z.
Proof. intros z. destruct (fits_dec z); auto. Qed.
Lemma dec_fits1 : forall z, fits1 z \/ ~ fits1 z.
Proof. intros z. destruct (fits1_dec z); auto. Qed.
Lemma dec_eqz : forall a b : Z, a = b \/ a <> b.
Proof. intros. lia. Qed.
Ltac decide_cond := repeat first [apply dec_fits|apply dec_fits1|apply dec_and|apply dec_eqz|apply dec_not].

Lemma op_refines : forall fuel o x y a b, valid x -> valid y -> (qval x == a)%Q -> (qval y == b)%Q ->
  match frac_fun2 fuel o x y with
  | Ok r => exists q, qop2 o a b (Ok q) /\ valid r /\ (qval r == q)%Q
  | Throw e => qop2 o a b (Throw e)
  | _ => True
  end.
Proof.
  intros fuel o x y a b Vx Vy Qa Qb.
  destruct (frac_fun2 fuel o x y) as [r|e| |] eqn:E; auto; destruct o as [[]| |]; cbn [frac_fun2 frac_op] in E.
  - destruct (exact_ok _ _ _ _ (add_exact_if x y Vx Vy) ltac:(decide_cond) E) as (V & Q).
    exists (a + b)%Q. split; [constructor|]. split; auto. rewrite Q, Qa, Qb. reflexivity.
  - destruct (exact_ok _ _ _ _ (sub_exact_if x y Vx Vy) ltac:(decide_cond) E) as (V & Q).
    exists (a - b)%Q. split; [constructor|]. split; auto. rewrite Q, Qa, Qb. reflexivity.
  - destruct (exact_ok _ _ _ _ (mul_exact_if x y Vx Vy) ltac:(decide_cond) E) as (V & Q).
    exists (a * b)%Q. split; [constructor|]. split; auto. rewrite Q, Qa, Qb. reflexivity.
  - destruct (div_exact_if x y Vx Vy) as (D1 & D2). destruct (Z.eq_dec (num y) 0) as [N|N]; [rewrite D2 in E by auto; discriminate|].
    destruct (exact_ok _ _ _ _ (D1 N) ltac:(decide_cond) E) as (V & Q).
    exists (a / b)%Q. split; [constructor; rewrite <- Qb, q_zero by auto; auto|]. split; auto. rewrite Q, Qa, Qb. reflexivity.
  - destruct (mod_exact x y Vx Vy) as (D1 & D2). destruct (Z.eq_dec (num y) 0) as [N|N]; [rewrite D2 in E by auto; discriminate|].
    specialize (D1 N). cbv zeta in D1. destruct D1 as (D1 & D3).
    assert (CD: (fits (num x * den y) /\ fits (num y * den x) /\ fits (den x * den y) /\ ~ (num x * den y = INT_MIN /\ num y * den x = -1)) \/
      ~ (fits (num x * den y) /\ fits (num y * den x) /\ fits (den x * den y) /\ ~ (num x * den y = INT_MIN /\ num y * den x = -1))).
    { decide_cond. }
    destruct CD as [CD|CD]; [|rewrite D3 in E by auto; discriminate].
    destruct (D1 CD) as (r' & E' & V & Q & _). rewrite E in E'. inversion E'; subst r'.
    exists (qval r). split; [|split; auto; reflexivity]. constructor; [rewrite <- Qb, q_zero by auto; auto|].
    eapply qrem_congr3; [exact Qa|exact Qb|reflexivity|exact Q].
  - destruct (gcd_cases fuel x y Vx Vy) as [(K & _)|[(K & _)|(g & K & V & C)]]; try congruence.
    rewrite E in K. inversion K; subst g. exists (qval r). split; [|split; auto; reflexivity]. constructor.
    eapply qgcd_congr; [exact Qa|exact Qb|reflexivity|apply gcd_q; auto].
  - destruct (lcm_cases fuel x y Vx Vy) as [(K & _)|[(K & _)|(g & K & V & C)]]; try congruence.
    rewrite E in K. inversion K; subst g. exists (qval r). split; [|split; auto; reflexivity]. constructor.
    eapply qlcm_congr; [exact Qa|exact Qb|reflexivity|auto].
  - exfalso. eapply exact_nothrow; [apply (add_exact_if x y Vx Vy)| |exact E]. decide_cond.
  - exfalso. eapply exact_nothrow; [apply (sub_exact_if x y Vx Vy)| |exact E]. decide_cond.
  - exfalso. eapply exact_nothrow; [apply (mul_exact_if x y Vx Vy)| |exact E]. decide_cond.
  - destruct (div_exact_if x y Vx Vy) as (D1 & D2). destruct (Z.eq_dec (num y) 0) as [N|N].
    + rewrite D2 in E by auto. inversion E; subst. constructor. rewrite <- Qb. apply q_zero; auto.
    + exfalso. eapply exact_nothrow; [apply (D1 N)| |exact E]. decide_cond.
  - destruct (mod_exact x y Vx Vy) as (D1 & D2). destruct (Z.eq_dec (num y) 0) as [N|N].
    + rewrite D2 in E by auto. inversion E; subst. constructor. rewrite <- Qb. apply q_zero; auto.
    + specialize (D1 N). cbv zeta in D1. destruct D1 as (D1 & D3). exfalso.
      assert (CD: (fits (num x * den y) /\ fits (num y * den x) /\ fits (den x * den y) /\ ~ (num x * den y = INT_MIN /\ num y * den x = -1)) \/
        ~ (fits (num x * den y) /\ fits (num y * den x) /\ fits (den x * den y) /\ ~ (num x * den y = INT_MIN /\ num y * den x = -1))).
      { decide_cond. }
      destruct CD as [CD|CD]; [destruct (D1 CD) as (r & K & _); congruence|rewrite D3 in E by auto; discriminate].
  - destruct (gcd_cases fuel x y Vx Vy) as [(K & _)|[(K & _)|(g & K & V & C)]]; congruence.
  - destruct (lcm_cases fuel x y Vx Vy) as [(K & _)|[(K & _)|(g & K & V & C)]]; congruence.
Qed.

Lemma frac_one : frac_of_int 1 = Ok (Frac 1 1) /\ valid (Frac 1 1) /\ (qval (Frac 1 1) == 1)%Q.
Proof. destruct (of_int_valid 1) as (A & B); [unfold fits1, INT_MAX; lia|]. split; auto. split; auto. reflexivity. Qed.

Lemma fset_self : forall s v e, frepresents s e -> frepresents (fset s v (s v)) e.
Proof. intros s v e H w. unfold fset. destruct (Nat.eqb_spec w v); subst; auto. Qed.

Lemma cmp_ok : forall o x y b, valid x -> valid y -> frac_ord o x y = Ok b -> qord o (qval x) (qval y) b.
Proof.
  intros o x y b Vx Vy E.
  assert (CD: (fits (num x * den y) /\ fits (den x * num y) /\ fits (num x * den y - den x * num y)) \/
     ~ (fits (num x * den y) /\ fits (den x * num y) /\ fits (num x * den y - den x * num y))) by decide_cond.
  destruct CD as [(A & B & C)|CD].
  - destruct (ord_exact x y Vx Vy A B C) as (l & le & g & ge & E1 & E2 & E3 & E4 & Q1 & Q2 & Q3 & Q4).
    destruct o; cbn [frac_ord qord] in *; congruence.
  - pose proof (proj2 (cmp_exact x y Vx Vy) CD) as U.
    destruct o; cbn [frac_ord] in E; unfold frac_lt, frac_le, frac_gt, frac_ge in E; rewrite U in E; discriminate.
Qed.

Lemma qord_congr : forall o a b a' b' r, (a == a')%Q -> (b == b')%Q -> qord o a b r -> qord o a' b' r.
Proof. intros o a b a' b' r Ea Eb. destruct o; cbn [qord]; rewrite Ea, Eb; auto. Qed.

Lemma fstep_refines : forall fuel c s e s' ev, int_args c -> frepresents s e -> fstep fuel c s = Ok (s', ev) ->
  exists e', qstep c e e' ev /\ frepresents s' e'.
Proof.
  intros fuel c s e s' ev IA R H. destruct c; cbn [fstep] in H.
  - destruct IA as (Fn & Fd). destruct (make_cases n d Fn Fd) as [(D & E)|[(_ & _ & E)|(D & _ & _ & r & E & V & C)]];
      rewrite E in H; cbn [fassign] in H; inversion H; subst.
    + exists e. split; [constructor|auto].
    + eexists. split; [apply qs_make; auto|]. apply fset_rep; auto. apply qval_cross; auto. apply V.
  - inversion H; subst. eexists. split; [constructor|]. apply fset_rep; auto; apply R.
  - cbn [frac_move] in H. inversion H; subst. eexists. split; [constructor|]. apply fset_rep.
    + apply fset_rep; auto; apply R.
    + apply (of_int_valid 0). unfold fits1, INT_MAX; lia.
    + reflexivity.
  - pose proof (op_refines fuel (FOp o) (s v) (s w) (e v) (e w) (proj1 (R v)) (proj1 (R w)) (proj2 (R v)) (proj2 (R w))) as P.
    cbn [frac_fun2] in P. unfold frac_assign in H. destruct (frac_op o (s v) (s w)) as [r|x| |]; cbn [fassign_mut] in H; inversion H; subst.
    + destruct P as (q & P & V & Q). exists (qset e v q). split; [constructor; auto|]. apply fset_rep; auto.
    + exists e. split; [constructor; auto|]. apply fset_self; auto.
  - destruct frac_one as (O1 & O2 & O3). unfold frac_inc, frac_assign in H. rewrite O1 in H. cbn [bind] in H.
    pose proof (op_refines fuel (FOp AAdd) (s v) (Frac 1 1) (e v) 1%Q (proj1 (R v)) O2 (proj2 (R v)) O3) as P.
    cbn [frac_fun2 frac_op] in P. destruct (frac_add (s v) (Frac 1 1)) as [r|x| |]; cbn [fassign_mut] in H; inversion H; subst.
    + destruct P as (q & P & V & Q). inversion P; subst. eexists. split; [constructor|]. apply fset_rep; auto.
    + inversion P.
  - destruct frac_one as (O1 & O2 & O3). unfold frac_dec, frac_assign in H. rewrite O1 in H. cbn [bind] in H.
    pose proof (op_refines fuel (FOp ASub) (s v) (Frac 1 1) (e v) 1%Q (proj1 (R v)) O2 (proj2 (R v)) O3) as P.
    cbn [frac_fun2 frac_op] in P. destruct (frac_sub (s v) (Frac 1 1)) as [r|x| |]; cbn [fassign_mut] in H; inversion H; subst.
    + destruct P as (q & P & V & Q). inversion P; subst. eexists. split; [constructor|]. apply fset_rep; auto.
    + inversion P.
  - destruct (neg_exact (s w) (proj1 (R w))) as ((r1 & E1 & V1 & Q1) & (r2 & E2 & V2 & Q2)).
    exists (qset e v (qfun1 o (e w))). destruct o; cbn [frac_fun1 frac_pos] in H; rewrite ?E1, ?E2 in H; cbn [fassign] in H; inversion H; subst;
      (split; [constructor|]); apply fset_rep; auto; cbn [qfun1]; try apply R.
    + rewrite Q1, (proj2 (R w)). reflexivity.
    + rewrite Q2, (proj2 (R w)). reflexivity.
  - pose proof (op_refines fuel o (s u) (s w) (e u) (e w) (proj1 (R u)) (proj1 (R w)) (proj2 (R u)) (proj2 (R w))) as P.
    destruct (frac_fun2 fuel o (s u) (s w)) as [r|x| |]; cbn [fassign] in H; inversion H; subst.
    + destruct P as (q & P & V & Q). exists (qset e v q). split; [constructor; auto|]. apply fset_rep; auto.
    + exists e. split; [constructor; auto|]. auto.
  - destruct (frac_ord o (s v) (s w)) as [b| | |] eqn:E; cbn [bind] in H; inversion H; subst.
    exists e. split; auto. constructor. eapply qord_congr; [apply R|apply R|]. apply cmp_ok; auto; apply R.
  - inversion H; subst. exists e. split; auto. constructor. rewrite (proj1 (is0_exact _ (proj1 (R v)))), Z.eqb_eq.
    rewrite <- (proj2 (R v)). rewrite q_zero by apply R. tauto.
  - inversion H; subst. exists e. split; auto. rewrite <- qtext_print by apply R.
    rewrite (qtext_congr _ _ (proj2 (R v))). constructor.
Qed.

Lemma frun_refines : forall fuel prog s e s' ev, Forall int_args prog -> frepresents s e -> frun fuel prog s = Ok (s', ev) ->
  exists e', qrun prog e e' ev /\ frepresents s' e'.
Proof.
  intros fuel. induction prog; intros s e s' ev F R H; cbn [frun] in H.
  - inversion H; subst. exists e. split; auto. constructor.
  - inversion F; subst. destruct (fstep fuel a s) as [[s1 ev1]| | |] eqn:E; cbn [bind fst snd] in H; try discriminate.
    destruct (fstep_refines _ _ _ _ _ _ H2 R E) as (e1 & Q1 & R1).
    destruct (frun fuel prog s1) as [[s2 ev2]| | |] eqn:E2; cbn [bind fst snd] in H; try discriminate.
    inversion H; subst. destruct (IHprog _ _ _ _ H3 R1 E2) as (e2 & Q2 & R2).
    exists e2. split; auto. econstructor; eauto.
Qed.
