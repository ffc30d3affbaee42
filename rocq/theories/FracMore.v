(** Corollaries for Fraction, and counterexamples. *)
From Coq Require Import ZArith Reals QArith Qabs List Bool Ascii String Lia.
From Coq Require Import List.
From Flocq Require Import Core BinarySingleNaN.
From Verif Require Import Outcome IntModel IntSpec IntProgModel StreamModel Show ShowFacts FloatModel FloatFacts
  FracModel FracProgModel FracSpec FracFacts FracGcd FracIO ExTools.
Import ListNotations.
Open Scope Z_scope.

Definition validb (f : Fraction) : bool :=
  (0 <? den f) && (den f <=? INT_MAX) && (- INT_MAX <=? num f) && (num f <=? INT_MAX) && (Z.gcd (num f) (den f) =? 1).
Lemma valid_check : forall f, validb f = true -> valid f.
Proof.
  intros f H. unfold validb in H. repeat (apply andb_true_iff in H as (H & ?)). unfold valid. lia.
Qed.

Lemma small_exact : forall x y, valid x -> valid y -> small x -> small y ->
  is_rat (frac_add x y) (qval x + qval y) /\ is_rat (frac_sub x y) (qval x - qval y) /\
  is_rat (frac_mul x y) (qval x * qval y) /\
  (num y <> 0 -> is_rat (frac_div x y) (qval x / qval y) /\
     exists r, frac_mod x y = Ok r /\ valid r /\ qrem (qval x) (qval y) (qval r)) /\
  (exists l le g ge, frac_lt x y = Ok l /\ frac_le x y = Ok le /\ frac_gt x y = Ok g /\ frac_ge x y = Ok ge /\
    (l = true <-> qval x < qval y)%Q /\ (le = true <-> qval x <= qval y)%Q /\
    (g = true <-> qval y < qval x)%Q /\ (ge = true <-> qval y <= qval x)%Q) /\
  (frac_eqb x y = true <-> (qval x == qval y)%Q).
Proof.
  intros x y Vx Vy (Sx & Tx) (Sy & Ty). pose proof Vx as (Dx & _). pose proof Vy as (Dy & _).
  assert (B1: Z.abs (num x * den y) <= 1073676289) by (rewrite Z.abs_mul, (Z.abs_eq (den y)) by lia; nia).
  assert (B2: Z.abs (den x * num y) <= 1073676289) by (rewrite Z.abs_mul, (Z.abs_eq (den x)) by lia; nia).
  assert (B3: 0 <= den x * den y <= 1073676289) by nia.
  assert (B4: Z.abs (num x * num y) <= 1073676289) by (rewrite Z.abs_mul; nia).
  assert (B5: Z.abs (num y * den x) <= 1073676289) by (rewrite Z.mul_comm; auto).
  assert (F: forall z, Z.abs z <= 2147352578 -> fits z /\ fits1 z)
    by (intros; unfold fits, fits1, INT_MIN, INT_MAX; lia).
  assert (F': forall z, Z.abs z <= 1073676289 -> fits z /\ fits1 z) by (intros; apply F; lia).
  split; [|split; [|split; [|split; [|split]]]].
  - apply (add_exact_if x y Vx Vy). split; [|split; [|split]]; apply F; lia.
  - apply (sub_exact_if x y Vx Vy). split; [|split; [|split]]; apply F; lia.
  - apply (mul_exact_if x y Vx Vy). split; apply F; lia.
  - intros N. split.
    + apply (proj1 (div_exact_if x y Vx Vy) N). split; apply F; lia.
    + pose proof (proj1 (mod_exact x y Vx Vy) N) as M. cbv zeta in M. destruct M as (M & _).
      destruct M as (r & E & V & Q & _); [|exists r; auto].
      split; [apply F; lia|split; [apply F; lia|split; [apply F; lia|]]]. unfold INT_MIN. lia.
  - apply ord_exact; auto; apply F; lia.
  - apply eq_moderate; auto; change (2 ^ 52) with 4503599627370496; lia.
Qed.

Lemma add_exact : forall x y, valid x -> valid y ->
  let safe := fits (num x * den y) /\ fits (den x * num y) /\ fits1 (num x * den y + den x * num y) /\ fits (den x * den y) in
  (safe -> is_rat (frac_add x y) (qval x + qval y)) /\ (~ safe -> frac_add x y = UB SignedOverflow).
Proof. intros. apply add_exact_if; auto. Qed.
Lemma sub_exact : forall x y, valid x -> valid y ->
  let safe := fits (num x * den y) /\ fits (den x * num y) /\ fits1 (num x * den y - den x * num y) /\ fits (den x * den y) in
  (safe -> is_rat (frac_sub x y) (qval x - qval y)) /\ (~ safe -> frac_sub x y = UB SignedOverflow).
Proof. intros. apply sub_exact_if; auto. Qed.
Lemma mul_exact : forall x y, valid x -> valid y ->
  let safe := fits1 (num x * num y) /\ fits (den x * den y) in
  (safe -> is_rat (frac_mul x y) (qval x * qval y)) /\ (~ safe -> frac_mul x y = UB SignedOverflow).
Proof. intros. apply mul_exact_if; auto. Qed.
Lemma div_exact : forall x y, valid x -> valid y ->
  let safe := fits1 (num x * den y) /\ fits1 (den x * num y) in
  ((qval y == 0)%Q -> frac_div x y = Throw DivideByZero) /\
  (~ (qval y == 0)%Q -> safe -> is_rat (frac_div x y) (qval x / qval y)) /\
  (~ (qval y == 0)%Q -> ~ safe -> frac_div x y = UB SignedOverflow).
Proof.
  intros x y Vx Vy safe. destruct (div_exact_if x y Vx Vy) as (A & B). rewrite !q_zero by auto.
  split; auto. split; intros N; apply (A N).
Qed.

(** Compound assignment: the result of the operator, or the old value when it throws. *)
Lemma assign_spec : forall o x y,
  match frac_op o x y with
  | Ok r => frac_assign (frac_op o) x y = (Ok tt, r)
  | Throw e => frac_assign (frac_op o) x y = (Throw e, x)
  | UB u => frac_assign (frac_op o) x y = (UB u, x)
  | OutOfFuel => frac_assign (frac_op o) x y = (OutOfFuel, x)
  end.
Proof. intros o x y. unfold frac_assign. destruct (frac_op o x y); auto. Qed.

Lemma remainder : forall x y, valid x -> valid y ->
  let p := num x * den y in let q := num y * den x in
  let safe := fits p /\ fits q /\ fits (den x * den y) /\ ~ (p = INT_MIN /\ q = -1) in
  ((qval y == 0)%Q -> frac_mod x y = Throw DivideByZero) /\
  (~ (qval y == 0)%Q -> safe -> exists r, frac_mod x y = Ok r /\ valid r /\ qrem (qval x) (qval y) (qval r)) /\
  (~ (qval y == 0)%Q -> ~ safe -> frac_mod x y = UB SignedOverflow).
Proof.
  intros x y Vx Vy p q safe. destruct (mod_exact x y Vx Vy) as (A & B). rewrite !q_zero by auto.
  split; auto. split; intros N; destruct (A N) as (M1 & M2); auto. intros S. destruct (M1 S) as (r & E & V & Q & _). eauto.
Qed.

(** The truncated remainder is unique. *)
Lemma qrem_unique : forall a b r r', qrem a b r -> qrem a b r' -> (r == r')%Q.
Proof.
  intros a b r r' (t & A & B & C) (t' & A' & B' & C').
  assert (E: (inject_Z (t - t') * b == r' - r)%Q).
  { unfold Z.sub. rewrite inject_Z_plus, inject_Z_opp.
    setoid_replace r with (a - inject_Z t * b)%Q by (rewrite A; ring).
    setoid_replace r' with (a - inject_Z t' * b)%Q by (rewrite A'; ring). ring. }
  destruct (Z.eq_dec (t - t') 0) as [Z|N].
  - rewrite Z in E. setoid_replace (inject_Z 0 * b)%Q with 0%Q in E by ring.
    setoid_replace r' with (r' - r + r)%Q by ring. rewrite <- E. ring.
  - exfalso.
    assert (L: (Qabs b <= Qabs (r' - r))%Q).
    { rewrite <- E, Qabs_Qmult. setoid_replace (Qabs b) with (1 * Qabs b)%Q at 1 by ring.
      apply Qmult_le_compat_r; [|apply Qabs_nonneg]. change (Qabs (inject_Z (t - t'))) with (inject_Z (Z.abs (t - t'))).
      change 1%Q with (inject_Z 1). rewrite <- Zle_Qle. lia. }
    assert (P: forall s, (0 <= a * s)%Q -> ((0 < a)%Q -> (0 <= s)%Q) /\ ((a < 0)%Q -> (s <= 0)%Q)).
    { intros s Hs. split; intros K.
      - apply (Qmult_le_l 0 s a K). rewrite Qmult_0_r. auto.
      - apply (Qmult_le_l s 0 (- a)); [Psatz.lra|]. rewrite Qmult_0_r. Psatz.nra. }
    destruct (P r C) as (P1 & P2). destruct (P r' C') as (P3 & P4).
    assert (L2: (Qabs (r' - r) < Qabs b)%Q).
    { destruct (Q_dec a 0) as [[K|K]|K].
      - specialize (P2 K). specialize (P4 K). rewrite Qabs_neg in B, B' by auto.
        apply Qabs_case; intros; Psatz.lra.
      - specialize (P1 K). specialize (P3 K). rewrite Qabs_pos in B, B' by auto.
        apply Qabs_case; intros; Psatz.lra.
      - assert (Z0: forall t0 r0, (a == inject_Z t0 * b + r0)%Q -> (Qabs r0 < Qabs b)%Q -> (r0 == 0)%Q).
        { intros t0 r0 A0 B0. destruct (Z.eq_dec t0 0) as [->|T].
          - setoid_replace r0 with (inject_Z 0 * b + r0)%Q by ring. rewrite <- A0. auto.
          - exfalso. apply (Qlt_not_le _ _ B0). setoid_replace r0 with (- (inject_Z t0 * b))%Q.
            + rewrite Qabs_opp, Qabs_Qmult. setoid_replace (Qabs b) with (1 * Qabs b)%Q at 1 by ring.
              apply Qmult_le_compat_r; [|apply Qabs_nonneg]. change (Qabs (inject_Z t0)) with (inject_Z (Z.abs t0)).
              change 1%Q with (inject_Z 1). rewrite <- Zle_Qle. lia.
            + setoid_replace r0 with (a - inject_Z t0 * b)%Q by (rewrite A0; ring). rewrite K. ring. }
        rewrite (Z0 t r A B), (Z0 t' r' A' B'). setoid_replace (0 - 0)%Q with 0%Q by ring.
        eapply Qle_lt_trans; [|exact B]. apply Qabs_nonneg. }
    apply (Qlt_irrefl (Qabs b)). eapply Qle_lt_trans; eauto.
Qed.

(** Likewise the greatest common divisor and the least common multiple. *)
Lemma qgcd_unique : forall a b g g', qgcd a b g -> qgcd a b g' -> (g == g')%Q.
Proof.
  assert (D: forall a b g g', qgcd a b g -> qgcd a b g' -> exists k, (g == inject_Z k * g')%Q).
  { intros a b g g' (_ & _ & _ & u & v & E) (_ & (i & I) & (j & J) & _). exists (u * i + v * j).
    rewrite E, I, J, inject_Z_plus, !inject_Z_mult. ring. }
  intros a b g g' H H'. destruct (D _ _ _ _ H H') as (k & K). destruct (D _ _ _ _ H' H) as (l & L).
  destruct H as (P & _). destruct H' as (P' & _).
  destruct (Qeq_dec g' 0) as [Z|Z]; [rewrite K, Z; ring|].
  assert (E: l * k = 1).
  { assert (E: (inject_Z (l * k) * g' == 1 * g')%Q) by (rewrite inject_Z_mult, <- Qmult_assoc, <- K, <- L; ring).
    apply Qmult_inj_r in E; auto. unfold Qeq in E. simpl in E. lia. }
  assert (k = 1 \/ k = -1) as [->| ->] by (destruct (Z.eq_mul_1 k l ltac:(lia)); auto).
  - rewrite K. ring.
  - exfalso. apply Z. setoid_replace (inject_Z (-1) * g')%Q with (- g')%Q in K by ring. apply Qle_antisym; auto.
    rewrite K in P. Psatz.lra.
Qed.

Lemma qlcm_unique : forall a b l l', qlcm a b l -> qlcm a b l' -> (l == l')%Q.
Proof.
  intros a b g g' (P & H0 & H) (P' & H0' & H').
  destruct (Qeq_dec a 0) as [A|A]; [rewrite H0, H0' by auto; reflexivity|].
  destruct (Qeq_dec b 0) as [B|B]; [rewrite H0, H0' by auto; reflexivity|].
  destruct (H A B) as (I & J & L). destruct (H' A B) as (I' & J' & L').
  destruct (L' _ I J) as (k & K). destruct (L _ I' J') as (l & M).
  destruct (Qeq_dec g' 0) as [Z|Z]; [rewrite K, Z; ring|].
  assert (E: l * k = 1).
  { assert (E: (inject_Z (l * k) * g' == 1 * g')%Q) by (rewrite inject_Z_mult, <- Qmult_assoc, <- K, <- M; ring).
    apply Qmult_inj_r in E; auto. unfold Qeq in E. simpl in E. lia. }
  assert (k = 1 \/ k = -1) as [->| ->] by (destruct (Z.eq_mul_1 k l ltac:(lia)); auto).
  - rewrite K. ring.
  - exfalso. apply Z. setoid_replace (inject_Z (-1) * g')%Q with (- g')%Q in K by ring. apply Qle_antisym; auto.
    rewrite K in P. Psatz.lra.
Qed.

(** Equal rationals always compare equal. *)
Lemma eq_reflects : forall x y, valid x -> valid y -> (qval x == qval y)%Q -> frac_eqb x y = true.
Proof.
  intros x y Vx Vy E. assert (x = y).
  { apply valid_unique; auto. destruct (qlt_cross x y) as (_ & _ & K); [apply Vx|apply Vy|]. apply K; auto. }
  subst y. unfold frac_eqb, frac_double, deqb. destruct (valid_double x Vx) as (A & B & C).
  destruct (div_int (num x) (den x) A B C) as (_ & F). rewrite Beqb_refl. destruct (ddiv _ _); auto; discriminate.
Qed.

Lemma hash_congr : forall hi lx sh x y, valid x -> valid y -> (qval x == qval y)%Q -> frac_hash hi lx sh x = frac_hash hi lx sh y.
Proof.
  intros hi lx sh x y Vx Vy E. assert (x = y).
  { apply valid_unique; auto. destruct (qlt_cross x y) as (_ & _ & K); [apply Vx|apply Vy|]. apply K; auto. }
  subst; auto.
Qed.

(** ** Counterexamples *)

Definition F1 := Frac 1 65536.
Definition F2 := Frac (-1) 65536.
Definition F3 := Frac 65537 65536.
Definition F4 := Frac 65536 65537.
Lemma not_total :
  (valid F1 /\ valid F2 /\ (qval F1 + qval F2 == 0)%Q /\ frac_add F1 F2 = UB SignedOverflow) /\
  (valid F1 /\ (qval F1 - qval F1 == 0)%Q /\ frac_sub F1 F1 = UB SignedOverflow) /\
  (valid F3 /\ valid F4 /\ (qval F3 * qval F4 == 1)%Q /\ frac_mul F3 F4 = UB SignedOverflow) /\
  (valid F3 /\ (qval F3 / qval F3 == 1)%Q /\ frac_div F3 F3 = UB SignedOverflow) /\
  (valid F3 /\ frac_lt F3 F3 = UB SignedOverflow).
Proof.
  repeat match goal with |- _ /\ _ => split end; try (apply valid_check; reflexivity); vm_compute; reflexivity.
Qed.

Definition E1 := Frac 2147483647 2147483646.
Definition E2 := Frac 2147483646 2147483645.
Lemma eq_false : valid E1 /\ valid E2 /\ frac_eqb E1 E2 = true /\ ~ (qval E1 == qval E2)%Q.
Proof.
  repeat match goal with |- _ /\ _ => split end; try (apply valid_check; reflexivity); vm_compute; [reflexivity|discriminate].
Qed.

(** ** Extraction *)
Lemma extract_divergence : forall s f0,
  (diverges (fun fuel => fst (frac_extract fuel s f0)) <->
    (eofbit s = true \/ failbit s = true \/ Forall blank (buf s))) /\
  (~ (eofbit s = true \/ failbit s = true \/ Forall blank (buf s)) ->
    exists o, converges (fun fuel => fst (frac_extract fuel s f0)) o).
Proof.
  intros s f0.
  assert (ND: ~ (eofbit s = true \/ failbit s = true \/ Forall blank (buf s)) ->
    exists o, converges (fun fuel => fst (frac_extract fuel s f0)) o).
  { intros N. destruct (extract_terminates s f0) as (o & No & n & E).
    - unfold good. destruct (eofbit s), (failbit s); auto; exfalso; apply N; auto.
    - destruct (blank_split (buf s)) as [B|(ws & c & rest & E & _ & C)]; [exfalso; apply N; auto|].
      exists c. split; auto. rewrite E. apply in_or_app. right. left. auto.
    - exists (fst o). split; auto. exists n. intros fuel Hf. rewrite E by auto. auto. }
  split; auto. split.
  - intros D. destruct (eofbit s) eqn:E1; auto. destruct (failbit s) eqn:E2; auto.
    destruct (blank_split (buf s)) as [B|(ws & c & rest & E & _ & C)]; auto. exfalso.
    destruct ND as (o & K).
    + intros [K|[K|K]]; try discriminate. rewrite E in K. apply Forall_app in K as (_ & K). inversion K; subst.
      unfold blank in H1. lia.
    + apply (converges_not_diverges _ _ _ K D).
  - intros H fuel. rewrite extract_hangs; auto. unfold good. destruct (eofbit s), (failbit s); auto.
    destruct H as [H|[H|H]]; auto; discriminate.
Qed.

(** ** Histories *)
Lemma histories_valid : forall fuel prog s s' ev, Forall int_args prog -> (forall v, valid (s v)) ->
  frun fuel prog s = Ok (s', ev) -> forall v, valid (s' v).
Proof.
  intros fuel prog s s' ev F V H v.
  destruct (frun_refines fuel prog s (fun v => qval (s v)) s' ev F) as (e' & _ & R); auto.
  - intros w. split; auto. reflexivity.
  - apply R.
Qed.

Lemma zero_denominator : forall n, frac_make n 0 = Throw DivideByZero.
Proof. reflexivity. Qed.

Lemma make_exact : forall n d, fits n -> fits d -> d <> 0 ->
  (n <> INT_MIN /\ d <> INT_MIN -> is_rat (frac_make n d) (inject_Z n / inject_Z d)) /\
  (~ (n <> INT_MIN /\ d <> INT_MIN) -> frac_make n d = UB SignedOverflow).
Proof.
  intros n d Hn Hd D. destruct (make_rat n d (inject_Z n / inject_Z d)%Q Hn Hd D ltac:(reflexivity)) as (A & B).
  unfold fits, fits1, INT_MIN, INT_MAX in *. split; intros H; [apply A; lia|apply B; lia].
Qed.

Lemma zero_tests : forall x, valid x -> (frac_is0 x = true <-> (qval x == 0)%Q).
Proof. intros x V. rewrite (proj1 (is0_exact x V)), Z.eqb_eq, q_zero by auto. tauto. Qed.

Lemma neg_total : forall x, valid x -> is_rat (frac_neg x) (- qval x) /\ is_rat (frac_abs x) (Qabs (qval x)).
Proof. exact neg_exact. Qed.

(** ** Reading *)
Lemma read_whole : forall ws n a rest f0, Forall blank ws -> literal n = Some a -> fits1 a -> ends rest ->
  exists k, forall fuel, (k <= fuel)%nat ->
  frac_extract fuel (IStream (ws ++ n ++ rest) false false) f0 =
    (Ok tt, (IStream rest (is_nil rest) (is_nil rest), Frac a 1)).
Proof. intros. exists (S (List.length ws)). intros. apply read_int; auto. Qed.

Lemma read_quotient : forall ws n a d b rest f0, Forall blank ws -> literal n = Some a -> literal d = Some b ->
  fits1 a -> fits1 b -> ends rest ->
  exists k, forall fuel, (k <= fuel)%nat ->
  let o := frac_extract fuel (IStream (ws ++ n ++ "/"%char :: d ++ rest) false false) f0 in
  let s' := IStream rest (is_nil rest) (is_nil rest) in
  (b = 0 -> o = (Throw DivideByZero, (s', f0))) /\
  (b <> 0 -> exists r, o = (Ok tt, (s', r)) /\ valid r /\ (qval r == inject_Z a / inject_Z b)%Q).
Proof.
  intros ws n a d b rest f0 W La Lb Fa Fb E. exists (S (List.length ws)). intros fuel Hf. cbv zeta.
  rewrite (read_ratio ws n a d b) by (auto using fits1_fits). split.
  - intros ->. reflexivity.
  - intros B. destruct (make_exact a b) as (M & _); auto using fits1_fits.
    destruct M as (r & Er & V & Q); [unfold fits1, INT_MIN, INT_MAX in *; lia|]. rewrite Er. exists r. auto.
Qed.

Lemma print_read : forall ws f rest f0, Forall blank ws -> valid f -> ends rest ->
  exists k, forall fuel, (k <= fuel)%nat ->
  frac_extract fuel (IStream (ws ++ frac_print f ++ rest) false false) f0 =
    (Ok tt, (IStream rest (is_nil rest) (is_nil rest), f)).
Proof. intros. exists (S (List.length ws)). intros. apply roundtrip; auto. Qed.

Lemma print_text : forall f, valid f -> frac_print f = qtext (qval f).
Proof. intros. symmetry. apply qtext_print; auto. Qed.

Lemma print_many : forall items ws0 x0,
  Forall blank ws0 -> valid x0 ->
  Forall (fun it => fst it <> [] /\ Forall blank (fst it) /\ valid (snd it)) items ->
  exists k s', forall fuel, (k <= fuel)%nat -> frac_extract_all fuel (S (List.length items))
    (IStream (ws0 ++ frac_print x0 ++ flat_map (fun it => fst it ++ frac_print (snd it)) items) false false)
    = Ok (x0 :: map snd items, s').
Proof.
  intros items ws0 x0 W V F. set (k := S (List.length ws0 + List.length (flat_map fst items))).
  destruct (read_back items ws0 x0 k W V F ltac:(unfold k; lia)) as (s' & E). exists k.
  enough (K: forall fuel, (k <= fuel)%nat -> frac_extract_all fuel (S (List.length items))
    (IStream (ws0 ++ frac_print x0 ++ flat_map (fun it => fst it ++ frac_print (snd it)) items) false false)
    = frac_extract_all k (S (List.length items))
    (IStream (ws0 ++ frac_print x0 ++ flat_map (fun it => fst it ++ frac_print (snd it)) items) false false)).
  { exists s'. intros fuel Hf. rewrite K by auto. auto. }
  clear E s'. unfold k. clear k. revert ws0 x0 W V F.
  assert (G: forall items ws0 x0 f1 f2, Forall blank ws0 -> valid x0 ->
    Forall (fun it => fst it <> [] /\ Forall blank (fst it) /\ valid (snd it)) items ->
    (List.length ws0 + List.length (flat_map fst items) < f1)%nat -> (List.length ws0 + List.length (flat_map fst items) < f2)%nat ->
    frac_extract_all f1 (S (List.length items))
    (IStream (ws0 ++ frac_print x0 ++ flat_map (fun it => fst it ++ frac_print (snd it)) items) false false)
    = frac_extract_all f2 (S (List.length items))
    (IStream (ws0 ++ frac_print x0 ++ flat_map (fun it => fst it ++ frac_print (snd it)) items) false false)).
  { clear items. induction items as [|[w x] items]; intros ws0 x0 f1 f2 W V F A B; cbn [List.length]; rewrite !extract_all_S.
    - cbn [flat_map]. rewrite !roundtrip; auto; try exact I; cbn in A, B; lia.
    - inversion F; subst. destruct H1 as (N & Bw & Vx). cbn [fst snd flat_map] in *. rewrite app_length in A, B.
      rewrite !roundtrip; auto; try lia; try solve [destruct w; [congruence|]; inversion Bw; auto].
      destruct w as [|c w]; [congruence|]. cbn [app is_nil].
      specialize (IHitems (c :: w) x f1 f2 Bw Vx H2 ltac:(lia) ltac:(lia)). cbn [app List.length] in IHitems.
      rewrite <- app_assoc, IHitems. auto. }
  intros ws0 x0 W V F fuel Hf. apply G; auto; lia.
Qed.

(** Malformed text. *)
Lemma reject_start : forall ws c rest f0, Forall blank ws -> 32 < code c -> is_digit_char c = false -> is_sign_char c = false ->
  exists k s', forall fuel, (k <= fuel)%nat ->
  frac_extract fuel (IStream (ws ++ c :: rest) false false) f0 = (Throw WrongFractionLiteral, (s', f0)).
Proof. intros. exists (S (List.length ws)). eexists. intros. apply bad_start; auto. Qed.

Lemma reject_separator : forall ws n a c rest f0, Forall blank ws -> literal n = Some a -> fits a ->
  32 < code c -> is_digit_char c = false -> c <> "/"%char ->
  exists k, forall fuel, (k <= fuel)%nat -> exists s',
  frac_extract fuel (IStream (ws ++ n ++ c :: rest) false false) f0 = (Throw WrongFractionLiteral, (s', f0)).
Proof. intros. exists (S (List.length ws)). intros. eapply bad_separator; eauto. Qed.

Lemma reject_denominator : forall ws n a rest f0, Forall blank ws -> literal n = Some a -> fits a ->
  match rest with [] => True | c :: _ => is_digit_char c = false /\ is_sign_char c = false end ->
  exists k, forall fuel, (k <= fuel)%nat -> exists s',
  frac_extract fuel (IStream (ws ++ n ++ "/"%char :: rest) false false) f0 = (Throw WrongFractionLiteral, (s', f0)).
Proof. intros. exists (S (List.length ws)). intros. eapply bad_denominator; eauto. Qed.

Lemma reject_trailing : forall ws n a d b c rest f0, Forall blank ws -> literal n = Some a -> literal d = Some b ->
  fits a -> fits b -> 32 < code c -> is_digit_char c = false ->
  exists k, forall fuel, (k <= fuel)%nat -> exists s',
  frac_extract fuel (IStream (ws ++ n ++ "/"%char :: d ++ c :: rest) false false) f0 = (Throw WrongFractionLiteral, (s', f0)).
Proof. intros. exists (S (List.length ws)). intros. eapply bad_trailing; eauto. Qed.

Lemma accepts_garbage :
  (exists s', frac_extract 9 (IStream (chars "99999999999z") false false) (Frac 7 2) = (Ok tt, (s', Frac 2147483647 1))) /\
  (exists s', frac_extract 9 (IStream (chars "+z") false false) (Frac 7 2) = (Ok tt, (s', Frac 0 1))) /\
  (exists s', frac_extract 9 (IStream (chars "1/99999999999") false false) (Frac 7 2) = (Ok tt, (s', Frac 1 2147483647))).
Proof. split; [|split]; eexists; vm_compute; reflexivity. Qed.

Lemma loop_loses_last : frac_read_loop 99 (IStream (chars "1/2 1/3") false false) = Ok [Frac 1 2].
Proof. vm_compute. reflexivity. Qed.

Lemma loop_hangs : diverges (fun fuel => frac_read_loop fuel (IStream (chars "1/2 ") false false)).
Proof.
  intros [|fuel]; auto.
  assert (R1: exists s1, s1 = IStream (chars " ") false false /\
    frac_extract (S fuel) (IStream (chars "1/2 ") false false) (Frac 0 1) = (Ok tt, (s1, Frac 1 2))).
  { eexists. split; [reflexivity|].
    apply (roundtrip [] (Frac 1 2) (chars " ") (S fuel) (Frac 0 1)); [constructor|apply valid_check; reflexivity|vm_compute; discriminate|simpl; lia]. }
  destruct R1 as (s1 & -> & R1). cbn [frac_read_loop]. rewrite R1. cbn [failbit].
  destruct fuel as [|fuel]; auto. cbn [frac_read_loop].
  rewrite (extract_hangs (IStream (chars " ") false false)); auto. right. repeat constructor. vm_compute. discriminate.
Qed.
