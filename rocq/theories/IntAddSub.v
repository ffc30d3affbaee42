(** Comparison, negation, addition and subtraction of [Int]. *)
From Coq Require Import ZArith List Bool Lia Arith.
From Verif Require Import Outcome IntModel IntSpec IntBase.
Import ListNotations.
Open Scope Z_scope.

Ltac zsimp := unfold BASE, floor_div, INT_MIN, INT_MAX in *.

(** ** Comparison *)

Lemma abs_cmp_loop_spec : forall n a b, Forall digit a -> Forall digit b ->
  length a = length b -> (n <= length a)%nat ->
  val (skipn n a) = val (skipn n b) ->
  abs_cmp_loop n a b = Ok (Z.sgn (val a - val b)).
Proof.
  induction n; intros a b Ha Hb HL Hn HS.
  - simpl in *. rewrite HS, Z.sub_diag. reflexivity.
  - cbn [abs_cmp_loop]. rewrite !vget_ok by lia. cbn [bind].
    assert (Hs: val (skipn n a) - val (skipn n b) = nth n a 0 - nth n b 0).
    { rewrite (val_skipn a n), (val_skipn b n) by lia. rewrite HS. lia. }
    destruct (Z.eqb_spec (nth n a 0) (nth n b 0)) as [E|E]; cbn [negb].
    + apply IHn; auto; lia.
    + rewrite (val_split a n), (val_split b n). rewrite <- HL. rewrite Nat.min_l by lia.
      set (A := val (skipn n a)) in *. set (B := val (skipn n b)) in *.
      assert (H1: 0 <= val (firstn n a) < p10 n).
      { assert (Forall digit (firstn n a)).
        { rewrite <- (firstn_skipn n a) in Ha. apply Forall_app in Ha. tauto. }
        split. apply val_nonneg; auto.
        pose proof (val_lt _ H). rewrite firstn_length, Nat.min_l in H0 by lia. auto. }
      assert (H2: 0 <= val (firstn n b) < p10 n).
      { assert (Forall digit (firstn n b)).
        { rewrite <- (firstn_skipn n b) in Hb. apply Forall_app in Hb. tauto. }
        split. apply val_nonneg; auto.
        pose proof (val_lt _ H). rewrite firstn_length, Nat.min_l in H0 by lia. auto. }
      pose proof (p10_pos n).
      f_equal. rewrite Z.gtb_ltb. destruct (Z.ltb_spec (nth n b 0) (nth n a 0)).
      * symmetry; apply Z.sgn_pos. nia.
      * symmetry; apply Z.sgn_neg. nia.
Qed.

Lemma abs_cmp_spec : forall x y a b, repr x a -> repr y b ->
  abs_cmp x y = Ok (Z.sgn (Z.abs a - Z.abs b)).
Proof.
  intros x y a b Hx Hy. unfold abs_cmp.
  rewrite <- (repr_val _ _ Hx), <- (repr_val _ _ Hy).
  pose proof (repr_digits _ _ Hx). pose proof (repr_digits _ _ Hy).
  pose proof (repr_last _ _ Hx). pose proof (repr_last _ _ Hy).
  destruct (Nat.eqb_spec (length (chunks x)) (length (chunks y))) as [E|E]; cbn [negb].
  - apply abs_cmp_loop_spec; auto. rewrite !val_skipn_all by lia; auto.
  - destruct (Nat.ltb_spec (length (chunks y)) (length (chunks x))) as [L|L].
    + pose proof (val_length_lt _ _ H0 H H1 L). rewrite Z.sgn_pos; auto; lia.
    + pose proof (val_length_lt _ _ H H0 H2 ltac:(lia)). rewrite Z.sgn_neg; auto; lia.
Qed.

Lemma int_cmp_spec : forall x y a b, repr x a -> repr y b ->
  int_cmp x y = Ok (Z.sgn (a - b)).
Proof.
  intros x y a b Hx Hy. unfold int_cmp.
  rewrite (abs_cmp_spec x y a b Hx Hy). rewrite (repr_sign _ _ Hx), (repr_sign _ _ Hy).
  cbn [bind].
  destruct (Z.eqb_spec (Z.sgn a) (Z.sgn b)) as [E|E]; cbn [negb].
  - f_equal. destruct (Z.leb_spec 0 (Z.sgn a)).
    + f_equal. lia.
    + rewrite <- Z.sgn_opp. f_equal. lia.
  - destruct (Z.eqb_spec (Z.sgn a) 1); [rewrite Z.sgn_pos; auto; lia|].
    destruct (Z.eqb_spec (Z.sgn a) (-1)); [rewrite Z.sgn_neg; auto; lia|].
    destruct (Z.eqb_spec (Z.sgn b) 1); [rewrite Z.sgn_neg; auto; lia|rewrite Z.sgn_pos; auto; lia].
Qed.

Lemma int_lt_spec : forall x y a b, repr x a -> repr y b -> int_lt x y = Ok (a <? b).
Proof.
  intros. unfold int_lt. rewrite (int_cmp_spec x y a b) by auto. cbn [bind]. f_equal.
  destruct (Z.ltb_spec a b), (Z.ltb_spec (Z.sgn (a - b)) 0); auto; lia.
Qed.
Lemma int_le_spec : forall x y a b, repr x a -> repr y b -> int_le x y = Ok (a <=? b).
Proof.
  intros. unfold int_le. rewrite (int_cmp_spec x y a b) by auto. cbn [bind]. f_equal.
  destruct (Z.leb_spec a b), (Z.leb_spec (Z.sgn (a - b)) 0); auto; lia.
Qed.
Lemma int_gt_spec : forall x y a b, repr x a -> repr y b -> int_gt x y = Ok (b <? a).
Proof.
  intros. unfold int_gt. rewrite (int_cmp_spec x y a b) by auto. cbn [bind]. f_equal.
  rewrite Z.gtb_ltb. destruct (Z.ltb_spec b a), (Z.ltb_spec 0 (Z.sgn (a - b))); auto; lia.
Qed.
Lemma int_ge_spec : forall x y a b, repr x a -> repr y b -> int_ge x y = Ok (b <=? a).
Proof.
  intros. unfold int_ge. rewrite (int_cmp_spec x y a b) by auto. cbn [bind]. f_equal.
  rewrite Z.geb_leb. destruct (Z.leb_spec b a), (Z.leb_spec 0 (Z.sgn (a - b))); auto; lia.
Qed.

Lemma chunks_eqb_spec : forall a b, chunks_eqb a b = true <-> a = b.
Proof.
  induction a; destruct b; simpl; split; intros; try discriminate; auto.
  - apply andb_true_iff in H as [H1 H2]. apply Z.eqb_eq in H1. apply IHa in H2. congruence.
  - inversion H; subst. rewrite Z.eqb_refl. simpl. apply IHa; auto.
Qed.

Lemma int_eqb_eq : forall x y, int_eqb x y = true <-> x = y.
Proof.
  intros [s c] [s' c']. unfold int_eqb; simpl. rewrite andb_true_iff, Z.eqb_eq, chunks_eqb_spec.
  split; intros H; [destruct H; subst; auto|inversion H; auto].
Qed.

Lemma int_eqb_spec : forall x y a b, repr x a -> repr y b -> int_eqb x y = (a =? b).
Proof.
  intros. apply eq_true_iff_eq. rewrite int_eqb_eq, Z.eqb_eq. split; intros; subst.
  - destruct H, H0. congruence.
  - eapply repr_unique; eauto.
Qed.

(** ** Negation and absolute value *)

Lemma int_neg_spec : forall x a, repr x a -> repr (int_neg x) (- a).
Proof.
  intros [s c] a [(H1 & H2 & H3 & H4) V]. unfold repr, canonical, value, int_neg in *; simpl in *.
  repeat split; auto; try lia; intros; [apply H4; lia|apply H4 in H; lia].
Qed.

Lemma int_abs_spec : forall x a, repr x a -> repr (int_abs x) (Z.abs a).
Proof.
  intros. unfold int_abs. rewrite (repr_sign _ _ H).
  destruct (Z.eqb_spec (Z.sgn a) (-1)).
  - replace (Z.abs a) with (- a) by lia. apply int_neg_spec; auto.
  - replace (Z.abs a) with a by lia. auto.
Qed.

(** ** Addition of magnitudes *)

Lemma add_loop_spec : forall p n i a b,
  (i + n = length b)%nat -> (length b < length a)%nat -> Forall digit b ->
  cells a (fun _ => 0) (fun j => if Nat.eqb j i then 10 else 9) ->
  exists a', add_loop p n i a b = Ok a' /\ length a' = length a /\
    val a' = val a + p10 i * val (skipn i b) /\
    cells a' (fun _ => 0) (fun j => if Nat.eqb j (length b) then 10 else 9).
Proof.
  induction n; intros i a b Hn HL Hb Hc; cbn [add_loop].
  - exists a. repeat split; auto; try (rewrite val_skipn_all by lia; lia).
    all: replace i with (length b) in Hc by lia; apply Hc; auto.
  - pose proof (Hc i ltac:(lia)) as Hi; cbv beta in *. rewrite Nat.eqb_refl in Hi.
    pose proof (proj1 (Forall_cells b) Hb i ltac:(lia)) as Hbi. cbv beta in Hbi.
    pose proof (Hc (S i) ltac:(lia)) as HSi; cbv beta in *.
    replace (Nat.eqb (S i) i) with false in HSi by (symmetry; apply Nat.eqb_neq; lia).
    rewrite !vget_ok by lia. cbn [bind].
    rewrite chk32_ok by (zsimp; lia). cbn [bind].
    set (tmp := nth i a 0 + nth i b 0) in *.
    assert (Hq: 0 <= Z.quot tmp BASE <= 1 /\ 0 <= Z.rem tmp BASE <= 9 /\ tmp = 10 * Z.quot tmp BASE + Z.rem tmp BASE).
    { zsimp. rewrite Z.quot_div_nonneg, Z.rem_mod_nonneg by lia.
      pose proof (Z.mod_pos_bound tmp 10). pose proof (Z.div_mod tmp 10). lia. }
    destruct Hq as (Hq & Hr & Ht).
    rewrite vset_ok by lia. cbn [bind].
    rewrite vadd_ok; [|rewrite upd_length; lia|rewrite nth_upd by lia;
       replace (Nat.eqb (S i) i) with false by (symmetry; apply Nat.eqb_neq; lia); zsimp; lia].
    cbn [bind].
    rewrite nth_upd by lia.
    replace (Nat.eqb (S i) i) with false by (symmetry; apply Nat.eqb_neq; lia).
    edestruct (IHn (S i)) as (a' & E & L & V & C); [| | | |rewrite E; exists a'].
    + lia.
    + rewrite !upd_length; auto.
    + auto.
    + intros j Hj. rewrite !upd_length in Hj.
      rewrite nth_upd by (rewrite upd_length; lia). rewrite nth_upd by lia.
      destruct (Nat.eqb_spec j (S i)); subst; [lia|].
      destruct (Nat.eqb_spec j i); subst; [lia|].
      pose proof (Hc j Hj); cbv beta in *. rewrite (proj2 (Nat.eqb_neq j i)) in H by auto. auto.
    + rewrite !upd_length in L. repeat split; auto; try apply C; auto.
      rewrite V. rewrite val_upd by (rewrite upd_length; lia). rewrite nth_upd by lia.
      replace (Nat.eqb (S i) i) with false by (symmetry; apply Nat.eqb_neq; lia).
      rewrite val_upd by lia. rewrite (val_skipn b i) by lia. rewrite p10_S.
      replace (Z.rem tmp BASE) with (tmp - 10 * Z.quot tmp BASE) by lia. unfold tmp. ring.
Qed.

Lemma cells_split_top : forall a i hi, cells a (fun _ => 0) hi -> (i < length a)%nat ->
  nth i a 0 * p10 i <= val a.
Proof.
  induction a; intros; simpl length in *; [lia|].
  assert (C: cells a0 (fun _ => 0) (fun j => hi (S j))).
  { intros j Hj. apply (H (S j)). simpl; lia. }
  assert (0 <= val a0).
  { clear - C. revert hi C. induction a0; intros; [rewrite val_nil; lia|].
    rewrite val_cons. pose proof (C 0%nat ltac:(simpl; lia)). simpl in H.
    assert (0 <= val a0). { apply (IHa0 (fun j => hi (S j))). intros j Hj. apply (C (S j)). simpl; lia. } lia. }
  rewrite val_cons. pose proof (H 0%nat ltac:(simpl; lia)) as H2. simpl in H2.
  destruct i; cbn [nth].
  - rewrite p10_0; lia.
  - rewrite p10_S. pose proof (IHa i _ C ltac:(lia)). nia.
Qed.

Lemma add_carry_spec : forall p n i a,
  (i + n = length a)%nat -> val a < p10 (length a) ->
  cells a (fun _ => 0) (fun j => if Nat.eqb j i then 10 else 9) ->
  exists a', add_carry p n i a = Ok a' /\ length a' = length a /\ val a' = val a /\
    Forall digit a'.
Proof.
  induction n; intros i a Hn HV Hc; cbn [add_carry].
  - exists a. repeat split; auto. apply Forall_cells. intros j Hj.
    pose proof (Hc j Hj); cbv beta in *. rewrite (proj2 (Nat.eqb_neq j i)) in H by lia. auto.
  - pose proof (Hc i ltac:(lia)) as Hi; cbv beta in *. rewrite Nat.eqb_refl in Hi.
    rewrite vget_ok by lia. cbn [bind]. rewrite Z.geb_leb.
    destruct (Z.leb_spec BASE (nth i a 0)); zsimp.
    + assert (S i < length a)%nat.
      { destruct (Nat.eq_dec (S i) (length a)); [|lia]. exfalso.
        pose proof (cells_split_top a i _ Hc ltac:(lia)).
        rewrite <- e, p10_S in HV. pose proof (p10_pos i). nia. }
      pose proof (Hc (S i) ltac:(lia)) as HSi; cbv beta in *.
      replace (Nat.eqb (S i) i) with false in HSi by (symmetry; apply Nat.eqb_neq; lia).
      rewrite vadd_ok by (zsimp; lia). cbn [bind].
      rewrite vset_ok by (rewrite upd_length; lia). cbn [bind].
      assert (V: val (upd (upd a (S i) (nth (S i) a 0 + 1)) i 0) = val a).
      { rewrite val_upd by (rewrite upd_length; lia). rewrite val_upd by lia.
        rewrite nth_upd by lia.
        replace (Nat.eqb i (S i)) with false by (symmetry; apply Nat.eqb_neq; lia).
        rewrite p10_S. replace (nth i a 0) with 10 by lia. ring. }
      edestruct (IHn (S i)) as (a' & E & L & V' & C); [| | |rewrite E; exists a'].
      * rewrite !upd_length; lia.
      * rewrite V, !upd_length; auto.
      * intros j Hj. rewrite !upd_length in Hj.
        rewrite nth_upd by (rewrite upd_length; lia). rewrite nth_upd by lia.
        destruct (Nat.eqb_spec j i); subst.
        -- destruct (Nat.eqb i (S i)); lia.
        -- destruct (Nat.eqb_spec j (S i)); subst; [lia|].
           pose proof (Hc j Hj); cbv beta in *. rewrite (proj2 (Nat.eqb_neq j i)) in H1 by auto. auto.
      * rewrite !upd_length in L. repeat split; auto. lia.
    + exists a. repeat split; auto. apply Forall_cells. intros j Hj.
      pose proof (Hc j Hj); cbv beta in *. destruct (Nat.eqb_spec j i); subst; lia.
Qed.

Lemma add_same_spec : forall p x y a b, repr x a -> repr y b -> a <> 0 -> Z.sgn a = Z.sgn b ->
  returns (add_same p x y) (a + b).
Proof.
  intros p x y a b Hx Hy Ha Hs. unfold add_same.
  pose proof (repr_digits _ _ Hx) as Dx. pose proof (repr_digits _ _ Hy) as Dy.
  set (n := (Nat.max (length (chunks x)) (length (chunks y)) + 1)%nat).
  assert (Hlen: length (resize (chunks x) n) = n) by (apply resize_length; lia).
  pose proof (resize_digits _ n Dx) as Dr.
  edestruct (add_loop_spec p (length (chunks y)) 0 (resize (chunks x) n) (chunks y)) as (a1 & E1 & L1 & V1 & C1); auto.
  { lia. }
  { intros j Hj. pose proof (proj1 (Forall_cells _) Dr j Hj). cbv beta in H.
    destruct (Nat.eqb j 0); lia. }
  rewrite E1; cbn [bind].
  rewrite p10_0 in V1. simpl skipn in V1. rewrite resize_val in V1 by lia.
  edestruct (add_carry_spec p (length a1 - length (chunks y)) (length (chunks y)) a1) as (a2 & E2 & L2 & V2 & D2); auto.
  { lia. }
  { rewrite V1, L1, Hlen.
    pose proof (val_lt _ Dx). pose proof (val_lt _ Dy).
    pose proof (p10_le (length (chunks x)) (n-1) ltac:(lia)).
    pose proof (p10_le (length (chunks y)) (n-1) ltac:(lia)).
    replace n with (S (n - 1)) by lia. rewrite p10_S. pose proof (p10_pos (n-1)). lia. }
  rewrite E2; cbn [bind]. eexists; split; [reflexivity|].
  rewrite (repr_sign _ _ Hx).
  replace (a + b) with (Z.sgn a * val a2).
  - apply trim_repr; auto. lia.
  - rewrite V2, V1, (repr_val _ _ Hx), (repr_val _ _ Hy).
    replace (Z.sgn a * (Z.abs a + 1 * Z.abs b)) with (Z.sgn a * Z.abs a + Z.sgn b * Z.abs b) by (rewrite Hs; ring).
    rewrite !(Z.mul_comm (Z.sgn _)), !Z.abs_sgn. auto.
Qed.

(** ** Subtraction of magnitudes *)

Lemma cells_val_lt : forall a i, (i <= length a)%nat ->
  (forall j, (j < i)%nat -> 0 <= nth j a 0 <= 9) ->
  0 <= val (firstn i a) < p10 i.
Proof.
  intros a i Hi H.
  assert (Forall digit (firstn i a)).
  { apply Forall_cells. intros j Hj. rewrite firstn_length in Hj.
    rewrite <- (firstn_skipn i a) in H.
    pose proof (H j ltac:(lia)). rewrite app_nth1 in H0 by (rewrite firstn_length; lia). auto. }
  split; [apply val_nonneg; auto|].
  pose proof (val_lt _ H0). rewrite firstn_length, Nat.min_l in H1 by lia. auto.
Qed.

Lemma sub_loop_spec : forall p n i a b,
  (i + n = length b)%nat -> (length b <= length a)%nat ->
  (p = Benign \/ (length b < length a)%nat) ->
  Forall digit b ->
  p10 i * val (skipn i b) <= val a ->
  cells a (fun j => if Nat.eqb j i then -1 else 0) (fun _ => 9) ->
  exists a', sub_loop p n i a b = Ok a' /\ length a' = length a /\
    val a' = val a - p10 i * val (skipn i b) /\
    cells a' (fun j => if Nat.eqb j (length b) then -1 else 0) (fun _ => 9).
Proof.
  induction n; intros i a b Hn HL Hp Hb HV Hc; cbn [sub_loop].
  - exists a. repeat split; auto; try (rewrite val_skipn_all by lia; lia).
    all: replace i with (length b) in Hc by lia; apply Hc; auto.
  - pose proof (Hc i ltac:(lia)) as Hi; cbv beta in *. rewrite Nat.eqb_refl in Hi.
    pose proof (proj1 (Forall_cells b) Hb i ltac:(lia)) as Hbi. cbv beta in Hbi.
    rewrite !vget_ok by lia. cbn [bind].
    rewrite chk32_ok by (zsimp; lia). cbn [bind].
    set (tmp := nth i a 0 - nth i b 0) in *.
    pose proof (Z.mod_pos_bound tmp 10 ltac:(lia)). pose proof (Z.div_mod tmp 10 ltac:(lia)).
    assert (-1 <= tmp / 10 <= 0) by lia.
    assert (EM: cycle_mod tmp BASE = Ok (tmp mod 10)).
    { unfold cycle_mod. rewrite chk32_ok by (zsimp; lia). cbn [bind].
      rewrite chk32_ok by (zsimp; lia). f_equal. zsimp; lia. }
    rewrite EM; cbn [bind]. rewrite vset_ok by lia. cbn [bind].
    replace (floor_div tmp BASE) with (tmp / 10) by reflexivity.
    assert (HVa: val (upd a i (tmp mod 10)) = val a - p10 i * nth i b 0 - p10 (S i) * (tmp / 10)).
    { rewrite val_upd by lia. rewrite p10_S. replace (tmp mod 10) with (tmp - 10 * (tmp/10)) by lia.
      unfold tmp. ring. }
    destruct (Nat.eq_dec (S i) (length a)) as [Elen|Nlen].
    + (* equal lengths: the last access is one past the end *)
      assert (n = 0)%nat by lia. subst n.
      destruct Hp as [->|?]; [|lia].
      assert (tmp / 10 = 0).
      { (* total is non negative *)
        rewrite (val_skipn b i), (val_skipn_all b (S i)) in HV by lia.
        rewrite (val_split a i), Nat.min_l in HV by lia.
        rewrite (val_skipn a i), (val_skipn_all a (S i)) in HV by lia.
        destruct (cells_val_lt a i ltac:(lia)).
        { intros j Hj. pose proof (Hc j ltac:(lia)); cbv beta in *. rewrite (proj2 (Nat.eqb_neq j i)) in H2 by lia. auto. }
        pose proof (p10_pos i). assert (0 <= tmp) by (unfold tmp; nia). lia. }
      rewrite H2. rewrite vadd_end by (rewrite upd_length; auto). cbn [bind sub_loop].
      eexists; split; [reflexivity|]. rewrite upd_length. repeat split; auto.
      * rewrite HVa, H2. rewrite (val_skipn b i), (val_skipn_all b (S i)) by lia. ring.
      * rewrite upd_length in H3. rewrite nth_upd by lia.
        destruct (Nat.eqb_spec j (length b)); [lia|].
        destruct (Nat.eqb_spec j i); [lia|].
        pose proof (Hc j H3); cbv beta in *. rewrite (proj2 (Nat.eqb_neq j i)) in H4 by auto. lia.
      * rewrite upd_length in H3. rewrite nth_upd by lia.
        destruct (Nat.eqb_spec j i); [lia|]. apply Hc; auto.
    + pose proof (Hc (S i) ltac:(lia)) as HSi; cbv beta in *.
      replace (Nat.eqb (S i) i) with false in HSi by (symmetry; apply Nat.eqb_neq; lia).
      rewrite vadd_ok; [|rewrite upd_length; lia|rewrite nth_upd by lia;
        replace (Nat.eqb (S i) i) with false by (symmetry; apply Nat.eqb_neq; lia); zsimp; lia].
      cbn [bind]. rewrite nth_upd by lia.
      replace (Nat.eqb (S i) i) with false by (symmetry; apply Nat.eqb_neq; lia).
      assert (HV2: val (upd (upd a i (tmp mod 10)) (S i) (nth (S i) a 0 + tmp / 10)) = val a - p10 i * nth i b 0).
      { rewrite val_upd by (rewrite upd_length; lia). rewrite nth_upd by lia.
        replace (Nat.eqb (S i) i) with false by (symmetry; apply Nat.eqb_neq; lia).
        rewrite HVa. ring. }
      edestruct (IHn (S i)) as (a' & E & L & V & C); [| | | | | |rewrite E; exists a'].
      * lia.
      * rewrite !upd_length; lia.
      * rewrite !upd_length; auto.
      * auto.
      * rewrite HV2, p10_S. rewrite (val_skipn b i) in HV by lia. lia.
      * intros j Hj. rewrite !upd_length in Hj.
        rewrite nth_upd by (rewrite upd_length; lia). rewrite nth_upd by lia.
        destruct (Nat.eqb_spec j (S i)); subst; [lia|].
        destruct (Nat.eqb_spec j i); subst; [lia|].
        pose proof (Hc j Hj); cbv beta in *. rewrite (proj2 (Nat.eqb_neq j i)) in H2 by auto. auto.
      * rewrite !upd_length in L. repeat split; auto; try apply C; auto.
        rewrite V, HV2, (val_skipn b i), p10_S by lia. ring.
Qed.

Lemma sub_borrow_spec : forall p n i a,
  (i + n = length a)%nat -> 0 <= val a ->
  cells a (fun j => if Nat.eqb j i then -1 else 0) (fun _ => 9) ->
  exists a', sub_borrow p n i a = Ok a' /\ length a' = length a /\ val a' = val a /\
    Forall digit a'.
Proof.
  induction n; intros i a Hn HV Hc; cbn [sub_borrow].
  - exists a. repeat split; auto. apply Forall_cells. intros j Hj.
    pose proof (Hc j Hj); cbv beta in *. rewrite (proj2 (Nat.eqb_neq j i)) in H by lia. auto.
  - pose proof (Hc i ltac:(lia)) as Hi; cbv beta in *. rewrite Nat.eqb_refl in Hi.
    rewrite vget_ok by lia. cbn [bind].
    destruct (Z.ltb_spec (nth i a 0) 0); zsimp.
    + assert (S i < length a)%nat.
      { destruct (Nat.eq_dec (S i) (length a)); [|lia]. exfalso.
        rewrite (val_split a i), Nat.min_l in HV by lia.
        rewrite (val_skipn a i), (val_skipn_all a (S i)) in HV by lia.
        destruct (cells_val_lt a i ltac:(lia)).
        { intros j Hj. pose proof (Hc j ltac:(lia)); cbv beta in *. rewrite (proj2 (Nat.eqb_neq j i)) in H0 by lia. auto. }
        pose proof (p10_pos i). nia. }
      pose proof (Hc (S i) ltac:(lia)) as HSi; cbv beta in *.
      replace (Nat.eqb (S i) i) with false in HSi by (symmetry; apply Nat.eqb_neq; lia).
      rewrite vadd_ok by (zsimp; lia). cbn [bind].
      rewrite vset_ok by (rewrite upd_length; lia). cbn [bind].
      assert (V: val (upd (upd a (S i) (nth (S i) a 0 + -1)) i (10 - 1)) = val a).
      { rewrite val_upd by (rewrite upd_length; lia). rewrite val_upd by lia.
        rewrite nth_upd by lia.
        replace (Nat.eqb i (S i)) with false by (symmetry; apply Nat.eqb_neq; lia).
        rewrite p10_S. replace (nth i a 0) with (-1) by lia. ring. }
      edestruct (IHn (S i)) as (a' & E & L & V' & C); [| | |rewrite E; exists a'].
      * rewrite !upd_length; lia.
      * lia.
      * intros j Hj. rewrite !upd_length in Hj.
        rewrite nth_upd by (rewrite upd_length; lia). rewrite nth_upd by lia.
        destruct (Nat.eqb_spec j i); subst.
        -- destruct (Nat.eqb i (S i)); lia.
        -- destruct (Nat.eqb_spec j (S i)); subst; [lia|].
           pose proof (Hc j Hj); cbv beta in *. rewrite (proj2 (Nat.eqb_neq j i)) in H1 by auto. auto.
      * rewrite !upd_length in L. repeat split; auto. lia.
    + exists a. repeat split; auto. apply Forall_cells. intros j Hj.
      pose proof (Hc j Hj); cbv beta in *. destruct (Nat.eqb_spec j i); subst; lia.
Qed.

(** Digit-level subtraction, larger magnitude first. *)
Lemma sub_digits_spec : forall p s a b, Forall digit a -> Forall digit b ->
  (length b <= length a)%nat -> val b <= val a -> s = 1 \/ s = -1 ->
  (p = Benign \/ (length b < length a)%nat) ->
  returns (a1 <- sub_loop p (length b) 0 a b ;;
           a2 <- sub_borrow p (length a1 - length b) (length b) a1 ;;
           Ok (trim (MkInt s a2))) (s * (val a - val b)).
Proof.
  intros p s a b Da Db HL HV Hs Hp.
  edestruct (sub_loop_spec p (length b) 0 a b) as (a1 & E1 & L1 & V1 & C1); auto.
  { rewrite p10_0. simpl skipn. lia. }
  { intros j Hj. pose proof (proj1 (Forall_cells _) Da j Hj). cbv beta in H.
    destruct (Nat.eqb j 0); lia. }
  rewrite p10_0 in V1. simpl skipn in V1. rewrite E1; cbn [bind].
  edestruct (sub_borrow_spec p (length a1 - length b) (length b) a1) as (a2 & E2 & L2 & V2 & D2); auto.
  { lia. } { lia. }
  rewrite E2; cbn [bind]. eexists; split; [reflexivity|].
  replace (s * (val a - val b)) with (s * val a2) by (rewrite V2, V1; ring).
  apply trim_repr; auto.
Qed.

Lemma sub_same_spec : forall p x y a b, repr x a -> repr y b -> a <> 0 -> Z.sgn a = Z.sgn b ->
  (p = Benign \/ length (chunks x) <> length (chunks y)) ->
  returns (sub_same p x y) (a - b).
Proof.
  intros p x y a b Hx Hy Ha Hs Hp. unfold sub_same.
  rewrite (abs_cmp_spec _ _ _ _ Hx Hy). cbn [bind].
  pose proof (repr_digits _ _ Hx) as Dx. pose proof (repr_digits _ _ Hy) as Dy.
  rewrite (repr_sign _ _ Hx).
  destruct (Z.eqb_spec (Z.sgn (Z.abs a - Z.abs b)) (-1)).
  - pose proof (repr_len_le _ _ _ _ Hx Hy ltac:(lia)).
    replace (a - b) with (- Z.sgn a * (val (chunks y) - val (chunks x))).
    + apply sub_digits_spec; auto.
      * rewrite (repr_val _ _ Hx), (repr_val _ _ Hy). lia.
      * lia.
      * destruct Hp; [left; auto|right; lia].
    + rewrite (repr_val _ _ Hx), (repr_val _ _ Hy). lia.
  - pose proof (repr_len_le _ _ _ _ Hy Hx ltac:(lia)).
    replace (a - b) with (Z.sgn a * (val (chunks x) - val (chunks y))).
    + apply sub_digits_spec; auto.
      * rewrite (repr_val _ _ Hx), (repr_val _ _ Hy). lia.
      * lia.
      * destruct Hp; [left; auto|right; lia].
    + rewrite (repr_val _ _ Hx), (repr_val _ _ Hy). lia.
Qed.

(** ** The operators *)

(** Addition stays inside the vector; subtraction does too unless the digit
    counts agree. [p] is free in the case where no subtraction happens. *)
Lemma int_add_assign_spec : forall p x y a b, repr x a -> repr y b ->
  (p = Benign \/ Z.sgn a * Z.sgn b <> -1 \/ length (chunks x) <> length (chunks y)) ->
  returns (int_add_assign p x y) (a + b).
Proof.
  intros p x y a b Hx Hy Hp. unfold int_add_assign. cbn [add_sub].
  pose proof (int_neg_spec _ _ Hy) as Hny.
  rewrite (repr_sign _ _ Hx), (repr_sign _ _ Hy).
  destruct (Z.eqb_spec (Z.sgn a) 0) as [E|E]; cbn [orb].
  - exists y; split; auto. replace (a + b) with b by lia. auto.
  - destruct (Z.eqb_spec (Z.sgn b) 0) as [E'|E'].
    + exists x; split; auto. replace (a + b) with a by lia. auto.
    + destruct (Z.eqb_spec (Z.sgn a) (Z.sgn b)) as [E2|E2]; cbn [negb].
      * apply add_same_spec; auto. lia.
      * rewrite (repr_sign _ _ Hny).
        destruct (Z.eqb_spec (Z.sgn (-b)) 0) as [|_]; [lia|].
        destruct (Z.eqb_spec (Z.sgn a) (Z.sgn (- b))) as [E3|E3]; cbn [negb]; [|lia].
        replace (a + b) with (a - - b) by lia. apply sub_same_spec; auto; [lia|].
        destruct Hp as [|[|]]; auto. right. nia.
Qed.

Lemma int_sub_assign_spec : forall p x y a b, repr x a -> repr y b ->
  (p = Benign \/ Z.sgn a * Z.sgn b <> 1 \/ length (chunks x) <> length (chunks y)) ->
  returns (int_sub_assign p x y) (a - b).
Proof.
  intros p x y a b Hx Hy Hp. unfold int_sub_assign. cbn [add_sub].
  pose proof (int_neg_spec _ _ Hy) as Hny.
  rewrite (repr_sign _ _ Hx), (repr_sign _ _ Hy).
  destruct (Z.eqb_spec (Z.sgn a) 0) as [E|E]; cbn [orb].
  - exists (int_neg y); split; auto. replace (a - b) with (-b) by lia. auto.
  - destruct (Z.eqb_spec (Z.sgn b) 0) as [E'|E'].
    + exists x; split; auto. replace (a - b) with a by lia. auto.
    + destruct (Z.eqb_spec (Z.sgn a) (Z.sgn b)) as [E2|E2]; cbn [negb].
      * apply sub_same_spec; auto. lia. destruct Hp as [|[|]]; auto. exfalso; apply H. nia.
      * rewrite (repr_sign _ _ Hny).
        destruct (Z.eqb_spec (Z.sgn (-b)) 0) as [|_]; [lia|].
        destruct (Z.eqb_spec (Z.sgn a) (Z.sgn (- b))) as [E3|E3]; cbn [negb]; [|lia].
        replace (a - b) with (a + - b) by lia. apply add_same_spec; auto. lia.
Qed.

(** Equal digit counts and equal nonzero signs: the last iteration of the
    subtraction loop writes one past the end of the vector. *)
Lemma sub_loop_strict_ub : forall n i a b, (i + n = length b)%nat -> (0 < n)%nat ->
  length a = length b -> Forall digit b ->
  cells a (fun j => if Nat.eqb j i then -1 else 0) (fun _ => 9) ->
  sub_loop Strict n i a b = UB OutOfBounds.
Proof.
  induction n; intros i a b Hn Hpos HL Hb Hc; [lia|]. cbn [sub_loop].
  pose proof (Hc i ltac:(lia)) as Hi; cbv beta in *. rewrite Nat.eqb_refl in Hi.
  pose proof (proj1 (Forall_cells b) Hb i ltac:(lia)) as Hbi. cbv beta in Hbi.
  rewrite !vget_ok by lia. cbn [bind].
  rewrite chk32_ok by (zsimp; lia). cbn [bind].
  set (tmp := nth i a 0 - nth i b 0) in *.
  pose proof (Z.mod_pos_bound tmp 10 ltac:(lia)). pose proof (Z.div_mod tmp 10 ltac:(lia)).
  assert (EM: cycle_mod tmp BASE = Ok (tmp mod 10)).
  { unfold cycle_mod. rewrite chk32_ok by (zsimp; lia). cbn [bind].
    rewrite chk32_ok by (zsimp; lia). f_equal. zsimp; lia. }
  rewrite EM; cbn [bind]. rewrite vset_ok by lia. cbn [bind].
  replace (floor_div tmp BASE) with (tmp / 10) by reflexivity.
  destruct (Nat.eq_dec (S i) (length a)) as [Elen|Nlen].
  - rewrite vadd_end_strict by (rewrite upd_length; lia). reflexivity.
  - pose proof (Hc (S i) ltac:(lia)) as HSi; cbv beta in *.
    replace (Nat.eqb (S i) i) with false in HSi by (symmetry; apply Nat.eqb_neq; lia).
    rewrite vadd_ok; [|rewrite upd_length; lia|rewrite nth_upd by lia;
      replace (Nat.eqb (S i) i) with false by (symmetry; apply Nat.eqb_neq; lia); zsimp; lia].
    cbn [bind]. rewrite nth_upd by lia.
    replace (Nat.eqb (S i) i) with false by (symmetry; apply Nat.eqb_neq; lia).
    apply IHn; auto; try lia.
    + rewrite !upd_length; auto.
    + intros j Hj. rewrite !upd_length in Hj.
      rewrite nth_upd by (rewrite upd_length; lia). rewrite nth_upd by lia.
      destruct (Nat.eqb_spec j (S i)); subst; [lia|].
      destruct (Nat.eqb_spec j i); subst; [lia|].
      pose proof (Hc j Hj); cbv beta in *. rewrite (proj2 (Nat.eqb_neq j i)) in H1 by auto. auto.
Qed.

Lemma sub_same_strict_ub : forall x y a b, repr x a -> repr y b -> a <> 0 ->
  length (chunks x) = length (chunks y) -> sub_same Strict x y = UB OutOfBounds.
Proof.
  intros x y a b Hx Hy Ha HL. unfold sub_same.
  rewrite (abs_cmp_spec _ _ _ _ Hx Hy). cbn [bind].
  pose proof (repr_digits _ _ Hx) as Dx. pose proof (repr_digits _ _ Hy) as Dy.
  assert (0 < length (chunks x))%nat.
  { pose proof (repr_nonnil _ _ Hx Ha). destruct (chunks x); simpl; [congruence|lia]. }
  assert (C: forall l, Forall digit l -> cells l (fun j => if Nat.eqb j 0 then -1 else 0) (fun _ => 9)).
  { intros l Dl j Hj. pose proof (proj1 (Forall_cells _) Dl j Hj). cbv beta in H0.
    destruct (Nat.eqb j 0); lia. }
  destruct (Z.sgn (Z.abs a - Z.abs b) =? -1); rewrite sub_loop_strict_ub; auto; lia.
Qed.

Lemma int_sub_assign_strict_ub : forall x y a b, repr x a -> repr y b ->
  Z.sgn a * Z.sgn b = 1 -> length (chunks x) = length (chunks y) ->
  int_sub_assign Strict x y = UB OutOfBounds.
Proof.
  intros x y a b Hx Hy Hs HL. unfold int_sub_assign. cbn [add_sub].
  rewrite (repr_sign _ _ Hx), (repr_sign _ _ Hy).
  destruct (Z.eqb_spec (Z.sgn a) 0) as [E|E]; [lia|].
  destruct (Z.eqb_spec (Z.sgn b) 0) as [E'|E']; [lia|].
  destruct (Z.eqb_spec (Z.sgn a) (Z.sgn b)) as [E2|E2]; [|lia]. cbn [negb orb].
  eapply sub_same_strict_ub; eauto. lia.
Qed.

Lemma int_add_assign_strict_ub : forall x y a b, repr x a -> repr y b ->
  Z.sgn a * Z.sgn b = -1 -> length (chunks x) = length (chunks y) ->
  int_add_assign Strict x y = UB OutOfBounds.
Proof.
  intros x y a b Hx Hy Hs HL. unfold int_add_assign. cbn [add_sub].
  pose proof (int_neg_spec _ _ Hy) as Hny.
  rewrite (repr_sign _ _ Hx), (repr_sign _ _ Hy), (repr_sign _ _ Hny).
  destruct (Z.eqb_spec (Z.sgn a) 0) as [E|E]; [lia|].
  destruct (Z.eqb_spec (Z.sgn b) 0) as [E'|E']; [lia|].
  destruct (Z.eqb_spec (Z.sgn (-b)) 0); [lia|].
  destruct (Z.eqb_spec (Z.sgn a) (Z.sgn b)) as [E2|E2]; [lia|]. cbn [negb orb].
  destruct (Z.eqb_spec (Z.sgn a) (Z.sgn (-b))); [|lia]. cbn [negb].
  eapply sub_same_strict_ub; eauto. lia.
Qed.
