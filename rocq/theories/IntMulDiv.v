(** Construction, multiplication, division, remainder, increment. *)
From Coq Require Import ZArith List Bool Lia Arith.
From Verif Require Import Outcome IntModel IntSpec IntBase IntAddSub.
Import ListNotations.
Open Scope Z_scope.

Ltac neqb := rewrite (proj2 (Nat.eqb_neq _ _)) in * by lia.

(** ** Construction from [int] *)

Lemma push_digits_S : forall f n acc, push_digits (S f) n acc =
  if n >? 0 then push_digits f (Z.quot n BASE) (acc ++ [Z.rem n BASE]) else Ok acc.
Proof. reflexivity. Qed.

Lemma push_digits_spec : forall f n acc, 0 <= n < p10 f -> Forall digit acc ->
  exists c, push_digits (S f) n acc = Ok c /\ Forall digit c /\
    val c = val acc + p10 (length acc) * n /\
    (0 < n -> c <> [] /\ last c 1 <> 0) /\ (n = 0 -> c = acc).
Proof.
  induction f; intros n acc Hn Ha; rewrite push_digits_S, Z.gtb_ltb.
  - rewrite p10_0 in Hn. assert (n = 0) by lia. subst. simpl.
    exists acc. repeat split; auto; try lia.
  - destruct (Z.ltb_spec 0 n).
    + rewrite p10_S in Hn. unfold BASE.
      rewrite Z.quot_div_nonneg, Z.rem_mod_nonneg by lia.
      pose proof (Z.mod_pos_bound n 10 ltac:(lia)). pose proof (Z.div_mod n 10 ltac:(lia)).
      edestruct (IHf (n / 10) (acc ++ [n mod 10])) as (c & E & D & V & L1 & L2).
      { lia. }
      { apply Forall_app; split; auto. constructor; auto. unfold digit; lia. }
      exists c. rewrite E. repeat split; auto.
      * rewrite V, val_app, app_length. simpl length. rewrite p10_add, val_cons, val_nil.
        change 1%nat with (S O). rewrite p10_S, p10_0.
        transitivity (val acc + p10 (length acc) * (10 * (n/10) + n mod 10)); [ring|].
        rewrite <- H1. auto.
      * destruct (Z.eq_dec (n / 10) 0) as [Z0|NZ0].
        -- rewrite (L2 Z0). destruct acc; discriminate.
        -- apply L1; lia.
      * destruct (Z.eq_dec (n / 10) 0) as [Z0|NZ0].
        -- rewrite (L2 Z0), last_snoc. lia.
        -- apply L1; lia.
      * lia.
    + assert (n = 0) by lia. subst. exists acc. repeat split; auto; try lia.
Qed.

Lemma int_of_int_spec : forall n, INT_MIN < n <= INT_MAX -> returns (int_of_int n) n.
Proof.
  intros n Hn. unfold int_of_int. zsimp.
  rewrite chk32_ok by (zsimp; lia). cbn [bind].
  edestruct (push_digits_spec 10 (Z.abs n) []) as (c & E & D & V & L1 & L2).
  { change (p10 10) with (10 ^ 10). lia. } { constructor. }
  rewrite E; cbn [bind]. eexists; split; [reflexivity|].
  rewrite val_nil in V. simpl length in V. rewrite p10_0 in V.
  destruct (Z.eqb_spec n 0).
  - subst. simpl in L2. rewrite L2 by auto. apply repr_zero.
  - destruct (L1 ltac:(lia)).
    rewrite Z.gtb_ltb. destruct (Z.ltb_spec 0 n).
    + replace n with (1 * val c) by lia. apply repr_intro; auto.
    + replace n with (-1 * val c) by lia. apply repr_intro; auto.
Qed.

Lemma int_of_int_eq : forall n, INT_MIN < n <= INT_MAX -> exists x, int_of_int n = Ok x /\ repr x n.
Proof. exact int_of_int_spec. Qed.

Lemma int_of_int_min : int_of_int INT_MIN = UB SignedOverflow.
Proof. reflexivity. Qed.

Lemma int0 : int_of_int 0 = Ok (MkInt 0 []). Proof. reflexivity. Qed.
Lemma int1 : int_of_int 1 = Ok (MkInt 1 [1]). Proof. reflexivity. Qed.
Lemma int2 : int_of_int 2 = Ok (MkInt 1 [2]). Proof. reflexivity. Qed.
Lemma int4 : int_of_int 4 = Ok (MkInt 1 [4]). Proof. reflexivity. Qed.
Lemma int10 : int_of_int 10 = Ok (MkInt 1 [0; 1]). Proof. reflexivity. Qed.
Lemma repr1 : repr (MkInt 1 [1]) 1.
Proof. destruct (int_of_int_spec 1) as (r & E & H); [zsimp; lia|]. rewrite int1 in E. inversion E; subst; auto. Qed.
Lemma repr2 : repr (MkInt 1 [2]) 2.
Proof. destruct (int_of_int_spec 2) as (r & E & H); [zsimp; lia|]. rewrite int2 in E. inversion E; subst; auto. Qed.
Lemma repr4 : repr (MkInt 1 [4]) 4.
Proof. destruct (int_of_int_spec 4) as (r & E & H); [zsimp; lia|]. rewrite int4 in E. inversion E; subst; auto. Qed.
Lemma repr10 : repr (MkInt 1 [0; 1]) 10.
Proof. destruct (int_of_int_spec 10) as (r & E & H); [zsimp; lia|]. rewrite int10 in E. inversion E; subst; auto. Qed.

(** ** Number of digits *)

Lemma last_indep : forall (l : list Z) d d', l <> [] -> last l d = last l d'.
Proof.
  induction l; intros; [congruence|]. destruct l; simpl in *; auto. apply IHl; discriminate.
Qed.

Lemma Forall_last : forall l d, Forall digit l -> l <> [] -> digit (last l d).
Proof.
  intros. destruct (exists_last H0) as (l' & x & ->). rewrite last_snoc.
  apply Forall_app in H as [_ H]. inversion H; auto.
Qed.

Lemma int_digits_spec : forall x z, repr x z -> int_digits x = Ok (Z.of_nat (length (chunks x))).
Proof.
  intros x z H. unfold int_digits.
  pose proof (repr_digits _ _ H). pose proof (repr_last _ _ H).
  destruct (chunks x) as [|d l] eqn:E; auto.
  assert (d :: l <> []) by discriminate.
  pose proof (Forall_last _ 1 H0 H2). unfold digit in H3.
  rewrite (last_indep _ 0 1 H2).
  destruct (Z.leb_spec (last (d :: l) 1) 0); [lia|].
  cbn [floor_log10]. destruct (Z.ltb_spec (last (d :: l) 1) 10); [|lia].
  unfold DIGITS_PER_CHUNK. f_equal. lia.
Qed.

Lemma digits_count : forall x z, repr x z -> z <> 0 ->
  10 ^ (Z.of_nat (length (chunks x)) - 1) <= Z.abs z < 10 ^ Z.of_nat (length (chunks x)).
Proof.
  intros. pose proof (repr_bounds _ _ H H0).
  pose proof (repr_nonnil _ _ H H0).
  assert (0 < length (chunks x))%nat by (destruct (chunks x); simpl; [congruence|lia]).
  Transparent p10. unfold p10 in H1. Opaque p10.
  replace (Z.of_nat (length (chunks x)) - 1) with (Z.of_nat (length (chunks x) - 1)) by lia. auto.
Qed.

(** ** Multiplication *)

Lemma mul_inner_spec : forall p n i j ai b c,
  (j + n = length b)%nat -> (i + length b < length c)%nat -> Forall digit b -> digit ai ->
  (forall k, (k < length c)%nat -> 0 <= nth k c 0 <= if Nat.eqb k (i + j) then 18 else 9) ->
  (forall k, (i + length b <= k < length c)%nat -> 0 <= nth k c 0 <= if Nat.eqb k (i + j) then 9 else 0) ->
  exists c', mul_inner p n i j ai b c = Ok c' /\ length c' = length c /\
    val c' = val c + ai * p10 (i + j) * val (skipn j b) /\
    Forall digit c' /\
    (forall k, (i + length b < k < length c)%nat -> nth k c' 0 = 0).
Proof.
  induction n; intros i j ai b c Hn HL Hb Ha Hc Hz; cbn [mul_inner].
  - exists c. repeat split; auto.
    + rewrite val_skipn_all by lia. ring.
    + apply Forall_cells. intros k Hk. destruct (Nat.eq_dec k (i + j)).
      * pose proof (Hz k ltac:(lia)). rewrite e, Nat.eqb_refl in *. lia.
      * pose proof (Hc k ltac:(lia)). rewrite (proj2 (Nat.eqb_neq _ _) n) in *. lia.
    + intros k Hk. pose proof (Hz k ltac:(lia)).
      rewrite (proj2 (Nat.eqb_neq k (i + j))) in * by lia. lia.
  - pose proof (proj1 (Forall_cells b) Hb j ltac:(lia)) as Hbj. cbv beta in Hbj.
    pose proof (Hc (i + j)%nat ltac:(lia)) as H0. rewrite Nat.eqb_refl in H0.
    pose proof (Hc (i + j + 1)%nat ltac:(lia)) as H1.
    rewrite (proj2 (Nat.eqb_neq (i + j + 1) (i + j))) in H1 by lia.
    unfold digit in Ha.
    rewrite vget_ok by lia. cbn [bind].
    assert (0 <= ai * nth j b 0 <= 81) by nia.
    rewrite chk32_ok by (zsimp; lia). cbn [bind].
    rewrite vadd_ok by (zsimp; lia). cbn [bind].
    set (t := nth (i + j) c 0 + ai * nth j b 0) in *.
    rewrite vget_ok by (rewrite upd_length; lia). cbn [bind].
    rewrite nth_upd, Nat.eqb_refl by lia.
    assert (Hq: 0 <= Z.quot t BASE <= 9 /\ 0 <= Z.rem t BASE <= 9 /\ t = 10 * Z.quot t BASE + Z.rem t BASE).
    { zsimp. rewrite Z.quot_div_nonneg, Z.rem_mod_nonneg by lia.
      pose proof (Z.mod_pos_bound t 10). pose proof (Z.div_mod t 10). lia. }
    destruct Hq as (Hq & Hr & Ht).
    set (c1 := upd c (i + j) t).
    assert (N1: nth (i + j + 1) c1 0 = nth (i + j + 1) c 0).
    { unfold c1; rewrite nth_upd by lia. rewrite (proj2 (Nat.eqb_neq (i + j + 1) (i + j))) by lia. auto. }
    assert (L1: length c1 = length c) by apply upd_length.
    rewrite vadd_ok by (rewrite ?N1, ?L1; zsimp; lia). cbn [bind]. rewrite N1.
    set (c2 := upd c1 (i + j + 1) (nth (i + j + 1) c 0 + Z.quot t BASE)).
    assert (L2: length c2 = length c) by (unfold c2; rewrite upd_length; auto).
    assert (N2: nth (i + j) c2 0 = t).
    { unfold c2. rewrite nth_upd by lia. rewrite (proj2 (Nat.eqb_neq (i + j) (i + j + 1))) by lia.
      unfold c1. rewrite nth_upd, Nat.eqb_refl by lia. auto. }
    rewrite vget_ok by lia. cbn [bind]. rewrite N2.
    rewrite vset_ok by lia. cbn [bind].
    set (c3 := upd c2 (i + j) (Z.rem t BASE)).
    assert (L3: length c3 = length c) by (unfold c3; rewrite upd_length; auto).
    assert (N3: forall k, nth k c3 0 = if Nat.eqb k (i + j) then Z.rem t BASE else
                 if Nat.eqb k (i + j + 1) then nth (i + j + 1) c 0 + Z.quot t BASE else nth k c 0).
    { intros k. unfold c3. rewrite nth_upd by lia. destruct (Nat.eqb_spec k (i + j)); auto.
      unfold c2. rewrite nth_upd by lia. destruct (Nat.eqb_spec k (i + j + 1)); auto.
      unfold c1. rewrite nth_upd by lia. rewrite (proj2 (Nat.eqb_neq k (i + j))) by lia. auto. }
    assert (V3: val c3 = val c + ai * nth j b 0 * p10 (i + j)).
    { unfold c3. rewrite val_upd by lia. rewrite N2. unfold c2. rewrite val_upd by lia.
      rewrite N1. unfold c1. rewrite val_upd by lia.
      replace (i + j + 1)%nat with (S (i + j)) by lia. rewrite p10_S.
      replace (Z.rem t BASE) with (t - 10 * Z.quot t BASE) by lia. unfold t. ring. }
    edestruct (IHn i (S j) ai b c3) as (c' & E & L & V & D & Zs); [| | | | | |rewrite E; exists c'].
    + lia.
    + lia.
    + auto.
    + unfold digit; lia.
    + intros k Hk. rewrite N3. pose proof (Hc k ltac:(lia)).
      destruct (Nat.eqb_spec k (i + j)); destruct (Nat.eqb_spec k (i + S j)); try lia.
      * destruct (Nat.eqb_spec k (i + j + 1)); lia.
      * destruct (Nat.eqb_spec k (i + j + 1)); lia.
    + intros k Hk. rewrite N3. pose proof (Hz k ltac:(lia)).
      destruct (Nat.eqb_spec k (i + j)); [lia|].
      destruct (Nat.eqb_spec k (i + S j)); destruct (Nat.eqb_spec k (i + j + 1)); try lia.
      subst k. pose proof (Hz (i + j + 1)%nat ltac:(lia)) as HH.
      rewrite (proj2 (Nat.eqb_neq (i + j + 1) (i + j))) in HH by lia. lia.
    + repeat split; auto; try lia.
      * rewrite V, V3, (val_skipn b j) by lia. replace (i + S j)%nat with (S (i + j)) by lia.
        rewrite p10_S. ring.
      * intros k Hk. apply Zs. lia.
Qed.

Lemma mul_outer_spec : forall p n i a b c,
  (i + n = length a)%nat -> (length c = length a + length b)%nat -> b <> [] ->
  Forall digit a -> Forall digit b -> Forall digit c ->
  (forall k, (i + length b <= k < length c)%nat -> nth k c 0 = 0) ->
  exists c', mul_outer p n i a b c = Ok c' /\ Forall digit c' /\
    val c' = val c + p10 i * val (skipn i a) * val b.
Proof.
  induction n; intros i a b c Hn HL Hb Da Db Dc Hz; cbn [mul_outer].
  - exists c. repeat split; auto. rewrite val_skipn_all by lia. ring.
  - pose proof (proj1 (Forall_cells a) Da i ltac:(lia)) as Hai. cbv beta in Hai.
    rewrite vget_ok by lia. cbn [bind].
    edestruct (mul_inner_spec p (length b) i 0 (nth i a 0) b c) as (c1 & E & L & V & D & Zs); auto.
    + lia.
    + intros k Hk. pose proof (proj1 (Forall_cells c) Dc k Hk). cbv beta in H.
      destruct (Nat.eqb k (i + 0)); lia.
    + intros k Hk. rewrite Hz by lia. destruct (Nat.eqb k (i + 0)); lia.
    + rewrite E; cbn [bind].
      edestruct (IHn (S i) a b c1) as (c' & E' & D' & V'); auto; try lia.
      * intros k Hk. apply Zs. lia.
      * exists c'. repeat split; auto. rewrite V', V, (val_skipn a i), p10_S by lia.
        rewrite Nat.add_0_r. simpl skipn. ring.
Qed.

Lemma int_mul_assign_spec : forall p x y a b, repr x a -> repr y b ->
  returns (int_mul_assign p x y) (a * b).
Proof.
  intros p x y a b Hx Hy. unfold int_mul_assign.
  rewrite (repr_sign _ _ Hx), (repr_sign _ _ Hy).
  destruct (Z.eqb_spec (Z.sgn a) 0); cbn [orb].
  { rewrite int0. eexists; split; [reflexivity|]. replace (a * b) with 0 by nia. apply repr_zero. }
  destruct (Z.eqb_spec (Z.sgn b) 0).
  { rewrite int0. eexists; split; [reflexivity|]. replace (a * b) with 0 by nia. apply repr_zero. }
  pose proof (repr_digits _ _ Hx) as Dx. pose proof (repr_digits _ _ Hy) as Dy.
  edestruct (mul_outer_spec p (length (chunks x)) 0 (chunks x) (chunks y)
               (repeat 0 (length (chunks x) + length (chunks y)))) as (c & E & D & V); auto.
  { apply repeat_length. }
  { eapply repr_nonnil; eauto. lia. }
  { apply repeat0_digits. }
  { intros k Hk. apply nth_repeat. }
  rewrite E; cbn [bind]. eexists; split; [reflexivity|].
  rewrite val_repeat0, p10_0 in V. simpl skipn in V.
  rewrite (repr_val _ _ Hx), (repr_val _ _ Hy) in V.
  replace (a * b) with ((if Z.sgn a =? Z.sgn b then 1 else -1) * val c).
  - apply trim_repr; auto. destruct (_ =? _); auto.
  - rewrite V. destruct (Z.eqb_spec (Z.sgn a) (Z.sgn b)).
    + rewrite <- (Z.abs_sgn a) at 2. rewrite <- (Z.abs_sgn b) at 2. rewrite e.
      assert (Z.sgn b * Z.sgn b = 1) by nia.
      transitivity (Z.abs a * Z.abs b * (Z.sgn b * Z.sgn b)); [rewrite H|]; ring.
    + rewrite <- (Z.abs_sgn a) at 2. rewrite <- (Z.abs_sgn b) at 2.
      assert (Z.sgn a * Z.sgn b = -1) by nia.
      transitivity (Z.abs a * Z.abs b * (Z.sgn a * Z.sgn b)); [rewrite H|]; ring.
Qed.

(** ** Division *)

Lemma repr_shift : forall y b n, repr y b -> b <> 0 ->
  repr (MkInt 1 (repeat 0 n ++ chunks y)) (Z.abs b * p10 n).
Proof.
  intros y b n H Hb.
  pose proof (repr_nonnil _ _ H Hb) as Hn.
  replace (Z.abs b * p10 n) with (1 * val (repeat 0 n ++ chunks y)).
  - apply repr_intro; auto.
    + apply Forall_app; split; [apply repeat0_digits|eauto using repr_digits].
    + destruct (exists_last Hn) as (l & d & E). pose proof (repr_last _ _ H) as HL.
      rewrite E in *. rewrite app_assoc, last_snoc in *. auto.
    + destruct (repeat 0 n); simpl; auto; discriminate.
  - rewrite val_app, val_repeat0, repeat_length, (repr_val _ _ H). ring.
Qed.

Lemma div_digit_spec : forall f this tmp i result N T,
  repr this N -> repr tmp T -> 0 < T -> 0 <= N < Z.of_nat f * T ->
  (i < length result)%nat -> 0 <= nth i result 0 -> nth i result 0 + N / T <= 9 ->
  exists this' result', div_digit Benign f this tmp i result = Ok (this', result') /\
    repr this' (N mod T) /\ length result' = length result /\
    (forall k, nth k result' 0 = if Nat.eqb k i then nth i result 0 + N / T else nth k result 0) /\
    val result' = val result + (N / T) * p10 i.
Proof.
  induction f; intros this tmp i result N T Ht Htmp HT HN Hi H0 H9; [nia|].
  cbn [div_digit]. rewrite (int_ge_spec _ _ _ _ Ht Htmp). cbn [bind].
  destruct (Z.leb_spec T N).
  - assert (ED: N / T = (N - T) / T + 1).
    { replace N with (N - T + 1 * T) at 1 by ring. rewrite Z.div_add by lia. auto. }
    assert (EM: N mod T = (N - T) mod T).
    { replace N with (N - T + 1 * T) at 1 by ring. rewrite Z.mod_add by lia. auto. }
    assert (0 <= (N - T) / T) by (apply Z.div_pos; lia).
    rewrite vadd_ok by (zsimp; lia). cbn [bind].
    destruct (int_sub_assign_spec Benign _ _ _ _ Ht Htmp ltac:(auto)) as (t1 & E1 & R1).
    rewrite E1; cbn [bind].
    edestruct (IHf t1 tmp i (upd result i (nth i result 0 + 1)) (N - T) T) as (t' & r' & E & R & L & C & V); auto.
    + lia.
    + rewrite upd_length; auto.
    + rewrite nth_upd, Nat.eqb_refl by auto. lia.
    + rewrite nth_upd, Nat.eqb_refl by auto. lia.
    + exists t', r'. rewrite E, EM. repeat split; try apply R; auto.
      * rewrite L, upd_length; auto.
      * intros k. rewrite C. rewrite !nth_upd, Nat.eqb_refl by auto. destruct (Nat.eqb k i); lia.
      * rewrite V, val_upd by auto. rewrite ED. ring.
  - exists this, result. rewrite Z.div_small, Z.mod_small in * by lia.
    repeat split; try apply Ht; auto; try lia.
    intros k. destruct (Nat.eqb_spec k i); subst; lia.
Qed.

Lemma div_loop_spec : forall n this y b result N,
  repr this N -> repr y b -> b <> 0 -> 0 <= N < Z.abs b * p10 n ->
  (n <= length result)%nat -> Forall digit result ->
  (forall k, (k < n)%nat -> nth k result 0 = 0) ->
  exists this' result', 
    div_loop Benign n this (MkInt 1 (repeat 0 n ++ chunks y)) result = Ok (this', result') /\
    repr this' (N mod Z.abs b) /\ Forall digit result' /\
    val result' = val result + N / Z.abs b.
Proof.
  induction n; intros this y b result N Ht Hy Hb HN HL HD Hz; cbn [div_loop].
  - rewrite p10_0 in HN. exists this, result. rewrite Z.div_small, Z.mod_small by lia.
    repeat split; try apply Ht; auto; lia.
  - cbn [chunks repeat app erase_first bind sign].
    pose proof (p10_pos n) as Hp.
    set (T := Z.abs b * p10 n).
    assert (HT: 0 < T) by (unfold T; nia).
    assert (HNT: N < 10 * T) by (unfold T; rewrite p10_S in HN; lia).
    assert (Hq: 0 <= N / T < 10).
    { split; [apply Z.div_pos; lia|apply Z.div_lt_upper_bound; lia]. }
    edestruct (div_digit_spec 10 this (MkInt 1 (repeat 0 n ++ chunks y)) n result N T)
      as (t1 & r1 & E & R & L & C & V); auto.
    + apply repr_shift; auto.
    + change (Z.of_nat 10) with 10. lia.
    + rewrite Hz by lia. lia.
    + rewrite Hz by lia. lia.
    + rewrite E; cbn [bind fst snd].
      pose proof (Z.mod_pos_bound N T HT).
      edestruct (IHn t1 y b r1 (N mod T)) as (t' & r' & E' & R' & D' & V'); auto; try lia.
      * apply Forall_cells. intros k Hk. rewrite C. rewrite L in Hk.
        destruct (Nat.eqb k n); [rewrite Hz by lia; lia|].
        apply (proj1 (Forall_cells result) HD k Hk).
      * intros k Hk. rewrite C. rewrite (proj2 (Nat.eqb_neq k n)) by lia. apply Hz; lia.
      * exists t', r'. rewrite E'.
        pose proof (Z.div_mod N T ltac:(lia)) as DM.
        assert (HM: N = (N mod T) + (N / T * p10 n) * Z.abs b) by (unfold T in *; lia).
        assert (EM: N mod Z.abs b = (N mod T) mod Z.abs b).
        { rewrite HM at 1. apply Z.mod_add; lia. }
        assert (EQ: N / Z.abs b = (N mod T) / Z.abs b + N / T * p10 n).
        { rewrite HM at 1. apply Z.div_add; lia. }
        rewrite EM, EQ. repeat split; try apply R'; auto. rewrite V', V. ring.
Qed.

Lemma div_size : forall x y a b, repr x a -> repr y b -> b <> 0 ->
  (length (chunks y) <= length (chunks x))%nat ->
  Z.abs a < Z.abs b * p10 (length (chunks x) - length (chunks y) + 1).
Proof.
  intros x y a b Hx Hy Hb HL.
  pose proof (val_lt _ (repr_digits _ _ Hx)) as H1. rewrite (repr_val _ _ Hx) in H1.
  pose proof (repr_bounds _ _ Hy Hb) as [H2 _].
  pose proof (repr_nonnil _ _ Hy Hb).
  assert (0 < length (chunks y))%nat by (destruct (chunks y); simpl; [congruence|lia]).
  replace (length (chunks x)) with ((length (chunks y) - 1) + (length (chunks x) - length (chunks y) + 1))%nat in H1 at 1 by lia.
  rewrite p10_add in H1.
  pose proof (p10_pos (length (chunks x) - length (chunks y) + 1)). nia.
Qed.

Lemma repr_abs_obj : forall x a, repr x a -> a <> 0 -> repr (MkInt 1 (chunks x)) (Z.abs a).
Proof.
  intros. rewrite <- (repr_val _ _ H). rewrite <- (Z.mul_1_l (val _)).
  apply repr_intro; eauto using repr_digits, repr_last, repr_nonnil.
Qed.

Lemma quot_cases : forall a b, b <> 0 ->
  Z.quot a b = (if Z.sgn a =? Z.sgn b then 1 else -1) * (Z.abs a / Z.abs b).
Proof.
  intros a b Hb. rewrite <- Z.quot_div_nonneg by lia.
  destruct (Z.eqb_spec (Z.sgn a) (Z.sgn b)).
  - destruct (Z.lt_ge_cases b 0).
    + rewrite !Z.abs_neq by lia. rewrite Z.quot_opp_opp by lia. lia.
    + rewrite !Z.abs_eq by lia. lia.
  - destruct (Z.lt_ge_cases b 0).
    + rewrite (Z.abs_neq b), (Z.abs_eq a) by lia. rewrite Z.quot_opp_r by lia. lia.
    + destruct (Z.eq_dec a 0).
      * subst. change (Z.abs 0) with 0. rewrite (Z.quot_0_l b) by lia. rewrite (Z.quot_0_l (Z.abs b)) by lia. lia.
      * rewrite (Z.abs_neq a), (Z.abs_eq b) by lia. rewrite Z.quot_opp_l by lia. lia.
Qed.

Lemma div_core_spec : forall x y a b, repr x a -> repr y b -> b <> 0 ->
  returns (div_core Benign x y) (Z.quot a b).
Proof.
  intros x y a b Hx Hy Hb. unfold div_core.
  rewrite (int_digits_spec _ _ Hx), (int_digits_spec _ _ Hy). cbn [bind].
  destruct (Z.ltb_spec (Z.of_nat (length (chunks x))) (Z.of_nat (length (chunks y)))).
  - rewrite int0. eexists; split; [reflexivity|].
    assert (Z.abs a < Z.abs b).
    { destruct (Z.lt_ge_cases (Z.abs a) (Z.abs b)); auto.
      pose proof (repr_len_le _ _ _ _ Hy Hx ltac:(lia)). lia. }
    rewrite quot_cases, Z.div_small, Z.mul_0_r by lia. apply repr_zero.
  - assert (Hne: a <> 0).
    { intros ->. apply repr_zero_inv in Hx. subst x. simpl in H.
      pose proof (repr_nonnil _ _ Hy Hb). destruct (chunks y); simpl in *; [congruence|lia]. }
    set (size := (length (chunks x) - length (chunks y) + 1)%nat).
    edestruct (div_loop_spec size (MkInt 1 (chunks x)) y b (repeat 0 size) (Z.abs a)) as (t & r & E & R & D & V).
    + apply repr_abs_obj; auto.
    + auto.
    + auto.
    + split; [lia|]. apply div_size; auto. lia.
    + rewrite repeat_length; auto.
    + apply repeat0_digits.
    + intros; apply nth_repeat.
    + rewrite E. cbn [bind snd]. eexists; split; [reflexivity|].
      rewrite (repr_sign _ _ Hx), (repr_sign _ _ Hy). rewrite quot_cases by auto.
      rewrite val_repeat0 in V. replace (Z.abs a / Z.abs b) with (val r) by lia.
      apply trim_repr; auto. destruct (_ =? _); auto.
Qed.

Lemma int_div_assign_spec : forall x y a b, repr x a -> repr y b -> b <> 0 ->
  exists r, int_div_assign Benign x y = (Ok tt, r) /\ repr r (Z.quot a b).
Proof.
  intros. unfold int_div_assign, check_zero. rewrite (repr_sign _ _ H0).
  destruct (Z.eqb_spec (Z.sgn b) 0); [lia|].
  destruct (div_core_spec x y a b) as (r & E & R); auto. rewrite E. eauto.
Qed.

Lemma int_div_assign_zero : forall p x y, repr y 0 ->
  int_div_assign p x y = (Throw DivideByZero, x).
Proof. intros. apply repr_zero_inv in H. subst. reflexivity. Qed.

Lemma int_div_spec : forall x y a b, repr x a -> repr y b -> b <> 0 ->
  returns (int_div Benign x y) (Z.quot a b).
Proof.
  intros. unfold int_div. destruct (int_div_assign_spec x y a b) as (r & E & R); auto.
  rewrite E. exists r; auto.
Qed.

Lemma int_div_zero : forall p x y, repr y 0 -> int_div p x y = Throw DivideByZero.
Proof. intros. unfold int_div. rewrite int_div_assign_zero; auto. Qed.

(** ** Remainder *)

Lemma mod_digit_spec : forall f this tmp N T,
  repr this N -> repr tmp T -> 0 < T -> 0 <= N < Z.of_nat f * T ->
  returns (mod_digit Benign f this tmp) (N mod T).
Proof.
  induction f; intros this tmp N T Ht Htmp HT HN; [nia|].
  cbn [mod_digit]. rewrite (int_ge_spec _ _ _ _ Ht Htmp). cbn [bind].
  destruct (Z.leb_spec T N).
  - assert (EM: N mod T = (N - T) mod T).
    { replace N with (N - T + 1 * T) at 1 by ring. rewrite Z.mod_add by lia. auto. }
    destruct (int_sub_assign_spec Benign _ _ _ _ Ht Htmp ltac:(auto)) as (t1 & E1 & R1).
    rewrite E1; cbn [bind]. rewrite EM. apply IHf; auto. lia.
  - rewrite Z.mod_small by lia. exists this; auto.
Qed.

Lemma mod_loop_spec : forall n this y b N,
  repr this N -> repr y b -> b <> 0 -> 0 <= N < Z.abs b * p10 n ->
  returns (mod_loop Benign n this (MkInt 1 (repeat 0 n ++ chunks y))) (N mod Z.abs b).
Proof.
  induction n; intros this y b N Ht Hy Hb HN; cbn [mod_loop].
  - rewrite p10_0 in HN. rewrite Z.mod_small by lia. exists this; auto.
  - cbn [chunks repeat app erase_first bind sign].
    pose proof (p10_pos n) as Hp.
    set (T := Z.abs b * p10 n).
    assert (HT: 0 < T) by (unfold T; nia).
    assert (HNT: N < 10 * T) by (unfold T; rewrite p10_S in HN; lia).
    destruct (mod_digit_spec 10 this (MkInt 1 (repeat 0 n ++ chunks y)) N T) as (t1 & E & R); auto.
    + apply repr_shift; auto.
    + change (Z.of_nat 10) with 10. lia.
    + rewrite E; cbn [bind].
      pose proof (Z.mod_pos_bound N T HT).
      assert (EM: N mod Z.abs b = (N mod T) mod Z.abs b).
      { pose proof (Z.div_mod N T ltac:(lia)) as DM.
        assert (HM: N = (N mod T) + (N / T * p10 n) * Z.abs b) by (unfold T in *; lia).
        rewrite HM at 1. apply Z.mod_add; lia. }
      rewrite EM. apply IHn; auto. 
Qed.

Lemma fewer_digits_lt : forall x y a b, repr x a -> repr y b ->
  (length (chunks x) < length (chunks y))%nat -> Z.abs a < Z.abs b.
Proof.
  intros x y a b Hx Hy HL. destruct (Z.lt_ge_cases (Z.abs a) (Z.abs b)); auto.
  pose proof (repr_len_le _ _ _ _ Hy Hx ltac:(lia)). lia.
Qed.

Lemma mod_core_spec : forall x y a b, repr x a -> repr y b -> b <> 0 ->
  returns (mod_core Benign x y)
    (if Nat.ltb (length (chunks x)) (length (chunks y)) then a else Z.abs a mod Z.abs b).
Proof.
  intros x y a b Hx Hy Hb. unfold mod_core.
  rewrite (int_digits_spec _ _ Hx), (int_digits_spec _ _ Hy). cbn [bind].
  destruct (Z.ltb_spec (Z.of_nat (length (chunks x))) (Z.of_nat (length (chunks y))));
  destruct (Nat.ltb_spec (length (chunks x)) (length (chunks y))); try lia.
  - exists x; auto.
  - assert (Hne: a <> 0).
    { intros ->. apply repr_zero_inv in Hx. subst x. simpl in H.
      pose proof (repr_nonnil _ _ Hy Hb). destruct (chunks y); simpl in *; [congruence|lia]. }
    set (size := (length (chunks x) - length (chunks y) + 1)%nat).
    destruct (mod_loop_spec size (MkInt 1 (chunks x)) y b (Z.abs a)) as (t & E & R); auto.
    + apply repr_abs_obj; auto.
    + split; [lia|]. apply div_size; auto.
    + rewrite E. cbn [bind]. rewrite trim_canonical_id by (eapply repr_canonical; eauto). exists t; auto.
Qed.

Lemma rem_value_len : forall x y a b, repr x a -> repr y b -> b <> 0 ->
  rem_value a b (if Nat.ltb (length (chunks x)) (length (chunks y)) then a else Z.abs a mod Z.abs b).
Proof.
  intros x y a b Hx Hy Hb. pose proof (digits_count _ _ Hy Hb) as By.
  destruct (Nat.ltb_spec (length (chunks x)) (length (chunks y))).
  - split; auto. intros N. exfalso. apply N.
    exists (Z.of_nat (length (chunks y)) - 1). split; [lia|]. split; [|lia].
    destruct (Z.eq_dec a 0).
    + subst. simpl. apply Z.pow_pos_nonneg; lia.
    + pose proof (digits_count _ _ Hx n) as Bx.
      eapply Z.lt_le_trans; [apply Bx|]. apply Z.pow_le_mono_r; lia.
  - split; auto. intros (k & Hk & K1 & K2). exfalso.
    assert (a <> 0).
    { intros ->. apply repr_zero_inv in Hx. subst x. simpl in H.
      pose proof (repr_nonnil _ _ Hy Hb). destruct (chunks y); simpl in *; [congruence|lia]. }
    pose proof (digits_count _ _ Hx H0) as Bx.
    assert (k < Z.of_nat (length (chunks y))) by (apply (Z.pow_lt_mono_r_iff 10); lia).
    assert (Z.of_nat (length (chunks x)) - 1 < k).
    { apply (Z.pow_lt_mono_r_iff 10); lia. }
    lia.
Qed.

Lemma int_mod_assign_spec : forall x y a b, repr x a -> repr y b -> b <> 0 ->
  exists r z, int_mod_assign Benign x y = (Ok tt, r) /\ repr r z /\ rem_value a b z.
Proof.
  intros x y a b Hx Hy Hb. unfold int_mod_assign, check_zero. rewrite (repr_sign _ _ Hy).
  destruct (Z.eqb_spec (Z.sgn b) 0); [lia|].
  destruct (mod_core_spec x y a b) as (r & E & R); auto. rewrite E.
  eexists _, _. split; [reflexivity|]. split; [exact R|]. apply rem_value_len; auto.
Qed.

Lemma int_mod_assign_zero : forall p x y, repr y 0 ->
  int_mod_assign p x y = (Throw DivideByZero, x).
Proof. intros. apply repr_zero_inv in H. subst. reflexivity. Qed.

Lemma int_mod_zero : forall p x y, repr y 0 -> int_mod p x y = Throw DivideByZero.
Proof. intros. unfold int_mod. rewrite int_mod_assign_zero; auto. Qed.

Lemma int_mod_spec : forall x y a b, repr x a -> repr y b -> b <> 0 ->
  exists z, returns (int_mod Benign x y) z /\ rem_value a b z.
Proof.
  intros. unfold int_mod. destruct (int_mod_assign_spec x y a b) as (r & z & E & R & V); auto.
  rewrite E. exists z. split; auto. exists r; auto.
Qed.

Lemma rem_value_nonneg : forall a b z, rem_value a b z -> 0 <= a -> b <> 0 -> z = a mod Z.abs b.
Proof.
  intros a b z [H1 H2] Ha Hb.
  destruct (Z.lt_ge_cases (Z.abs a) (Z.abs b)).
  - rewrite (Z.abs_eq a) in * by lia. rewrite (Z.mod_small a) in * by lia.
    destruct (Z.eq_dec z a) as [|N]; auto.
  - rewrite (Z.abs_eq a) in * by lia. apply H2. intros (k & _ & K). lia.
Qed.

Lemma int_mod_nonneg : forall x y a b, repr x a -> repr y b -> b <> 0 -> 0 <= a ->
  returns (int_mod Benign x y) (a mod Z.abs b).
Proof.
  intros. destruct (int_mod_spec x y a b) as (z & R & V); auto.
  rewrite <- (rem_value_nonneg a b z); auto.
Qed.

(** ** Increment and decrement of magnitudes *)

Lemma scan_eq_spec : forall f l d i k, (i <= k < length l)%nat -> nth k l 0 <> d ->
  (length l - i < f)%nat ->
  exists r, scan_eq f l d i = Ok r /\ (i <= r < length l)%nat /\ nth r l 0 <> d /\
    (forall j, (i <= j < r)%nat -> nth j l 0 = d).
Proof.
  induction f; intros l d i k Hk Hd Hf; [lia|]. cbn [scan_eq].
  rewrite vget_ok by lia. cbn [bind]. destruct (Z.eqb_spec (nth i l 0) d).
  - assert (i <> k) by congruence.
    destruct (IHf l d (S i) k) as (r & E & R & N & J); try lia; auto.
    exists r. repeat split; auto; try lia. intros j Hj.
    destruct (Nat.eq_dec j i); [subst; auto|apply J; lia].
  - exists i. repeat split; auto; try lia.
Qed.

Lemma fill_below_spec : forall i v d e, (i <= length v)%nat ->
  (forall j, (j < i)%nat -> nth j v 0 = e) ->
  exists v', fill_below i v d = Ok v' /\ length v' = length v /\
    (forall j, nth j v' 0 = if Nat.ltb j i then d else nth j v 0) /\
    9 * val v' = 9 * val v + (d - e) * (p10 i - 1).
Proof.
  induction i; intros v d e Hi He; cbn [fill_below].
  - exists v. rewrite p10_0. repeat split; auto; lia.
  - rewrite vset_ok by lia. cbn [bind].
    destruct (IHi (upd v i d) d e) as (v' & E & L & C & V).
    + rewrite upd_length; lia.
    + intros j Hj. rewrite nth_upd by lia. rewrite (proj2 (Nat.eqb_neq j i)) by lia. apply He; lia.
    + exists v'. repeat split; auto.
      * rewrite L, upd_length; auto.
      * intros j. rewrite C. rewrite nth_upd by lia.
        destruct (Nat.ltb_spec j i), (Nat.ltb_spec j (S i)), (Nat.eqb_spec j i); auto; lia.
      * rewrite V, val_upd by lia. rewrite He by lia. rewrite p10_S. ring.
Qed.

Lemma sgn_pm1 : forall a, a <> 0 -> Z.sgn a = 1 \/ Z.sgn a = -1.
Proof. intros. lia. Qed.

Lemma abs_inc_spec : forall x a, repr x a -> a <> 0 -> returns (abs_inc x) (a + Z.sgn a).
Proof.
  intros x a H Ha. unfold abs_inc. set (v := chunks x ++ [0]).
  pose proof (repr_digits _ _ H) as Dx.
  assert (Lv: length v = S (length (chunks x))) by (unfold v; rewrite app_length; simpl; lia).
  assert (Dv: Forall digit v).
  { apply Forall_app; split; auto. constructor; auto. unfold digit; lia. }
  assert (Vv: val v = Z.abs a).
  { unfold v. rewrite val_app, val_cons, val_nil, (repr_val _ _ H). lia. }
  destruct (scan_eq_spec (S (length v)) v (BASE - 1) 0 (length (chunks x))) as (i & E & Hi & N & J).
  { lia. } { unfold v. rewrite app_nth2, Nat.sub_diag by lia. simpl. unfold BASE; lia. } { lia. }
  rewrite E; cbn [bind].
  pose proof (proj1 (Forall_cells v) Dv i ltac:(lia)) as Ci. cbv beta in Ci.
  rewrite vadd_ok by (zsimp; lia). cbn [bind].
  destruct (fill_below_spec i (upd v i (nth i v 0 + 1)) 0 (BASE - 1)) as (v2 & E2 & L2 & C2 & V2).
  { rewrite upd_length; lia. }
  { intros j Hj. rewrite nth_upd by lia. rewrite (proj2 (Nat.eqb_neq j i)) by lia. apply J; lia. }
  rewrite E2; cbn [bind]. eexists; split; [reflexivity|].
  rewrite val_upd in V2 by lia. unfold BASE in *.
  rewrite (repr_sign _ _ H).
  replace (a + Z.sgn a) with (Z.sgn a * val v2).
  - apply trim_repr; [|apply sgn_pm1; auto]. apply Forall_cells. intros j Hj.
    rewrite C2. destruct (Nat.ltb_spec j i); [lia|].
    rewrite nth_upd by lia. destruct (Nat.eqb_spec j i); [subst; lia|].
    rewrite L2, upd_length in Hj. apply (proj1 (Forall_cells v) Dv j Hj).
  - assert (val v2 = Z.abs a + 1) by lia. rewrite H0. 
    rewrite Z.mul_add_distr_l, (Z.mul_comm _ (Z.abs a)), Z.abs_sgn. lia.
Qed.

Lemma abs_dec_spec : forall x a, repr x a -> a <> 0 -> returns (abs_dec x) (a - Z.sgn a).
Proof.
  intros x a H Ha. unfold abs_dec. set (v := chunks x).
  pose proof (repr_digits _ _ H) as Dv. fold v in Dv.
  pose proof (repr_nonnil _ _ H Ha) as Nv. fold v in Nv.
  assert (Vv: val v = Z.abs a) by apply (repr_val _ _ H).
  destruct (exists_last Nv) as (l & d & Ev).
  assert (Hd: d <> 0).
  { pose proof (repr_last _ _ H) as HL. fold v in HL. rewrite Ev, last_snoc in HL. auto. }
  destruct (scan_eq_spec (S (length v)) v 0 0 (length l)) as (i & E & Hi & N & J).
  { rewrite Ev, app_length; simpl; lia. } { rewrite Ev, app_nth2, Nat.sub_diag by lia. simpl; auto. } { lia. }
  rewrite E; cbn [bind].
  pose proof (proj1 (Forall_cells v) Dv i ltac:(lia)) as Ci. cbv beta in Ci.
  rewrite vadd_ok by (zsimp; lia). cbn [bind].
  destruct (fill_below_spec i (upd v i (nth i v 0 + -1)) (BASE - 1) 0) as (v2 & E2 & L2 & C2 & V2).
  { rewrite upd_length; lia. }
  { intros j Hj. rewrite nth_upd by lia. rewrite (proj2 (Nat.eqb_neq j i)) by lia. apply J; lia. }
  rewrite E2; cbn [bind]. eexists; split; [reflexivity|].
  rewrite val_upd in V2 by lia. unfold BASE in *.
  rewrite (repr_sign _ _ H).
  replace (a - Z.sgn a) with (Z.sgn a * val v2).
  - apply trim_repr; [|apply sgn_pm1; auto]. apply Forall_cells. intros j Hj.
    rewrite C2. destruct (Nat.ltb_spec j i); [lia|].
    rewrite nth_upd by lia. destruct (Nat.eqb_spec j i); [subst; lia|].
    rewrite L2, upd_length in Hj. apply (proj1 (Forall_cells v) Dv j Hj).
  - assert (val v2 = Z.abs a - 1) by lia. rewrite H0. 
    rewrite Z.mul_sub_distr_l, (Z.mul_comm _ (Z.abs a)), Z.abs_sgn. lia.
Qed.

Lemma int_inc_spec : forall x a, repr x a -> returns (int_inc x) (a + 1).
Proof.
  intros x a H. unfold int_inc. rewrite (repr_sign _ _ H).
  destruct (Z.eqb_spec (Z.sgn a) 0).
  - assert (a = 0) by lia. subst. apply repr_zero_inv in H. subst x. simpl.
    eexists; split; [reflexivity|apply repr1].
  - destruct (Z.eqb_spec (Z.sgn a) 1).
    + replace (a + 1) with (a + Z.sgn a) by lia. apply abs_inc_spec; auto; lia.
    + replace (a + 1) with (a - Z.sgn a) by lia. apply abs_dec_spec; auto; lia.
Qed.

Lemma int_dec_spec : forall x a, repr x a -> returns (int_dec x) (a - 1).
Proof.
  intros x a H. unfold int_dec. rewrite (repr_sign _ _ H).
  destruct (Z.eqb_spec (Z.sgn a) 0).
  - assert (a = 0) by lia. subst. apply repr_zero_inv in H. subst x. simpl.
    eexists; split; [reflexivity|]. apply (int_neg_spec _ _ repr1).
  - destruct (Z.eqb_spec (Z.sgn a) 1).
    + replace (a - 1) with (a - Z.sgn a) by lia. apply abs_dec_spec; auto; lia.
    + replace (a - 1) with (a + Z.sgn a) by lia. apply abs_inc_spec; auto; lia.
Qed.
