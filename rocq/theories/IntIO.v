(** String construction, printing, conversion to built-in integers, random. *)
From Coq Require Import ZArith List Bool Lia Arith Ascii.
From Verif Require Import Outcome IntModel IntSpec IntBase IntAddSub IntMulDiv.
Import ListNotations.
Open Scope Z_scope.

(** ** Characters *)

Lemma char_cases : forall P : ascii -> Prop,
  (forall b0 b1 b2 b3 b4 b5 b6 b7, P (Ascii b0 b1 b2 b3 b4 b5 b6 b7)) -> forall c, P c.
Proof. intros P H []. apply H. Qed.

Lemma digit_of_spec : forall c,
  digit_of c = if is_digit_char c then Some (code c - 48) else None.
Proof. intros [[] [] [] [] [] [] [] []]; reflexivity. Qed.

Lemma digit_of_range : forall c d, digit_of c = Some d -> 0 <= d <= 9.
Proof.
  intros c d. rewrite digit_of_spec. unfold is_digit_char.
  destruct (Z.leb_spec 48 (code c)); destruct (Z.leb_spec (code c) 57); simpl; intros E; inversion E; lia.
Qed.

Lemma is_sign_spec : forall c, is_sign_char c = true <-> c = "+"%char \/ c = "-"%char.
Proof. 
  intros [[] [] [] [] [] [] [] []]; split; intros H; try (vm_compute in H; discriminate H); auto;
  destruct H as [H|H]; try discriminate H; reflexivity.
Qed.

Lemma digit_char_spec : forall d, 0 <= d <= 9 -> digit_of (digit_char d) = Some d.
Proof.
  intros d H. assert (d = 0 \/ d = 1 \/ d = 2 \/ d = 3 \/ d = 4 \/ d = 5 \/ d = 6 \/ d = 7 \/ d = 8 \/ d = 9) by lia.
  repeat (destruct H0 as [->|H0]; [reflexivity|]). subst; reflexivity.
Qed.

(** ** String constructor *)

Definition dvals (ds : list ascii) : list Z := map (fun c => code c - 48) ds.

Lemma fill_chunks_spec : forall ds i total v tl,
  v = repeat 0 (length ds) ++ tl ->
  fill_chunks ds i total 0 (Z.of_nat (length ds) - 1) v = Ok (rev (dvals ds) ++ tl).
Proof.
  induction ds; intros i total v tl Hv; cbn [fill_chunks]; [subst; auto|].
  unfold DIGITS_PER_CHUNK. rewrite !Z.rem_1_r. rewrite Z.eqb_refl.
  replace (Z.to_nat (Z.of_nat (length (a :: ds)) - 1)) with (length ds) by (simpl length; lia).
  assert (Hl: (length ds < length v)%nat).
  { subst v. rewrite app_length, repeat_length. simpl; lia. }
  rewrite vset_ok by auto. cbn [bind].
  replace (Z.of_nat (length (a :: ds)) - 1 - 1) with (Z.of_nat (length ds) - 1) by (simpl length; lia).
  rewrite (IHds _ _ _ ((code a - 48) :: tl)).
  - simpl. rewrite <- app_assoc. auto.
  - rewrite Hv. change (repeat 0 (length (a :: ds))) with (0 :: repeat 0 (length ds)).
    rewrite Z.mul_0_l, Z.add_0_l. clear. generalize (code a - 48). intros z.
    induction (length ds); simpl; auto. f_equal; auto.
Qed.

Lemma dec_of_forallb : forall ds acc,
  (forallb is_digit_char ds = true -> 
     dec_of acc ds = Some (fold_left (fun a c => 10 * a + (code c - 48)) ds acc)) /\
  (forallb is_digit_char ds = false -> dec_of acc ds = None).
Proof.
  induction ds; intros; simpl; [split; auto; discriminate|].
  rewrite digit_of_spec. destruct (is_digit_char a); simpl; [apply IHds|split; auto; discriminate].
Qed.

Lemma val_rev_fold : forall ds acc,
  fold_left (fun a c => 10 * a + (code c - 48)) ds acc = val (rev (dvals ds)) + acc * p10 (length ds).
Proof.
  induction ds; intros; cbn [fold_left dvals map rev length]; [rewrite p10_0, val_nil; lia|].
  rewrite IHds, val_app, val_cons, val_nil, rev_length, p10_S. unfold dvals. rewrite map_length. ring.
Qed.

Lemma dvals_digits : forall ds, forallb is_digit_char ds = true -> Forall digit (rev (dvals ds)).
Proof.
  intros. apply Forall_rev. unfold dvals. apply Forall_map. apply Forall_forall. intros c Hc.
  rewrite forallb_forall in H. apply H in Hc. pose proof (digit_of_spec c). rewrite Hc in H0.
  apply digit_of_range in H0. auto.
Qed.

Lemma int_of_chars_ok : forall cs z, literal cs = Some z -> returns (int_of_chars cs) z.
Proof.
  intros cs z H. unfold int_of_chars.
  assert (Hcore: forall ds s, forallb is_digit_char ds = true -> s = 1 \/ s = -1 ->
     returns (v <- fill_chunks ds 0 (Z.of_nat (length ds)) 0 (Z.of_nat (length ds) - 1) (repeat 0 (length ds)) ;;
              Ok (trim (MkInt s v))) (s * fold_left (fun a c => 10 * a + (code c - 48)) ds 0)).
  { intros ds s Hd Hs. rewrite (fill_chunks_spec _ _ _ _ []) by (rewrite app_nil_r; auto).
    cbn [bind]. rewrite app_nil_r. eexists; split; [reflexivity|].
    rewrite val_rev_fold. rewrite Z.mul_0_l, Z.add_0_r. apply trim_repr; auto. apply dvals_digits; auto. }
  destruct cs as [|c cs']; [discriminate|].
  destruct (is_sign_char c) eqn:Sg.
  - pose proof Sg as Sg'. apply is_sign_spec in Sg' as [->| ->]; cbn [literal] in H;
    destruct cs' as [|c2 cs2]; try discriminate;
    unfold is_integer; rewrite Sg.
    + destruct (forallb is_digit_char (c2 :: cs2)) eqn:FB.
      * destruct (dec_of_forallb (c2 :: cs2) 0) as [K _]. rewrite (K FB) in H. inversion H; subst z.
        cbn [negb]. change (code "+" =? 45) with false.
        rewrite <- (Z.mul_1_l (fold_left _ _ _)). apply Hcore; auto.
      * destruct (dec_of_forallb (c2 :: cs2) 0) as [_ K]. rewrite (K FB) in H. discriminate.
    + destruct (forallb is_digit_char (c2 :: cs2)) eqn:FB.
      * destruct (dec_of_forallb (c2 :: cs2) 0) as [K _]. rewrite (K FB) in H. cbn [option_map] in H. inversion H; subst z.
        cbn [negb]. change (code "-" =? 45) with true.
        rewrite Z.opp_eq_mul_m1, Z.mul_comm. apply Hcore; auto.
      * destruct (dec_of_forallb (c2 :: cs2) 0) as [_ K]. rewrite (K FB) in H. discriminate.
  - assert (HL: literal (c :: cs') = dec_of 0 (c :: cs')).
    { clear - Sg. revert Sg. destruct c as [[] [] [] [] [] [] [] []]; intros Sg; try reflexivity; vm_compute in Sg; discriminate. }
    rewrite HL in H. unfold is_integer. rewrite Sg.
    destruct (forallb is_digit_char (c :: cs')) eqn:FB.
    + destruct (dec_of_forallb (c :: cs') 0) as [K _]. rewrite (K FB) in H. inversion H; subst z.
      cbn [negb].
      assert (code c =? 45 = false).
      { unfold is_sign_char in Sg. apply orb_false_iff in Sg. tauto. }
      rewrite H0. 
      rewrite <- (Z.mul_1_l (fold_left _ _ _)). apply Hcore; auto.
    + destruct (dec_of_forallb (c :: cs') 0) as [_ K]. rewrite (K FB) in H. discriminate.
Qed.

Lemma int_of_chars_bad : forall cs, literal cs = None -> int_of_chars cs = Throw WrongIntegerLiteral.
Proof.
  intros cs H. unfold int_of_chars.
  assert (is_integer cs = false); [|rewrite H0; auto].
  destruct cs as [|c cs']; auto. unfold is_integer.
  destruct (is_sign_char c) eqn:Sg.
  - destruct cs' as [|c2 cs2]; auto.
    destruct (forallb is_digit_char (c2 :: cs2)) eqn:FB; auto.
    destruct (dec_of_forallb (c2 :: cs2) 0) as [K _].
    apply is_sign_spec in Sg as [->| ->]; cbn [literal] in H; rewrite (K FB) in H; discriminate.
  - assert (HL: literal (c :: cs') = dec_of 0 (c :: cs')).
    { clear - Sg. revert Sg. destruct c as [[] [] [] [] [] [] [] []]; intros Sg; try reflexivity; vm_compute in Sg; discriminate. }
    rewrite HL in H.
    destruct (forallb is_digit_char (c :: cs')) eqn:FB; auto.
    destruct (dec_of_forallb (c :: cs') 0) as [K _]. rewrite (K FB) in H. discriminate.
Qed.

(** ** Printing *)

Lemma dec_of_print : forall l acc, Forall digit l ->
  dec_of acc (map digit_char (rev l)) = Some (val l + acc * p10 (length l)).
Proof.
  induction l using rev_ind; intros acc H; [simpl; rewrite p10_0; f_equal; lia|].
  apply Forall_app in H as [H1 H2]. inversion H2; subst.
  rewrite rev_app_distr. cbn [rev app map dec_of].
  rewrite digit_char_spec by auto. rewrite IHl by auto. f_equal.
  rewrite val_app, val_cons, val_nil, app_length. simpl length. rewrite p10_add.
  change 1%nat with (S O). rewrite p10_S, p10_0. ring.
Qed.

Lemma digit_char_not_sign : forall d, 0 <= d <= 9 -> is_sign_char (digit_char d) = false.
Proof.
  intros d H. assert (d = 0 \/ d = 1 \/ d = 2 \/ d = 3 \/ d = 4 \/ d = 5 \/ d = 6 \/ d = 7 \/ d = 8 \/ d = 9) by lia.
  repeat (destruct H0 as [->|H0]; [reflexivity|]). subst; reflexivity.
Qed.

Lemma literal_digits : forall c ds, is_sign_char c = false -> literal (c :: ds) = dec_of 0 (c :: ds).
Proof.
  intros c ds Sg. destruct c as [[] [] [] [] [] [] [] []]; try reflexivity; vm_compute in Sg; discriminate.
Qed.

Lemma int_print_literal : forall x z, repr x z -> literal (int_print x) = Some z.
Proof.
  intros x z H. unfold int_print. rewrite (repr_sign _ _ H).
  destruct (Z.eqb_spec (Z.sgn z) 0).
  { simpl. f_equal; lia. }
  pose proof (repr_digits _ _ H) as D. pose proof (repr_val _ _ H) as V.
  assert (N: chunks x <> []) by (eapply repr_nonnil; eauto; lia).
  pose proof (dec_of_print (chunks x) 0 D) as P. rewrite Z.mul_0_l, Z.add_0_r, V in P.
  destruct (exists_last N) as (l & d & E).
  assert (Hd: 0 <= d <= 9).
  { rewrite E in D. apply Forall_app in D as [_ D]. inversion D; auto. }
  rewrite E in P |- *. rewrite rev_app_distr in *. cbn [rev app map] in *.
  destruct (Z.eqb_spec (Z.sgn z) (-1)).
  - cbn [app literal]. rewrite P. simpl. f_equal. lia.
  - cbn [app]. rewrite literal_digits by (apply digit_char_not_sign; auto). rewrite P. f_equal. lia.
Qed.

Lemma int_print_usual : forall x z, repr x z -> usual_notation (int_print x).
Proof.
  intros x z H. unfold int_print. rewrite (repr_sign _ _ H).
  destruct (Z.eqb_spec (Z.sgn z) 0); [left; auto|right].
  pose proof (repr_digits _ _ H) as D.
  assert (N: chunks x <> []) by (eapply repr_nonnil; eauto; lia).
  destruct (exists_last N) as (l & d & E). pose proof (repr_last _ _ H) as HL.
  rewrite E, last_snoc in HL. rewrite E in D.
  apply Forall_app in D as [D1 D2]. inversion D2; subst.
  rewrite E, rev_app_distr. cbn [rev app map].
  exists (digit_char d), (map digit_char (rev l)). repeat split.
  - destruct (Z.sgn z =? -1); auto.
  - exists d. split; auto. apply digit_char_spec; auto.
  - apply Forall_map, Forall_rev. eapply Forall_impl; [|exact D1].
    intros a Ha. cbv beta. rewrite digit_char_spec by auto. discriminate.
Qed.

Lemma int_print_roundtrip : forall x, canonical x -> int_of_chars (int_print x) = Ok x.
Proof.
  intros x H. apply returns_unique with (value x).
  - apply int_of_chars_ok. apply int_print_literal. split; auto.
  - split; auto.
Qed.

(** ** Conversion to built-in integers *)

Lemma val_firstn_S : forall c n, (n < length c)%nat ->
  val (firstn (S n) c) = val (firstn n c) + nth n c 0 * p10 n.
Proof.
  induction c; intros; simpl length in *; [lia|].
  destruct n; cbn [firstn nth]; rewrite !val_cons.
  - rewrite val_nil, p10_0. lia.
  - cbn [firstn] in IHc. rewrite IHc by lia. rewrite p10_S. ring.
Qed.

Lemma firstn_bounds : forall c n, Forall digit c -> 0 <= val (firstn n c) < p10 n \/ (length c < n)%nat.
Proof.
  intros. destruct (le_lt_dec n (length c)); [left|right; auto].
  apply cells_val_lt; auto. intros j Hj. apply (proj1 (Forall_cells c) H j). lia.
Qed.

Lemma to_loop_signed : forall t n c r, signed_ t = true -> 32 <= bits t ->
  Forall digit c -> (n <= length c)%nat -> 0 <= r <= ctype_max t ->
  to_integer_loop t n c r =
    if r * p10 n + val (firstn n c) <=? ctype_max t
    then Ok (r * p10 n + val (firstn n c)) else UB SignedOverflow.
Proof.
  intros t n c r Hs Hb D. revert r.
  assert (Hprom: promoted t = t). { unfold promoted. destruct (Z.ltb_spec (bits t) 32); auto; lia. }
  assert (Hmin: ctype_min t <= 0). { unfold ctype_min. rewrite Hs. assert (0 < 2 ^ (bits t - 1)) by (apply Z.pow_pos_nonneg; lia). lia. }
  induction n; intros r Hn Hr; cbn [to_integer_loop].
  - cbn [firstn]. rewrite p10_0, val_nil. replace (r * 1 + 0) with r by ring.
    destruct (Z.leb_spec r (ctype_max t)); auto; lia.
  - rewrite Hprom. unfold carith. rewrite Hs. unfold BASE.
    rewrite val_firstn_S by lia. rewrite p10_S.
    pose proof (proj1 (Forall_cells c) D n ltac:(lia)) as Hd. cbv beta in Hd.
    pose proof (p10_pos n).
    destruct (firstn_bounds c n D) as [HB|]; [|lia].
    destruct (Z.leb_spec (ctype_min t) (r * 10)); [|lia].
    destruct (Z.leb_spec (r * 10) (ctype_max t)); cbn [andb bind].
    + rewrite vget_ok by lia. cbn [bind].
      destruct (Z.leb_spec (ctype_min t) (r * 10 + nth n c 0)); [|lia].
      destruct (Z.leb_spec (r * 10 + nth n c 0) (ctype_max t)); cbn [andb bind].
      * assert (EC: conv t (r * 10 + nth n c 0) = r * 10 + nth n c 0).
        { unfold conv. rewrite Hs. unfold ctype_max in *. rewrite Hs in *.
          rewrite Z.mod_small; [ring|].
          assert (2 ^ bits t = 2 * 2 ^ (bits t - 1)).
          { rewrite <- Z.pow_succ_r by lia. f_equal; lia. } lia. }
        rewrite EC, IHn by lia.
        replace (r * (10 * p10 n) + (val (firstn n c) + nth n c 0 * p10 n))
           with ((r * 10 + nth n c 0) * p10 n + val (firstn n c)) by ring. auto.
      * destruct (Z.leb_spec (r * (10 * p10 n) + (val (firstn n c) + nth n c 0 * p10 n)) (ctype_max t)); auto. nia.
    + destruct (Z.leb_spec (r * (10 * p10 n) + (val (firstn n c) + nth n c 0 * p10 n)) (ctype_max t)); auto. nia.
Qed.

Lemma to_integer_signed : forall t x z, signed_ t = true -> 32 <= bits t -> repr x z ->
  int_to_integer t x = if Z.abs z <=? ctype_max t then Ok z else UB SignedOverflow.
Proof.
  intros t x z Hs Hb H. unfold int_to_integer.
  assert (Hpow: 2 ^ bits t = 2 * 2 ^ (bits t - 1)).
  { rewrite <- Z.pow_succ_r by lia. f_equal; lia. }
  assert (0 < 2 ^ (bits t - 1)) by (apply Z.pow_pos_nonneg; lia).
  assert (Hmax: ctype_max t = 2 ^ (bits t - 1) - 1) by (unfold ctype_max; rewrite Hs; auto).
  assert (Hmin: ctype_min t = - 2 ^ (bits t - 1)) by (unfold ctype_min; rewrite Hs; auto).
  rewrite to_loop_signed; eauto using repr_digits; [|lia].
  rewrite Z.mul_0_l, Z.add_0_l, firstn_all, (repr_val _ _ H).
  destruct (Z.leb_spec (Z.abs z) (ctype_max t)); cbn [bind]; auto.
  assert (Hprom: promoted t = t). { unfold promoted. destruct (Z.ltb_spec (bits t) 32); auto; lia. }
  rewrite Hprom, (repr_sign _ _ H), Z.abs_sgn. unfold carith. rewrite Hs.
  destruct (Z.leb_spec (ctype_min t) z); [|lia].
  destruct (Z.leb_spec z (ctype_max t)); [|lia]. cbn [andb bind].
  unfold conv. rewrite Hs. rewrite Z.mod_small by lia. f_equal. ring.
Qed.

Lemma to_loop_unsigned : forall t n c r, signed_ t = false -> 32 <= bits t ->
  (n <= length c)%nat ->
  exists r', to_integer_loop t n c r = Ok r' /\
    (r' mod 2 ^ bits t = (r * p10 n + val (firstn n c)) mod 2 ^ bits t).
Proof.
  intros t n c r Hs Hb. revert r.
  assert (Hprom: promoted t = t). { unfold promoted. destruct (Z.ltb_spec (bits t) 32); auto; lia. }
  assert (0 < 2 ^ bits t) by (apply Z.pow_pos_nonneg; lia).
  induction n; intros r Hn; cbn [to_integer_loop].
  - exists r. split; auto. cbn [firstn]. rewrite p10_0, val_nil. f_equal. ring.
  - rewrite Hprom. unfold carith. rewrite Hs. cbn [bind]. rewrite vget_ok by lia. cbn [bind].
    destruct (IHn (conv t (((r * BASE) mod 2 ^ bits t + nth n c 0) mod 2 ^ bits t)) ltac:(lia)) as (r' & E & C).
    exists r'. rewrite E. split; auto. rewrite C. rewrite val_firstn_S by lia. rewrite p10_S.
    assert (CC: conv t (((r * BASE) mod 2 ^ bits t + nth n c 0) mod 2 ^ bits t) mod 2 ^ bits t
                = (r * 10 + nth n c 0) mod 2 ^ bits t).
    { unfold conv. rewrite Hs. unfold BASE. rewrite !Z.mod_mod by lia. apply Zplus_mod_idemp_l. }
    rewrite <- Zplus_mod_idemp_l, <- Zmult_mod_idemp_l, CC, Zmult_mod_idemp_l, Zplus_mod_idemp_l.
    f_equal. ring.
Qed.

Lemma to_integer_unsigned : forall t x z, signed_ t = false -> 32 <= bits t -> repr x z ->
  int_to_integer t x = Ok (z mod 2 ^ bits t).
Proof.
  intros t x z Hs Hb H. unfold int_to_integer.
  assert (Hprom: promoted t = t). { unfold promoted. destruct (Z.ltb_spec (bits t) 32); auto; lia. }
  assert (0 < 2 ^ bits t) by (apply Z.pow_pos_nonneg; lia).
  destruct (to_loop_unsigned t (length (chunks x)) (chunks x) 0 Hs Hb ltac:(lia)) as (r & E & C).
  rewrite E; cbn [bind]. rewrite Hprom. unfold carith. rewrite Hs. cbn [bind]. unfold conv. rewrite Hs.
  rewrite Z.mod_mod by lia. f_equal.
  rewrite Z.mul_0_l, Z.add_0_l, firstn_all, (repr_val _ _ H) in C.
  rewrite <- Zmult_mod_idemp_l, C, Zmult_mod_idemp_l, (repr_sign _ _ H), Z.abs_sgn. auto.
Qed.

(** Narrow types: arithmetic happens in [int], each assignment converts. *)
Lemma conv_congr : forall t z, 0 < bits t ->
  ctype_min t <= conv t z <= ctype_max t /\ (conv t z) mod 2 ^ bits t = z mod 2 ^ bits t.
Proof.
  intros t z Hb. assert (0 < 2 ^ bits t) by (apply Z.pow_pos_nonneg; lia).
  assert (Hpow: 2 ^ bits t = 2 * 2 ^ (bits t - 1)).
  { rewrite <- Z.pow_succ_r by lia. f_equal; lia. }
  unfold conv, ctype_min, ctype_max. destruct (signed_ t).
  - pose proof (Z.mod_pos_bound (z + 2 ^ (bits t - 1)) (2 ^ bits t) ltac:(lia)). split; [lia|].
    rewrite Zminus_mod_idemp_l. f_equal. ring.
  - pose proof (Z.mod_pos_bound z (2 ^ bits t) ltac:(lia)). split; [lia|]. apply Z.mod_mod; lia.
Qed.

Lemma conv_eq : forall t z z', 0 < bits t -> z mod 2 ^ bits t = z' mod 2 ^ bits t -> conv t z = conv t z'.
Proof.
  intros t z z' Hb H. assert (0 < 2 ^ bits t) by (apply Z.pow_pos_nonneg; lia).
  unfold conv. destruct (signed_ t); auto. f_equal.
  rewrite <- Zplus_mod_idemp_l, H, Zplus_mod_idemp_l. auto.
Qed.

Lemma narrow_bounds : forall t, 1 <= bits t <= 16 -> -32768 <= ctype_min t /\ ctype_max t <= 65535.
Proof.
  intros t Hb. unfold ctype_min, ctype_max.
  assert (2 ^ bits t <= 2 ^ 16) by (apply Z.pow_le_mono_r; lia).
  assert (2 ^ (bits t - 1) <= 2 ^ 15) by (apply Z.pow_le_mono_r; lia).
  change (2 ^ 16) with 65536 in *. change (2 ^ 15) with 32768 in *.
  destruct (signed_ t); lia.
Qed.

Lemma carith_int : forall z, -2147483648 <= z <= 2147483647 -> carith (CType 32 true) z = Ok z.
Proof.
  intros. unfold carith, ctype_min, ctype_max; cbn [signed_ bits].
  change (2 ^ (32 - 1)) with 2147483648.
  destruct (Z.leb_spec (- (2147483648)) z); destruct (Z.leb_spec z (2147483648 - 1)); auto; lia.
Qed.

Lemma to_loop_narrow : forall t n c r, 1 <= bits t <= 16 -> Forall digit c ->
  (n <= length c)%nat -> -32768 <= r <= 65535 ->
  exists r', to_integer_loop t n c r = Ok r' /\ -32768 <= r' <= 65535 /\
    r' mod 2 ^ bits t = (r * p10 n + val (firstn n c)) mod 2 ^ bits t.
Proof.
  intros t n c r Hb D. revert r.
  assert (Hprom: promoted t = CType 32 true). { unfold promoted. destruct (Z.ltb_spec (bits t) 32); auto; lia. }
  assert (0 < 2 ^ bits t) by (apply Z.pow_pos_nonneg; lia).
  induction n; intros r Hn Hr; cbn [to_integer_loop].
  - exists r. repeat split; auto; try lia. cbn [firstn]. rewrite p10_0, val_nil. f_equal. ring.
  - pose proof (proj1 (Forall_cells c) D n ltac:(lia)) as Hd. cbv beta in Hd.
    rewrite Hprom, carith_int by (unfold BASE; lia). cbn [bind]. rewrite vget_ok by lia. cbn [bind].
    rewrite carith_int by (unfold BASE; lia). cbn [bind].
    destruct (conv_congr t (r * BASE + nth n c 0) ltac:(lia)) as [CR CC].
    pose proof (narrow_bounds t Hb).
    destruct (IHn (conv t (r * BASE + nth n c 0)) ltac:(lia) ltac:(lia)) as (r' & E & R & C).
    exists r'. rewrite E. repeat split; auto; try lia. rewrite C.
    rewrite <- Zplus_mod_idemp_l, <- Zmult_mod_idemp_l, CC, Zmult_mod_idemp_l, Zplus_mod_idemp_l.
    rewrite val_firstn_S, p10_S by lia. unfold BASE. f_equal. ring.
Qed.

Lemma to_integer_narrow : forall t x z, 1 <= bits t <= 16 -> repr x z ->
  exists r, int_to_integer t x = Ok r /\ ctype_min t <= r <= ctype_max t /\
    r mod 2 ^ bits t = z mod 2 ^ bits t.
Proof.
  intros t x z Hb H. unfold int_to_integer.
  assert (Hprom: promoted t = CType 32 true). { unfold promoted. destruct (Z.ltb_spec (bits t) 32); auto; lia. }
  destruct (to_loop_narrow t (length (chunks x)) (chunks x) 0 Hb (repr_digits _ _ H) ltac:(lia) ltac:(lia)) as (r & E & R & C).
  rewrite E; cbn [bind]. rewrite Hprom, (repr_sign _ _ H).
  assert (-65535 <= r * Z.sgn z <= 65535) by lia.
  rewrite carith_int by lia. cbn [bind].
  destruct (conv_congr t (r * Z.sgn z) ltac:(lia)) as [CR CC].
  eexists; split; [reflexivity|]. split; [lia|].
  rewrite CC. rewrite Z.mul_0_l, Z.add_0_l, firstn_all, (repr_val _ _ H) in C.
  rewrite <- Zmult_mod_idemp_l, C, Zmult_mod_idemp_l, Z.abs_sgn. auto.
Qed.

(** A value representable in the narrow type is returned unchanged. *)
Lemma in_range_unique : forall t r z, 0 < bits t -> ctype_min t <= r <= ctype_max t ->
  ctype_min t <= z <= ctype_max t -> r mod 2 ^ bits t = z mod 2 ^ bits t -> r = z.
Proof.
  intros t r z Hb Hr Hz H. assert (0 < 2 ^ bits t) by (apply Z.pow_pos_nonneg; lia).
  assert (Hpow: 2 ^ bits t = 2 * 2 ^ (bits t - 1)).
  { rewrite <- Z.pow_succ_r by lia. f_equal; lia. }
  pose proof (Z.div_mod r (2 ^ bits t) ltac:(lia)). pose proof (Z.div_mod z (2 ^ bits t) ltac:(lia)).
  rewrite H in H1. set (q1 := r / 2 ^ bits t) in *. set (q2 := z / 2 ^ bits t) in *.
  assert (r - z = 2 ^ bits t * (q1 - q2)) by lia.
  assert (- 2 ^ bits t < r - z < 2 ^ bits t).
  { unfold ctype_min, ctype_max in *. destruct (signed_ t); lia. }
  assert (q1 - q2 = 0) by nia. nia.
Qed.

(** ** Random *)

Lemma nth_map_seq : forall (f : nat -> Z) n, Forall (fun z => exists k, z = f k) (map f (seq 0 n)).
Proof. intros. apply Forall_map, Forall_forall. eauto. Qed.

Lemma int_random_spec : forall limit dg most digits,
  0 <= limit <= 4300 -> (forall k, 0 <= dg k <= 9) -> 1 <= most <= 9 -> -1 <= digits ->
  exists x, int_random limit dg most digits = Ok x /\ canonical x /\ 0 <= value x /\
    length (chunks x) = Z.to_nat (if digits =? -1 then limit else digits).
Proof.
  intros limit dg most digits Hl Hd Hm Hn. unfold int_random.
  destruct (Z.ltb_spec digits (-1)); [lia|].
  unfold DIGITS_PER_CHUNK. rewrite Z.quot_1_r.
  set (n := Z.to_nat (if digits =? -1 then limit else digits)).
  eexists; split; [reflexivity|].
  assert (L: length (map dg (seq 0 n)) = n) by (rewrite map_length, seq_length; auto).
  assert (D: Forall digit (map dg (seq 0 n))).
  { apply Forall_map, Forall_forall. intros; apply Hd. }
  remember (map dg (seq 0 n)) as c. destruct c as [|c0 c'].
  { simpl in *. split; [apply repr_zero|]. unfold value; simpl. split; [lia|auto]. }
  assert (N: c0 :: c' <> []) by discriminate. revert L D N. generalize (c0 :: c'). intros l L D N.
  destruct (exists_last N) as (l' & d & E). subst l.
  rewrite last_snoc.
  assert (U: upd (l' ++ [d]) (length (l' ++ [d]) - 1) most = l' ++ [most]).
  { rewrite app_length; simpl. replace (length l' + 1 - 1)%nat with (length l') by lia.
    clear. induction l'; simpl; auto. f_equal; auto. }
  rewrite U. apply Forall_app in D as [D1 D2]. inversion D2; subst.
  assert (exists e, digit e /\ e <> 0 /\ (if d =? 0 then l' ++ [most] else l' ++ [d]) = l' ++ [e]).
  { destruct (Z.eqb_spec d 0); [exists most; unfold digit|exists d]; repeat split; try lia; try apply H2. }
  destruct H0 as (e & De & Ne & ->).
  assert (R: repr (MkInt 1 (l' ++ [e])) (1 * val (l' ++ [e]))).
  { apply repr_intro; auto. apply Forall_app; auto. rewrite last_snoc; auto. destruct l'; discriminate. }
  assert (0 <= val (l' ++ [e])). { apply val_nonneg. apply Forall_app; auto. }
  destruct R as [R1 R2]. unfold value. 
  replace (match l' ++ [d] with [] => 0 | _ => 1 end) with 1 by (destruct l'; auto).
  cbn [sign chunks]. split; [exact R1|]. split; [lia|].
  rewrite app_length in *. simpl in *. lia.
Qed.
