(** Extractions from streams with exceptions, against the same without: facts about the model. *)
From Coq Require Import ZArith List Bool Ascii Lia.
From Verif Require Import Outcome IntModel StreamModel FloatModel FracModel FracSpec FracIO ComplexModel StrModel ExnStreamModel.
Import ListNotations.
Open Scope Z_scope.

Lemma hot_good : forall m b, hot m (IStream b false false) = false.
Proof. intros [e f] b. unfold hot. cbn. rewrite !andb_false_r. reflexivity. Qed.
Lemma hot_mono : forall m e f e' f' b b', implb e e' = true -> implb f f' = true ->
  hot m (IStream b e f) = true -> hot m (IStream b' e' f') = true.
Proof. intros [[] []] [] [] [] []; cbn; intros; auto. Qed.
Lemma hot_bad : forall m s, hot m s = true -> good s = false.
Proof. intros [[] []] [b [] []]; cbn; auto. Qed.
Lemma hot_set : forall m s, hot m s = true -> hot m (set_fail s) = true.
Proof. intros [[] []] [b [] []]; cbn; auto. Qed.

Ltac step_mono := intros m s H; pose proof (hot_bad m s H) as G;
  unfold peek, ignore, extract_int, extract_char, extract_char_opt, extract_double, extract_string; rewrite G; cbn [negb snd]; apply hot_set; exact H.
Lemma peek_mono : forall m s, hot m s = true -> hot m (snd (peek s)) = true. Proof. step_mono. Qed.
Lemma ignore_mono : forall m s, hot m s = true -> hot m (ignore s) = true. Proof. step_mono. Qed.
Lemma int_mono : forall m s, hot m s = true -> hot m (snd (extract_int s)) = true. Proof. step_mono. Qed.
Lemma char_mono : forall m s, hot m s = true -> hot m (snd (extract_char s)) = true. Proof. step_mono. Qed.
Lemma char_opt_mono : forall m s, hot m s = true -> hot m (snd (extract_char_opt s)) = true. Proof. step_mono. Qed.
Lemma double_mono : forall strtod m s, hot m s = true -> hot m (snd (extract_double strtod s)) = true. Proof. intros strtod. step_mono. Qed.

(** The relation between the two: [p] is the plain call. *)
Definition agree {B} (m : mask) (old : B) (p : outcome unit * (istream * B)) (x : left_behind B) : Prop :=
  let '(o, (s', y)) := p in
  if hot m s' then exists s'', x = (Failure, (s'', old)) /\ hot m s'' = true else x = (Ends o, (s', y)).

Lemma agree_guard : forall A B m (old : B) (r : A * istream) k p,
  (hot m (snd r) = true -> hot m (fst (snd p)) = true) ->
  (hot m (snd r) = false -> agree m old p (k (fst r) (snd r))) -> agree m old p (guarded m old r k).
Proof.
  intros A B m old [a s] k [o [s' y]] H1 H2. cbn [fst snd] in *. unfold guarded. destruct (hot m s) eqn:E; [|auto].
  unfold agree. rewrite H1 by auto. exists s. auto.
Qed.
Lemma agree_end : forall B m (old : B) o s y, hot m s = false -> agree m old (o, (s, y)) (Ends o, (s, y)).
Proof. intros B m old o s y H. unfold agree. rewrite H. reflexivity. Qed.
Lemma agree_assigned : forall B m (old : B) o s, hot m s = false ->
  agree m old (match o with Ok r => (Ok tt, (s, r)) | Throw e => (Throw e, (s, old)) | UB u => (UB u, (s, old)) | OutOfFuel => (OutOfFuel, (s, old)) end
    : outcome unit * (istream * B))
    (assigned o s old).
Proof. intros B m old [r|e|u|] s H; apply agree_end; auto. Qed.

(** Looking again at a good stream changes nothing. *)
Lemma peek_same : forall b c s, peek (IStream b false false) = (c, s) -> 32 < c -> s = IStream b false false /\ b <> [].
Proof. intros [|a b] c s H C; cbn in H; inversion H; subst; [lia|]. split; [auto|discriminate]. Qed.
Lemma peek_above : forall s0 c s, peek s0 = (c, s) -> 32 < c -> s = s0 /\ exists b, s0 = IStream b false false /\ b <> [].
Proof.
  intros [b e f] c s H C. destruct e, f; try (cbn in H; inversion H; subst; lia).
  destruct (peek_same _ _ _ H C) as (-> & N). eauto.
Qed.
Lemma skip_result : forall fuel s0 s, skip_blank fuel s0 = Ok s -> exists c b, s = IStream (c :: b) false false /\ 32 < code c.
Proof.
  induction fuel; intros s0 s H; [discriminate|]. cbn [skip_blank] in H. destruct (peek s0) as [c s1] eqn:P.
  destruct (Z.leb_spec c 32); [eauto|]. inversion H; subst. destruct (peek_above _ _ _ P H0) as (-> & b & -> & N).
  destruct b as [|a b]; [congruence|]. cbn in P. inversion P; subst. eauto.
Qed.
Lemma skip_same : forall B m (old : B) k fuel s0 s, skip_blank fuel s0 = Ok s -> x_skip m old fuel s0 k = k s.
Proof.
  induction fuel; intros s0 s H; [discriminate|]. cbn [skip_blank x_skip] in *.
  destruct (good s0) eqn:G.
  - destruct s0 as [b [] []]; try discriminate. destruct b as [|a b].
    + cbn [peek good eofbit failbit negb andb buf] in H. change (-1 <=? 32) with true in H. cbv iota in H. rewrite skip_stuck in H by reflexivity. discriminate.
    + cbn [peek good eofbit failbit negb andb buf] in *. unfold guarded at 1. rewrite hot_good. destruct (code a <=? 32).
      * unfold ignore in *. cbn [good eofbit failbit negb andb buf] in *. unfold guarded. rewrite hot_good. auto.
      * inversion H; subst. reflexivity.
  - exfalso. change (skip_blank (S fuel) s0 = Ok s) in H. rewrite skip_stuck in H by auto. discriminate.
Qed.

Lemma guard_peek : forall B m (old : B) c b k, guarded m old (peek (IStream (c :: b) false false)) k = k (code c) (IStream (c :: b) false false).
Proof. intros. unfold guarded. cbn [peek good eofbit failbit negb andb buf]. rewrite hot_good. reflexivity. Qed.
(** The repeated test on a good stream. *)
Lemma number_same : forall B m (old : B) c b k, x_number m old (IStream (c :: b) false false) k =
  k (starts_number (code c)) (IStream (c :: b) false false).
Proof.
  intros. unfold x_number, starts_number. rewrite guard_peek.
  destruct ((48 <=? code c) && (code c <=? 57)); cbn [orb]; [reflexivity|]. rewrite guard_peek.
  destruct (code c =? 45); cbn [orb]; [reflexivity|]. rewrite guard_peek. reflexivity.
Qed.
Lemma complex_same : forall B m (old : B) c b k, x_complex m old (IStream (c :: b) false false) k =
  k (starts_complex (code c)) (IStream (c :: b) false false).
Proof.
  intros. unfold x_complex. rewrite number_same. unfold starts_number, starts_complex.
  destruct ((48 <=? code c) && (code c <=? 57) || (code c =? 45) || (code c =? 43)); cbn [orb]; [reflexivity|]. rewrite guard_peek. reflexivity.
Qed.
(** The second test of Fraction, at any stream. *)
Lemma agree_number : forall B m (old : B) s p k,
  (starts_number (fst (peek s)) = true -> agree m old p (k true s)) ->
  (starts_number (fst (peek s)) = false -> let s1 := peeked_again (snd (peek s)) in (hot m s1 = true -> hot m (fst (snd p)) = true) /\
     (hot m s1 = false -> agree m old p (k false s1))) ->
  agree m old p (x_number m old s k).
Proof.
  intros B m old s p k Y N. destruct (good s) eqn:G; [destruct s as [b [] []]; try discriminate; destruct b as [|c b]|].
  - destruct (N eq_refl) as (N1 & N2). cbn in N1, N2. unfold x_number.
    apply agree_guard; cbn [peek good eofbit failbit negb andb buf fst snd]; intros H.
    { apply N1. revert H. apply hot_mono; auto. }
    change ((48 <=? -1) && (-1 <=? 57)) with false. cbv iota.
    apply agree_guard; cbn [peek good eofbit failbit negb andb buf fst snd set_fail]; intros H1; [auto|].
    change (-1 =? 45) with false. cbv iota.
    apply agree_guard; cbn [peek good eofbit failbit negb andb buf fst snd set_fail]; intros H2; auto.
  - rewrite number_same. cbn [peek good eofbit failbit negb andb buf fst snd] in *. destruct (starts_number (code c)); [auto|].
    destruct (N eq_refl) as (N1 & N2). unfold peeked_again in N2. cbn [peek good eofbit failbit negb andb buf fst snd] in N2. apply N2, hot_good.
  - assert (P: peek s = (-1, set_fail s)) by (unfold peek; rewrite G; reflexivity).
    assert (G': good (set_fail s) = false) by (unfold good; cbn; apply andb_false_r).
    assert (P': peek (set_fail s) = (-1, set_fail s)) by (unfold peek; rewrite G'; reflexivity).
    rewrite P in N. unfold peeked_again in N. cbn [fst snd] in N. rewrite P' in N. cbn [fst snd] in N. rewrite P' in N. destruct (N eq_refl) as (N1 & N2). cbn [snd] in N1, N2.
    unfold x_number. rewrite P. apply agree_guard; cbn [fst snd]; intros H; [auto|]. change ((48 <=? -1) && (-1 <=? 57)) with false. cbv iota.
    rewrite P'. apply agree_guard; cbn [fst snd]; intros H1; [auto|]. change (-1 =? 45) with false. cbv iota.
    rewrite P'. apply agree_guard; cbn [fst snd]; intros H2; auto.
Qed.

Lemma made_stream : forall B (o : outcome B) (s : istream) (old : B),
  fst (snd (match o with Ok r => (Ok tt, (s, r)) | Throw e => (Throw e, (s, old)) | UB u => (UB u, (s, old)) | OutOfFuel => (OutOfFuel, (s, old)) end
    : outcome unit * (istream * B))) = s.
Proof. intros B [r|e|u|] s old; reflexivity. Qed.

Theorem int_agrees : forall m s x, agree m x (int_extract s x) (int_xextract m s x).
Proof.
  intros m s x. unfold int_extract, int_xextract. destruct (extract_string s) as [t s'].
  apply agree_guard; cbn [fst snd]; intros H; [|apply agree_assigned; auto].
  rewrite made_stream. auto.
Qed.

Theorem frac_agrees : forall m fuel s f, fst (frac_extract fuel s f) <> OutOfFuel -> agree m f (frac_extract fuel s f) (frac_xextract m fuel s f).
Proof.
  intros m fuel s0 f T. unfold frac_extract, frac_xextract in *. destruct (skip_blank fuel s0) as [s|e|u|] eqn:K; [| | |cbn in T; congruence].
  2-3: exfalso; clear -K; revert s0 K; induction fuel; intros s0 K; cbn [skip_blank] in K; [discriminate|]; destruct (peek s0); destruct (_ <=? _); [eauto|discriminate].
  clear T. rewrite (skip_same _ _ _ _ _ _ _ K). destruct (skip_result _ _ _ K) as (c0 & b & -> & C0). rewrite number_same.
  cbn [peek good eofbit failbit negb andb buf]. destruct (starts_number (code c0)); cbn [negb]; [|apply agree_end, hot_good].
  set (s1 := IStream (c0 :: b) false false). pose proof (int_mono m s1) as M2. destruct (extract_int s1) as [n s2]. cbn [snd] in M2.
  pose proof (peek_mono m s2) as M3. destruct (peek s2) as [c1 s3] eqn:P3. cbn [snd] in M3.
  destruct (Z.leb_spec c1 32) as [B1|B1].
  - apply agree_guard; cbn [fst snd]; intros H2; [rewrite made_stream; auto|]. rewrite P3.
    apply agree_guard; cbn [fst snd]; intros H3; [rewrite made_stream; auto|].
    destruct (Z.leb_spec c1 32); [|lia]. apply agree_assigned; auto.
  - pose proof (char_mono m s3) as M4. destruct (extract_char s3) as [c s4] eqn:P4. cbn [snd] in M4.
    destruct (peek s4) as [c2 s5] eqn:P5.
    assert (M5: hot m s4 = true -> hot m s5 = true) by (intros; change s5 with (snd (c2, s5)); rewrite <- P5; apply peek_mono; auto).
    assert (MA: hot m s5 = true -> hot m (peeked_again s5) = true) by (intros; unfold peeked_again; auto using peek_mono).
    assert (HF: hot m s4 = true -> hot m (fst (snd (if negb (starts_number c2) then (Throw WrongFractionLiteral, (peeked_again s5, f)) else
        let (d, s6) := extract_int s5 in if negb (code c =? 47) then (Throw WrongFractionLiteral, (s6, f)) else
        let (c3, s7) := peek s6 in if 32 <? c3 then (Throw WrongFractionLiteral, (s7, f)) else
        match frac_make n d with | Ok r => (Ok tt, (s7, r)) | Throw e => (Throw e, (s7, f)) | UB u => (UB u, (s7, f)) | OutOfFuel => (OutOfFuel, (s7, f)) end))) = true).
    { intros H4. destruct (starts_number c2); cbn [negb]; [|cbn [fst snd]; auto].
      pose proof (int_mono m s5) as M6. destruct (extract_int s5) as [d s6]. cbn [snd] in M6.
      destruct (code c =? 47); cbn [negb]; [|cbn [fst snd]; auto].
      pose proof (peek_mono m s6) as M7. destruct (peek s6) as [c3 s7]. cbn [snd] in M7. destruct (32 <? c3); [cbn [fst snd]; auto|rewrite made_stream; auto]. }
    apply agree_guard; cbn [fst snd]; intros H2; [auto|]. rewrite P3.
    apply agree_guard; cbn [fst snd]; intros H3; [auto|]. destruct (Z.leb_spec c1 32); [lia|]. rewrite P4.
    apply agree_guard; cbn [fst snd]; intros H4; [auto|]. clear HF.
    apply agree_number; rewrite P5; cbn [fst snd]; intros SN; rewrite SN; cbn [negb].
    + assert (A: 32 < c2). { unfold starts_number in SN. destruct (Z.leb_spec 48 c2); [lia|]. cbn [andb orb] in SN. apply orb_true_iff in SN as [SN|SN]; apply Z.eqb_eq in SN; lia. }
      destruct (peek_above _ _ _ P5 A) as (-> & _).
      pose proof (int_mono m s4) as M6. destruct (extract_int s4) as [d s6]. cbn [snd] in M6.
      destruct (code c =? 47) eqn:CC; cbn [negb].
      * pose proof (peek_mono m s6) as M7. destruct (peek s6) as [c3 s7] eqn:P7. cbn [snd] in M7.
        assert (E7: fst (snd (if 32 <? c3 then (Throw WrongFractionLiteral, (s7, f)) else
          match frac_make n d with | Ok r => (Ok tt, (s7, r)) | Throw e => (Throw e, (s7, f)) | UB u => (UB u, (s7, f)) | OutOfFuel => (OutOfFuel, (s7, f)) end)) = s7)
          by (destruct (32 <? c3); [reflexivity|apply made_stream]).
        apply agree_guard; cbn [fst snd]; intros H6; [rewrite E7; auto|]. rewrite P7.
        apply agree_guard; cbn [fst snd]; intros H7; [rewrite E7; auto|].
        destruct (32 <? c3); [apply agree_end; auto|apply agree_assigned; auto].
      * apply agree_guard; cbn [fst snd]; intros H6; [auto|apply agree_end; auto].
    + split; intros HA; [exact HA|apply agree_end; auto].
Qed.

Theorem cx_agrees : forall m strtod fuel s z, fst (cx_extract strtod fuel s z) <> OutOfFuel ->
  agree m z (cx_extract strtod fuel s z) (cx_xextract m strtod fuel s z).
Proof.
  intros m strtod fuel s0 z T. unfold cx_extract, cx_xextract in *. destruct (skip_blank fuel s0) as [s|e|u|] eqn:K; [| | |cbn in T; congruence].
  2-3: exfalso; clear -K; revert s0 K; induction fuel; intros s0 K; cbn [skip_blank] in K; [discriminate|]; destruct (peek s0); destruct (_ <=? _); [eauto|discriminate].
  clear T. rewrite (skip_same _ _ _ _ _ _ _ K). destruct (skip_result _ _ _ K) as (c0 & b & -> & C0). rewrite complex_same.
  cbn [peek good eofbit failbit negb andb buf]. destruct (starts_complex (code c0)); cbn [negb]; [|apply agree_end, hot_good].
  set (s1 := IStream (c0 :: b) false false). pose proof (double_mono strtod m s1) as M2. destruct (extract_double strtod s1) as [real s2]. cbn [snd] in M2.
  pose proof (peek_mono m s2) as M3. destruct (peek s2) as [c1 s3] eqn:P3. cbn [snd] in M3.
  destruct (Z.leb_spec c1 32) as [B1|B1].
  - assert (E3: fst (snd (match real with Some x => (Ok tt, (s3, cx_of x)) | None => (UB Indeterminate, (s3, z)) end)) = s3) by (destruct real; reflexivity).
    apply agree_guard; cbn [fst snd]; intros H2; [rewrite E3; auto|]. rewrite P3.
    apply agree_guard; cbn [fst snd]; intros H3; [rewrite E3; auto|].
    destruct (Z.leb_spec c1 32); [|lia]. destruct real; apply agree_end; auto.
  - destruct (peek_above _ _ _ P3 B1) as (E3 & b2 & E2 & N2). destruct b2 as [|a2 b2]; [congruence|]. subst s3. subst s2. cbn in P3. injection P3 as <-.
    apply agree_guard; cbn [fst snd]; intros H2; [rewrite hot_good in H2; discriminate|]. rewrite guard_peek.
    destruct (Z.leb_spec (code a2) 32); [lia|]. rewrite guard_peek. destruct (code a2 =? 106).
    + pose proof (peek_mono m (ignore (IStream (a2 :: b2) false false))) as M5. destruct (peek (ignore (IStream (a2 :: b2) false false))) as [c2 s5] eqn:P5. cbn [snd] in M5.
      assert (E5: fst (snd (if c2 <=? 32 then match real with Some x => (Ok tt, (s5, Cx d0 x)) | None => (UB Indeterminate, (s5, z)) end else (Throw WrongComplexLiteral, (s5, z)))) = s5)
        by (destruct (c2 <=? 32); [destruct real|]; reflexivity).
      apply agree_guard; cbn [fst snd]; intros H4; [rewrite E5; auto|]. rewrite P5.
      apply agree_guard; cbn [fst snd]; intros H5; [rewrite E5; auto|].
      destruct (c2 <=? 32); [destruct real|]; apply agree_end; auto.
    + destruct (extract_double strtod (IStream (a2 :: b2) false false)) as [imag s4].
      pose proof (char_opt_mono m s4) as M5. destruct (extract_char_opt s4) as [c s5] eqn:P5. cbn [snd] in M5.
      destruct c as [c|].
      * destruct (code c =? 106) eqn:CC; cbn [negb].
        { pose proof (peek_mono m s5) as M6. destruct (peek s5) as [c3 s6] eqn:P6. cbn [snd] in M6.
          assert (E6: fst (snd (if 32 <? c3 then (Throw WrongComplexLiteral, (s6, z)) else
            match real, imag with Some x, Some y => (Ok tt, (s6, Cx x y)) | _, _ => (UB Indeterminate, (s6, z)) end)) = s6)
            by (destruct (32 <? c3); [|destruct real, imag]; reflexivity).
          apply agree_guard; cbn [fst snd]; intros H4; [rewrite E6; auto|]. rewrite P5.
          apply agree_guard; cbn [fst snd]; intros H5; [rewrite E6; auto|]. rewrite CC. cbn [negb]. rewrite P6.
          apply agree_guard; cbn [fst snd]; intros H6; [rewrite E6; auto|].
          destruct (32 <? c3); [|destruct real, imag]; apply agree_end; auto. }
        apply agree_guard; cbn [fst snd]; intros H4; [auto|]. rewrite P5.
        apply agree_guard; cbn [fst snd]; intros H5; [auto|]. rewrite CC. cbn [negb]. apply agree_end; auto.
      * apply agree_guard; cbn [fst snd]; intros H4; [auto|]. rewrite P5.
        apply agree_guard; cbn [fst snd]; intros H5; [auto|]. apply agree_end; auto.
Qed.
