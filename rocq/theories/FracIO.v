(** Extraction of Fractions from a stream. *)
From Coq Require Import ZArith QArith List Bool Ascii Lia.
From Verif Require Import Outcome IntModel IntSpec IntBase IntIO StreamModel IntStream Show ShowFacts
  FracModel FracSpec FracFacts FracGcd.
Import ListNotations.
Open Scope Z_scope.

Lemma code_range : forall c, 0 <= code c <= 255.
Proof. intros [[] [] [] [] [] [] [] []]; vm_compute; split; discriminate. Qed.

Lemma skip_ok : forall ws c rest fuel, Forall blank ws -> 32 < code c -> (length ws < fuel)%nat ->
  skip_blank fuel (IStream (ws ++ c :: rest) false false) = Ok (IStream (c :: rest) false false).
Proof.
  induction ws; intros c rest fuel W C F; (destruct fuel; [simpl in F; lia|]); cbn [skip_blank peek good eofbit failbit negb andb buf app].
  - destruct (Z.leb_spec (code c) 32); [lia|auto].
  - inversion W; subst. unfold blank in H1. destruct (Z.leb_spec (code a) 32); [|lia].
    unfold ignore. cbn [good eofbit failbit negb andb buf]. apply IHws; auto. simpl in F. lia.
Qed.

Lemma skip_stuck : forall fuel s, good s = false -> skip_blank fuel s = OutOfFuel.
Proof.
  induction fuel; intros s G; auto. cbn [skip_blank]. unfold peek. rewrite G. cbn [negb].
  change (-1 <=? 32) with true. cbv iota. apply IHfuel. unfold ignore.
  assert (G': good (set_fail s) = false) by (unfold good, set_fail; cbn [eofbit failbit]; destruct (eofbit s); auto).
  rewrite G'. cbn [negb]. unfold good, set_fail; cbn [eofbit failbit]. destruct (eofbit s); auto.
Qed.

Lemma skip_blank_diverges : forall fuel s, good s = false \/ Forall blank (buf s) -> skip_blank fuel s = OutOfFuel.
Proof.
  intros fuel s [G|G]; [apply skip_stuck; auto|]. destruct (good s) eqn:E; [|apply skip_stuck; auto].
  revert s G E. induction fuel as [|fuel IHfuel]; intros s G E; auto. cbn [skip_blank]. unfold peek. rewrite E. cbn [negb].
  destruct (buf s) as [|c b] eqn:B.
  - change (-1 <=? 32) with true. cbv iota. apply skip_stuck. reflexivity.
  - inversion G; subst. unfold blank in H1. destruct (Z.leb_spec (code c) 32); [|lia].
    apply IHfuel; unfold ignore; rewrite E, B; cbn [negb buf]; auto.
Qed.

Lemma blank_split : forall l, Forall blank l \/ exists ws c rest, l = ws ++ c :: rest /\ Forall blank ws /\ 32 < code c.
Proof.
  induction l as [|a l]; [left; constructor|]. destruct (Z_le_dec (code a) 32) as [B|B].
  - destruct IHl as [H|(ws & c & rest & -> & W & C)]; [left; constructor; auto|].
    right. exists (a :: ws), c, rest. split; [auto|split; [constructor; auto|auto]].
  - right. exists [], a, l. split; auto. split; [constructor|lia].
Qed.

Lemma isspace_blank : forall c, 32 < code c -> isspace c = false.
Proof.
  intros c H. unfold isspace. destruct (Z.eqb_spec (code c) 32); [lia|]. destruct (Z.leb_spec (code c) 13); [lia|].
  rewrite andb_false_r. auto.
Qed.
Lemma blank_not_digit : forall c, blank c -> is_digit_char c = false.
Proof. intros c H. unfold blank, is_digit_char in *. destruct (Z.leb_spec 48 (code c)); auto. lia. Qed.
Lemma blank_stops : forall r, ends r -> stops is_digit_char r.
Proof. intros [|c r] H; simpl in *; auto. apply blank_not_digit; auto. Qed.

Lemma fold_dec : forall ds acc,
  fold_left (fun a c => 10 * a + (code c - 48)) ds acc = fold_left (fun a c => a * 10 + (code c - 48)) ds acc.
Proof. induction ds; intros; cbn [fold_left]; auto. rewrite IHds, (Z.mul_comm 10). auto. Qed.

(** A literal, cut into its sign and digits. *)
Lemma literal_cut : forall cs z, literal cs = Some z ->
  exists c b ds, cs = c :: b /\ starts_number (code c) = true /\ 32 < code c /\
    ds = (if is_sign_char c then b else c :: b) /\ ds <> [] /\ forallb is_digit_char ds = true /\
    z = (if code c =? 45 then - dec_digits ds else dec_digits ds).
Proof.
  intros cs z L. destruct cs as [|c b]; [discriminate|]. exists c, b, (if is_sign_char c then b else c :: b).
  assert (SG: forall l, forall r, dec_of 0 l = Some r -> forallb is_digit_char l = true /\ r = dec_digits l).
  { intros l r H. destruct (dec_of_forallb l 0) as (A & B). destruct (forallb is_digit_char l); [|rewrite B in H by auto; discriminate].
    split; auto. rewrite A in H by auto. inversion H. unfold dec_digits. apply fold_dec. }
  destruct (is_sign_char c) eqn:S.
  - apply is_sign_spec in S as [->| ->]; cbn [literal] in L.
    + destruct b as [|e b]; [discriminate|]. destruct (SG _ _ L) as (F & ->). repeat split; auto; try discriminate; reflexivity.
    + destruct b as [|e b]; [discriminate|]. destruct (dec_of 0 (e :: b)) as [r|] eqn:D; [|discriminate].
      destruct (SG _ _ D) as (F & ->). inversion L. repeat split; auto; try discriminate; reflexivity.
  - rewrite literal_digits in L by auto. destruct (SG _ _ L) as (F & ->).
    assert (DC: 48 <= code c <= 57).
    { cbn [forallb] in F. apply andb_true_iff in F as (F & _). unfold is_digit_char in F.
      apply andb_true_iff in F as (F1 & F2). apply Z.leb_le in F1, F2. lia. }
    repeat split; auto; try discriminate.
    + unfold starts_number. destruct (Z.leb_spec 48 (code c)); [|lia]. destruct (Z.leb_spec (code c) 57); [auto|lia].
    + lia.
    + destruct (Z.eqb_spec (code c) 45); [lia|auto].
Qed.

Lemma extract_lit : forall cs z rest, literal cs = Some z -> stops is_digit_char rest ->
  extract_int (IStream (cs ++ rest) false false) =
    (if INT_MAX <? z then (INT_MAX, IStream rest (is_nil rest) true)
     else if z <? INT_MIN then (INT_MIN, IStream rest (is_nil rest) true)
     else (z, IStream rest (is_nil rest) false)).
Proof.
  intros cs z rest L S. destruct (literal_cut cs z L) as (c & b & ds & -> & SN & C & E & N & F & Z).
  unfold extract_int. cbn [good eofbit failbit negb andb buf app drop_while]. rewrite isspace_blank by auto. cbv zeta.
  assert (B: (if is_sign_char c then b ++ rest else c :: b ++ rest) = ds ++ rest).
  { rewrite E. destruct (is_sign_char c); auto. }
  rewrite B. rewrite take_while_app, take_while_stop, app_nil_r, drop_while_app, drop_while_stop by auto.
  destruct ds; [congruence|]. rewrite <- Z. reflexivity.
Qed.

Lemma extract_fit : forall cs z rest, literal cs = Some z -> fits z -> stops is_digit_char rest ->
  extract_int (IStream (cs ++ rest) false false) = (z, IStream rest (is_nil rest) false).
Proof.
  intros cs z rest L (A & B) S. rewrite (extract_lit cs z) by auto.
  destruct (Z.ltb_spec INT_MAX z); [lia|]. destruct (Z.ltb_spec z INT_MIN); [lia|auto].
Qed.

(** Start of an extraction at a literal. *)
Lemma start_lit : forall ws cs z rest fuel, Forall blank ws -> literal cs = Some z -> (length ws < fuel)%nat ->
  skip_blank fuel (IStream (ws ++ cs ++ rest) false false) = Ok (IStream (cs ++ rest) false false) /\
  exists c, peek (IStream (cs ++ rest) false false) = (c, IStream (cs ++ rest) false false) /\ starts_number c = true.
Proof.
  intros ws cs z rest fuel W L F. destruct (literal_cut cs z L) as (c & b & ds & -> & SN & C & _).
  cbn [app]. split; [apply skip_ok; auto|]. exists (code c). split; auto.
Qed.

Lemma read_int : forall ws n a rest fuel f0, Forall blank ws -> literal n = Some a -> fits1 a -> ends rest -> (length ws < fuel)%nat ->
  frac_extract fuel (IStream (ws ++ n ++ rest) false false) f0 =
    (Ok tt, (IStream rest (is_nil rest) (is_nil rest), Frac a 1)).
Proof.
  intros ws n a rest fuel f0 W L F E Fu. unfold frac_extract.
  destruct (start_lit ws n a rest fuel W L Fu) as (-> & c & -> & SN). rewrite SN. cbn [negb].
  rewrite (extract_fit n a) by (auto using fits1_fits, blank_stops).
  destruct (of_int_valid a F) as (R & _).
  destruct rest as [|x rest]; unfold peek; cbn [good eofbit failbit negb andb buf is_nil].
  - change (-1 <=? 32) with true. cbv iota. rewrite R. reflexivity.
  - simpl in E. unfold blank in E. destruct (Z.leb_spec (code x) 32); [|lia]. rewrite R. reflexivity.
Qed.

(** After "n/d": what the constructor makes of it. *)
Definition build (o : outcome Fraction) (s : istream) (f0 : Fraction) : outcome unit * (istream * Fraction) :=
  match o with
  | Ok r => (Ok tt, (s, r)) | Throw e => (Throw e, (s, f0)) | UB u => (UB u, (s, f0)) | OutOfFuel => (OutOfFuel, (s, f0))
  end.

Lemma peek_ends : forall rest, ends rest ->
  exists c, c <= 32 /\ peek (IStream rest (is_nil rest) false) = (c, IStream rest (is_nil rest) (is_nil rest)).
Proof.
  intros [|x rest] E; unfold peek; cbn [good eofbit failbit negb andb buf is_nil].
  - exists (-1). split; [lia|reflexivity].
  - exists (code x). split; auto.
Qed.

Lemma char_sep : forall c rest, 32 < code c ->
  extract_char (IStream (c :: rest) false false) = (c, IStream rest false false).
Proof.
  intros c rest C. unfold extract_char. cbn [good eofbit failbit negb andb buf drop_while]. rewrite isspace_blank by auto. auto.
Qed.

(** A literal followed by a character that is neither blank nor a digit. *)
Lemma read_sep : forall ws n a c rest fuel f0, Forall blank ws -> literal n = Some a -> fits a ->
  32 < code c -> is_digit_char c = false -> (length ws < fuel)%nat ->
  frac_extract fuel (IStream (ws ++ n ++ c :: rest) false false) f0 =
    (let (c2, s5) := peek (IStream rest false false) in
     if negb (starts_number c2) then (Throw WrongFractionLiteral, (peeked_again s5, f0)) else
     let (d, s6) := extract_int s5 in
     if negb (code c =? 47) then (Throw WrongFractionLiteral, (s6, f0)) else
     let (c3, s7) := peek s6 in
     if 32 <? c3 then (Throw WrongFractionLiteral, (s7, f0)) else build (frac_make a d) s7 f0).
Proof.
  intros ws n a c rest fuel f0 W L F C D Fu. unfold frac_extract.
  destruct (start_lit ws n a (c :: rest) fuel W L Fu) as (-> & c0 & -> & SN). rewrite SN. cbn [negb].
  rewrite (extract_fit n a) by (auto; exact D).
  cbn [is_nil]. replace (peek (IStream (c :: rest) false false)) with (code c, IStream (c :: rest) false false) by reflexivity.
  destruct (Z.leb_spec (code c) 32); [lia|]. rewrite char_sep by auto. reflexivity.
Qed.

Lemma read_ratio : forall ws n a d b rest fuel f0, Forall blank ws -> literal n = Some a -> literal d = Some b ->
  fits a -> fits b -> ends rest -> (length ws < fuel)%nat ->
  frac_extract fuel (IStream (ws ++ n ++ "/"%char :: d ++ rest) false false) f0 =
    build (frac_make a b) (IStream rest (is_nil rest) (is_nil rest)) f0.
Proof.
  intros ws n a d b rest fuel f0 W La Lb Fa Fb E Fu. rewrite (read_sep ws n a); auto; [|reflexivity].
  destruct (literal_cut d b Lb) as (c & x & ds & Ed & SN & _).
  replace (peek (IStream (d ++ rest) false false)) with (code c, IStream (d ++ rest) false false) by (rewrite Ed; reflexivity).
  rewrite SN. cbn [negb]. rewrite (extract_fit d b) by (auto using blank_stops). change (code "/"%char =? 47) with true. cbn [negb].
  destruct (peek_ends rest E) as (c3 & L3 & ->). destruct (Z.ltb_spec 32 c3); [lia|auto].
Qed.

Lemma roundtrip : forall ws f rest fuel f0, Forall blank ws -> valid f -> ends rest -> (length ws < fuel)%nat ->
  frac_extract fuel (IStream (ws ++ frac_print f ++ rest) false false) f0 =
    (Ok tt, (IStream rest (is_nil rest) (is_nil rest), f)).
Proof.
  intros ws f rest fuel f0 W V E Fu. pose proof V as (D & N & G). unfold frac_print.
  destruct (Z.eqb_spec (den f) 1) as [D1|D1].
  - rewrite (read_int ws _ (num f)); auto; [|apply show_int_spec]. rewrite <- D1. destruct f; auto.
  - rewrite <- app_assoc. cbn [app]. unfold slash.
    rewrite (read_ratio ws _ (num f) _ (den f)); auto; try apply show_int_spec;
      try (unfold fits, INT_MIN, INT_MAX in *; lia).
    rewrite make_valid by auto. reflexivity.
Qed.

(** ** Rejections *)

Lemma bad_start : forall ws c rest fuel f0, Forall blank ws -> 32 < code c -> is_digit_char c = false -> is_sign_char c = false ->
  (length ws < fuel)%nat ->
  frac_extract fuel (IStream (ws ++ c :: rest) false false) f0 = (Throw WrongFractionLiteral, (IStream (c :: rest) false false, f0)).
Proof.
  intros ws c rest fuel f0 W C D S Fu. unfold frac_extract. rewrite skip_ok by auto.
  replace (peek (IStream (c :: rest) false false)) with (code c, IStream (c :: rest) false false) by reflexivity.
  assert (SN: starts_number (code c) = false).
  { unfold starts_number. unfold is_digit_char in D. rewrite D. unfold is_sign_char in S. cbn [orb].
    rewrite orb_comm. exact S. }
  rewrite SN. reflexivity.
Qed.

Lemma bad_separator : forall ws n a c rest fuel f0, Forall blank ws -> literal n = Some a -> fits a ->
  32 < code c -> is_digit_char c = false -> c <> "/"%char -> (length ws < fuel)%nat ->
  exists s', frac_extract fuel (IStream (ws ++ n ++ c :: rest) false false) f0 = (Throw WrongFractionLiteral, (s', f0)).
Proof.
  intros ws n a c rest fuel f0 W L F C D NS Fu. rewrite (read_sep ws n a) by auto.
  destruct (peek (IStream rest false false)) as (c2, s5). destruct (negb (starts_number c2)); [eauto|].
  destruct (extract_int s5) as (d, s6).
  destruct (Z.eqb_spec (code c) 47) as [E|E]; [exfalso; apply NS, code_inj; auto|]. cbn [negb]. eauto.
Qed.

Lemma bad_denominator : forall ws n a rest fuel f0, Forall blank ws -> literal n = Some a -> fits a ->
  match rest with [] => True | c :: _ => is_digit_char c = false /\ is_sign_char c = false end -> (length ws < fuel)%nat ->
  exists s', frac_extract fuel (IStream (ws ++ n ++ "/"%char :: rest) false false) f0 = (Throw WrongFractionLiteral, (s', f0)).
Proof.
  intros ws n a rest fuel f0 W L F H Fu. rewrite (read_sep ws n a) by (auto; reflexivity).
  destruct rest as [|c rest].
  - cbn. eauto.
  - destruct H as (D & S). replace (peek (IStream (c :: rest) false false)) with (code c, IStream (c :: rest) false false) by reflexivity.
    assert (SN: starts_number (code c) = false).
    { unfold starts_number. unfold is_digit_char in D. rewrite D. unfold is_sign_char in S. cbn [orb].
      rewrite orb_comm. exact S. }
    rewrite SN. cbn [negb]. eauto.
Qed.

Lemma bad_trailing : forall ws n a d b c rest fuel f0, Forall blank ws -> literal n = Some a -> literal d = Some b ->
  fits a -> fits b -> 32 < code c -> is_digit_char c = false -> (length ws < fuel)%nat ->
  exists s', frac_extract fuel (IStream (ws ++ n ++ "/"%char :: d ++ c :: rest) false false) f0 = (Throw WrongFractionLiteral, (s', f0)).
Proof.
  intros ws n a d b c rest fuel f0 W La Lb Fa Fb C D Fu. rewrite (read_sep ws n a) by (auto; reflexivity).
  destruct (literal_cut d b Lb) as (x & y & ds & Ed & SN & _).
  replace (peek (IStream (d ++ c :: rest) false false)) with (code x, IStream (d ++ c :: rest) false false) by (rewrite Ed; reflexivity).
  rewrite SN. cbn [negb]. rewrite (extract_fit d b) by (auto; exact D). change (code "/"%char =? 47) with true. cbn [negb].
  replace (peek (IStream (c :: rest) (is_nil (c :: rest)) false)) with (code c, IStream (c :: rest) false false) by reflexivity.
  destruct (Z.ltb_spec 32 (code c)); [eauto|lia].
Qed.

(** ** Termination *)

Lemma extract_after_skip : forall s fuel fuel' f0 s1, skip_blank fuel s = Ok s1 -> skip_blank fuel' s = Ok s1 ->
  frac_extract fuel s f0 = frac_extract fuel' s f0.
Proof. intros. unfold frac_extract. rewrite H, H0. auto. Qed.

Lemma make_total : forall n d, frac_make n d <> OutOfFuel.
Proof.
  intros n d. unfold frac_make, check_zero, std_gcd, chk32.
  destruct (d =? 0); cbn [bind]; try discriminate.
  destruct (d <? 0); cbn [bind]; repeat (match goal with |- context [if ?b then _ else _] => destruct b end; cbn [bind fst snd]; try discriminate).
Qed.

Lemma extract_terminates : forall s f0, good s = true -> (exists c, In c (buf s) /\ 32 < code c) ->
  exists o, fst o <> OutOfFuel /\ exists n, forall fuel, (n <= fuel)%nat -> frac_extract fuel s f0 = o.
Proof.
  intros [b e f] f0 G (c & I & C). unfold good in G. cbn [eofbit failbit buf] in *.
  destruct e, f; try discriminate. destruct (blank_split b) as [B|(ws & x & rest & -> & W & X)].
  - exfalso. rewrite Forall_forall in B. specialize (B c I). unfold blank in B. lia.
  - assert (SK: forall fuel, (S (length ws) <= fuel)%nat -> skip_blank fuel (IStream (ws ++ x :: rest) false false) = Ok (IStream (x :: rest) false false))
      by (intros; apply skip_ok; auto).
    exists (frac_extract (S (length ws)) (IStream (ws ++ x :: rest) false false) f0). split.
    + unfold frac_extract. rewrite SK by lia.
      repeat match goal with
      | |- context [let (a, b) := ?e in _] => destruct e
      | |- context [if ?b then _ else _] => destruct b
      end; cbn [fst]; try discriminate;
      match goal with |- context [frac_of_int ?n] => unfold frac_of_int | _ => idtac end;
      match goal with |- context [frac_make ?n ?d] => pose proof (make_total n d); destruct (frac_make n d); cbn [fst]; congruence end.
    + exists (S (length ws)). intros fuel Hf. eapply extract_after_skip; apply SK; auto.
Qed.

Lemma extract_hangs : forall s f0 fuel, good s = false \/ Forall blank (buf s) -> frac_extract fuel s f0 = (OutOfFuel, (s, f0)).
Proof. intros s f0 fuel H. unfold frac_extract. rewrite skip_blank_diverges by auto. auto. Qed.

(** ** Reading many *)

Lemma extract_all_S : forall fuel n s, frac_extract_all fuel (S n) s =
  match frac_extract fuel s (Frac 0 1) with
  | (Ok _, (s', x)) => r <- frac_extract_all fuel n s' ;; Ok (x :: fst r, snd r)
  | (Throw e, _) => Throw e | (UB u, _) => UB u | (OutOfFuel, _) => OutOfFuel
  end.
Proof. reflexivity. Qed.

Lemma read_back : forall items ws0 x0 fuel,
  Forall blank ws0 -> valid x0 ->
  Forall (fun it => fst it <> [] /\ Forall blank (fst it) /\ valid (snd it)) items ->
  (length ws0 + length (flat_map fst items) < fuel)%nat ->
  exists s', frac_extract_all fuel (S (length items))
    (IStream (ws0 ++ frac_print x0 ++ flat_map (fun it => fst it ++ frac_print (snd it)) items) false false)
    = Ok (x0 :: map snd items, s').
Proof.
  induction items as [|[w x] items]; intros ws0 x0 fuel W V F Fu; cbn [length]; rewrite extract_all_S.
  - cbn [flat_map]. rewrite roundtrip; auto; [|exact I|cbn in Fu; lia]. cbn. eauto.
  - inversion F; subst. destruct H1 as (N & B & Vx). cbn [fst snd] in *. cbn [flat_map fst snd] in *. rewrite app_length in Fu.
    rewrite roundtrip; auto; [|destruct w; [congruence|]; inversion B; auto|lia].
    destruct w as [|c w]; [congruence|]. cbn [app is_nil].
    destruct (IHitems (c :: w) x fuel B Vx H2 ltac:(lia)) as (s' & E).
    cbn [app] in E. rewrite <- app_assoc. cbn [length] in E. rewrite E. cbn [bind fst snd map]. eauto.
Qed.
