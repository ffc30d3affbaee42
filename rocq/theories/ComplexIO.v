(** Extraction of Complex numbers from a stream. *)
From Coq Require Import String Ascii ZArith List Bool Lia.
From Flocq Require Import BinarySingleNaN.
From Verif Require Import Outcome IntModel StreamModel FloatModel FracModel FracSpec FracIO ComplexModel ComplexSpec.
Import ListNotations.
Open Scope Z_scope.

#[local] Opaque double_of_Z.

Lemma digit_is : forall c, digit c <-> is_digit_char c = true.
Proof. intros c. unfold digit, is_digit_char. change (Z.of_N (N_of_ascii c)) with (code c). rewrite andb_true_iff, !Z.leb_le. tauto. Qed.

(** ** The characters of a floating-point literal *)

Definition stop_char (c : ascii) : Prop := is_digit_char c = false /\ code c <> 46 /\ code c <> 101 /\ code c <> 69.
Definition stop (l : list ascii) : Prop := match l with [] => True | c :: _ => stop_char c end.

Lemma stop_text : forall m d s l, stop l -> float_text m d s false l = ([], l).
Proof.
  intros m d s [|c l] H; auto. destruct H as (D & P & E & E'). cbn [float_text]. rewrite D.
  destruct (Z.eqb_spec (code c) 46); [lia|]. destruct (Z.eqb_spec (code c) 101); [lia|]. destruct (Z.eqb_spec (code c) 69); [lia|].
  cbn [andb orb]. rewrite andb_false_r. auto.
Qed.

Lemma digits_text : forall ds m d s g l, digits ds -> ds <> [] ->
  float_text m d s g (ds ++ l) = let (t, r) := float_text (m || negb s) d s false l in (ds ++ t, r).
Proof.
  induction ds as [|c ds IH]; intros m d s g l D N; [congruence|]. inversion D as [|? ? Dc Ds]; subst.
  cbn [app float_text]. apply digit_is in Dc. rewrite Dc. destruct ds as [|c' ds].
  - cbn [app]. destruct (float_text (m || negb s) d s false l). auto.
  - rewrite IH by (auto; discriminate). replace (m || negb s || negb s) with (m || negb s) by (destruct m, s; auto).
    destruct (float_text (m || negb s) d s false l). auto.
Qed.

Lemma sign_char : forall c, is_sign_char c = true -> is_digit_char c = false /\ code c <> 46 /\ code c <> 101 /\ code c <> 69 /\ 32 < code c.
Proof.
  intros c H. unfold is_sign_char in H. unfold is_digit_char. apply orb_true_iff in H. rewrite !Z.eqb_eq in H.
  destruct H as [-> | ->]; repeat split; try reflexivity; discriminate.
Qed.

Lemma exponent_text : forall e d l, exponent_opt e -> stop l -> float_text true d false false (e ++ l) = (e, l).
Proof.
  intros e d l [->|(c & sg & ds & -> & C & SG & D & N)] S; [apply stop_text; auto|].
  assert (T : forall g, float_text true d true g (ds ++ l) = (ds, l)).
  { intros g. rewrite digits_text by auto. rewrite stop_text by auto. rewrite app_nil_r. auto. }
  assert (T' : float_text true d true true ((sg ++ ds) ++ l) = (sg ++ ds, l)).
  { rewrite <- app_assoc. destruct SG as [->|[->| ->]]; cbn [app]; [apply T| |];
    cbn [float_text]; change (is_digit_char _) with false; cbn [andb orb negb]; rewrite !andb_false_r;
    [change (is_sign_char "+") with true|change (is_sign_char "-") with true]; cbn [andb]; rewrite T; auto. }
  cbn [app]. destruct C as [->| ->]; cbn [float_text]; change (is_digit_char _) with false;
  [change (code "e" =? 46) with false; change (code "e" =? 101) with true|
   change (code "E" =? 46) with false; change (code "E" =? 101) with false; change (code "E" =? 69) with true];
  cbn [andb orb negb]; rewrite T'; auto.
Qed.

Lemma mantissa_text : forall m l t r, mantissa m -> (forall d, float_text true d false false l = (t, r)) ->
  float_text false false false false (m ++ l) = (m ++ t, r).
Proof.
  intros m l t r [(N & D)|(a & b & -> & A & B & N)] T.
  - rewrite digits_text by auto. cbn [negb orb]. rewrite T. auto.
  - rewrite <- app_assoc. cbn [app].
    assert (P : forall mm, (mm = true \/ b <> []) -> float_text mm false false false ("."%char :: b ++ l) = ("."%char :: b ++ t, r)).
    { intros mm H. cbn [float_text]. change (is_digit_char ".") with false. change (code "." =? 46) with true. cbn [andb negb].
      destruct b as [|c b].
      - destruct H as [->|H]; [|congruence]. cbn [app]. rewrite T. auto.
      - rewrite digits_text by (auto; discriminate). cbn [negb]. rewrite orb_true_r, T. auto. }
    destruct a as [|c a].
    + cbn [app]. rewrite P; auto.
    + rewrite digits_text by (auto; discriminate). cbn [negb orb]. rewrite P by auto. rewrite <- app_assoc. auto.
Qed.

Lemma mantissa_start : forall m, mantissa m -> exists c m', m = c :: m' /\ (is_digit_char c = true \/ c = "."%char).
Proof.
  intros m [(N & D)|(a & b & -> & A & B & N)].
  - destruct m as [|c m]; [congruence|]. inversion D; subst. exists c, m. split; auto. left. apply digit_is; auto.
  - destruct a as [|c a]; [exists "."%char, b; auto|]. inversion A; subst. exists c, (a ++ "."%char :: b). split; auto. left. apply digit_is; auto.
Qed.

Lemma number_text_ok : forall t l, number t -> stop l -> number_text (t ++ l) = (t, l).
Proof.
  intros t l (sg & m & e & -> & SG & M & E) S.
  assert (T : float_text false false false false ((m ++ e) ++ l) = (m ++ e, l)).
  { rewrite <- app_assoc. apply mantissa_text; auto. intros d. apply exponent_text; auto. }
  destruct SG as [->|[->| ->]]; cbn [app].
  - destruct (mantissa_start m M) as (c & m' & -> & C). cbn [app] in *. unfold number_text.
    assert (NS : is_sign_char c = false).
    { destruct C as [C| ->]; [|reflexivity]. apply not_true_is_false. intros S'. apply sign_char in S'. destruct S' as (S' & _). congruence. }
    rewrite NS. exact T.
  - unfold number_text. change (is_sign_char "+") with true. rewrite T. auto.
  - unfold number_text. change (is_sign_char "-") with true. rewrite T. auto.
Qed.

Lemma digit_range : forall c, is_digit_char c = true -> 48 <= code c <= 57.
Proof. intros c H. unfold is_digit_char in H. rewrite andb_true_iff, !Z.leb_le in H. auto. Qed.

Lemma number_start : forall t, number t -> exists c t', t = c :: t' /\ starts_complex (code c) = true /\ 32 < code c.
Proof.
  intros t (sg & m & e & -> & SG & M & E). destruct SG as [->|[->| ->]]; cbn [app].
  - destruct (mantissa_start m M) as (c & m' & -> & C). exists c, (m' ++ e). split; auto. destruct C as [C| ->].
    + apply digit_range in C. unfold starts_complex. destruct (Z.leb_spec 48 (code c)); [|lia]. destruct (Z.leb_spec (code c) 57); [|lia].
      split; [reflexivity|lia].
    + split; reflexivity.
  - eexists _, _. split; [reflexivity|]. split; reflexivity.
  - eexists _, _. split; [reflexivity|]. split; reflexivity.
Qed.

Lemma signed_stop : forall u l, signed_number u -> stop (u ++ l).
Proof.
  intros u l (_ & c & u' & -> & C). cbn. assert (S : is_sign_char c = true) by (destruct C as [->| ->]; reflexivity).
  apply sign_char in S. unfold stop_char. tauto.
Qed.

(** ** One literal *)

Definition gives (strtod : list ascii -> double * bool) (t : list ascii) (x : double) : Prop := strtod t = (x, false).

Lemma extract_number : forall strtod t x l, number t -> gives strtod t x -> stop l ->
  extract_double strtod (IStream (t ++ l) false false) = (Some x, IStream l (is_nil l) false).
Proof.
  intros strtod t x l N V S. unfold extract_double. cbn [good eofbit failbit negb andb buf].
  destruct (number_start t N) as (c & t' & E & _ & C). assert (D : drop_while isspace (t ++ l) = t ++ l).
  { rewrite E. cbn [app drop_while]. rewrite isspace_blank by auto. auto. }
  rewrite D. assert (NT := number_text_ok t l N S). destruct (t ++ l) as [|a b] eqn:A; [rewrite E in A; discriminate|].
  rewrite NT, V. auto.
Qed.

Lemma ends_stop : forall l, ends l -> stop l.
Proof.
  intros [|c l] H; cbn in *; auto. unfold blank in H. unfold stop_char. split; [|lia]. apply blank_not_digit. exact H.
Qed.

Lemma skipped : forall strtod ws t l fuel z, Forall blank ws -> number t -> (length ws < fuel)%nat ->
  cx_extract strtod fuel (IStream (ws ++ t ++ l) false false) z = cx_extract strtod 1 (IStream (t ++ l) false false) z.
Proof.
  intros strtod ws t l fuel z W N F. destruct (number_start t N) as (c & t' & -> & _ & C). cbn [app].
  unfold cx_extract. rewrite skip_ok by auto.
  assert (K := skip_ok [] c (t' ++ l) 1 (Forall_nil _) C ltac:(cbn; lia)). cbn [app] in K. rewrite K. auto.
Qed.

Lemma after_start : forall strtod t x l z, number t -> gives strtod t x -> stop l ->
  cx_extract strtod 1 (IStream (t ++ l) false false) z =
    (let (c1, s3) := peek (IStream l (is_nil l) false) in
      if c1 <=? 32 then (Ok tt, (s3, cx_of x))
      else if c1 =? 106 then
        let s4 := ignore s3 in
        let (c2, s5) := peek s4 in
        if c2 <=? 32 then (Ok tt, (s5, Cx d0 x)) else (Throw WrongComplexLiteral, (s5, z))
      else
        let (imag, s4) := extract_double strtod s3 in
        let (c, s5) := extract_char_opt s4 in
        match c with
        | None => (UB Indeterminate, (s5, z))
        | Some c =>
            if negb (code c =? 106) then (Throw WrongComplexLiteral, (s5, z)) else
            let (c3, s6) := peek s5 in
            if 32 <? c3 then (Throw WrongComplexLiteral, (s6, z)) else
            match imag with
            | Some y => (Ok tt, (s6, Cx x y))
            | None => (UB Indeterminate, (s6, z))
            end
        end).
Proof.
  intros strtod t x l z N V S. unfold cx_extract. destruct (number_start t N) as (c & t' & E & SC & C).
  replace (skip_blank 1 (IStream (t ++ l) false false)) with (Ok (IStream (t ++ l) false false)).
  2:{ rewrite E. cbn [app]. symmetry. apply (skip_ok [] c); auto. }
  replace (peek (IStream (t ++ l) false false)) with (code c, IStream (t ++ l) false false) by (rewrite E; reflexivity).
  rewrite SC. cbn [negb]. rewrite (extract_number strtod t x) by auto. reflexivity.
Qed.

Lemma read_real : forall strtod t x l z, number t -> gives strtod t x -> ends l ->
  cx_extract strtod 1 (IStream (t ++ l) false false) z = (Ok tt, (IStream l (is_nil l) (is_nil l), cx_of x)).
Proof.
  intros strtod t x l z N V E. rewrite (after_start strtod t x) by (auto using ends_stop). destruct l as [|c l].
  - reflexivity.
  - cbn [is_nil peek good eofbit failbit negb andb buf]. cbn in E. unfold blank in E. destruct (Z.leb_spec (code c) 32); [auto|lia].
Qed.

Lemma peek_end : forall l, ends l -> exists c, peek (IStream l false false) = (c, IStream l (is_nil l) false) /\ c <= 32.
Proof.
  intros [|c l] H.
  - exists (-1). split; [reflexivity|lia].
  - exists (code c). split; [reflexivity|exact H].
Qed.

Lemma read_imag : forall strtod t x l z, number t -> gives strtod t x -> ends l ->
  cx_extract strtod 1 (IStream (t ++ "j"%char :: l) false false) z = (Ok tt, (IStream l (is_nil l) false, Cx d0 x)).
Proof.
  intros strtod t x l z N V E. rewrite (after_start strtod t x); auto.
  2:{ cbn. unfold stop_char. repeat split; try reflexivity; discriminate. }
  cbn [is_nil peek good eofbit failbit negb andb buf ignore]. change (code "j" <=? 32) with false. change (code "j" =? 106) with true. cbv iota.
  destruct l as [|c l]; [reflexivity|]. cbn in E. unfold blank in E. destruct (Z.leb_spec (code c) 32); [auto|lia].
Qed.

Lemma signed_peek : forall u l, signed_number u -> exists c, peek (IStream (u ++ l) (is_nil (u ++ l)) false) = (c, IStream (u ++ l) false false) /\
  (c <=? 32) = false /\ (c =? 106) = false.
Proof. intros u l (_ & c & u' & -> & [->| ->]); eexists; split; [reflexivity|split; reflexivity| reflexivity|split; reflexivity]. Qed.

Lemma read_both : forall strtod t u x y l z, number t -> gives strtod t x -> signed_number u -> gives strtod u y -> ends l ->
  cx_extract strtod 1 (IStream (t ++ u ++ "j"%char :: l) false false) z = (Ok tt, (IStream l (is_nil l) false, Cx x y)).
Proof.
  intros strtod t u x y l z N V U VU E. rewrite (after_start strtod t x) by (auto using signed_stop).
  destruct (signed_peek u ("j"%char :: l) U) as (c & -> & -> & ->).
  rewrite (extract_number strtod u y); [|apply U|auto|cbn; unfold stop_char; repeat split; try reflexivity; discriminate].
  cbn [is_nil]. unfold extract_char_opt. cbn [good eofbit failbit negb andb buf drop_while]. change (isspace "j") with false. cbv iota.
  change (negb (code "j" =? 106)) with false. cbv iota.
  destruct (peek_end l E) as (c' & -> & C). destruct (Z.ltb_spec 32 c'); [lia|auto].
Qed.

(** ** Any literal *)

Lemma read_literal : forall strtod t x y ws l z fuel, complex_literal (gives strtod) d0 t x y -> Forall blank ws -> ends l ->
  (length ws < fuel)%nat ->
  exists f, cx_extract strtod fuel (IStream (ws ++ t ++ l) false false) z = (Ok tt, (IStream l (is_nil l) f, Cx x y)) /\ (l <> [] -> f = false).
Proof.
  intros strtod t x y ws l z fuel L W E F. destruct L as [t x N V|t y N V|t u x y N V U VU].
  - rewrite skipped by auto. rewrite (read_real strtod t x) by auto. eexists. split; [reflexivity|]. destruct l; auto; congruence.
  - rewrite <- app_assoc. cbn [app]. rewrite skipped by auto. rewrite (read_imag strtod t y) by auto. exists false. auto.
  - rewrite <- !app_assoc. cbn [app]. rewrite skipped by auto. rewrite (read_both strtod t u x y) by auto. exists false. auto.
Qed.

Lemma extract_all_S : forall strtod fuel n s, cx_extract_all strtod fuel (S n) s =
  match cx_extract strtod fuel s cx_zero with
  | (Ok _, (s', x)) => r <- cx_extract_all strtod fuel n s' ;; Ok (x :: fst r, snd r)
  | (Throw e, _) => Throw e | (UB u, _) => UB u | (OutOfFuel, _) => OutOfFuel
  end.
Proof. reflexivity. Qed.

(** Literals with white space between them. *)
Lemma read_many : forall strtod items ws0 t0 x0 y0 fuel, Forall blank ws0 -> complex_literal (gives strtod) d0 t0 x0 y0 ->
  Forall (fun it => fst (fst it) <> [] /\ Forall blank (fst (fst it)) /\
            complex_literal (gives strtod) d0 (snd (fst it)) (re (snd it)) (im (snd it))) items ->
  (length ws0 + length (flat_map (fun it => fst (fst it)) items) < fuel)%nat ->
  exists s', cx_extract_all strtod fuel (S (length items))
    (IStream (ws0 ++ t0 ++ flat_map (fun it => fst (fst it) ++ snd (fst it)) items) false false)
    = Ok (Cx x0 y0 :: map snd items, s').
Proof.
  induction items as [|[[w t] [x y]] items]; intros ws0 t0 x0 y0 fuel W L F Fu; cbn [length]; rewrite extract_all_S.
  - cbn [flat_map] in *. destruct (read_literal strtod t0 x0 y0 ws0 [] cx_zero fuel) as (f & -> & _); auto; [exact I|cbn in Fu; lia|]. cbn. eauto.
  - inversion F as [|? ? (N & B & Lx) F']; subst. cbn [fst snd re im] in *. cbn [flat_map fst snd] in *. rewrite app_length in Fu.
    destruct (read_literal strtod t0 x0 y0 ws0 ((w ++ t) ++ flat_map (fun it => fst (fst it) ++ snd (fst it)) items) cx_zero fuel) as (f & -> & FF); auto.
    { destruct w; [congruence|]. inversion B; auto. }
    { lia. }
    destruct w as [|c w]; [congruence|]. rewrite FF by discriminate. cbn [app is_nil].
    destruct (IHitems (c :: w) t x y fuel B Lx F' ltac:(lia)) as (s' & E).
    cbn [app] in E. rewrite <- app_assoc. cbn [length] in E. rewrite E. cbn [bind fst snd map]. eauto.
Qed.

(** ** Rejected texts *)

Lemma reject_start : forall strtod ws c l z fuel, Forall blank ws -> 32 < code c -> starts_complex (code c) = false -> (length ws < fuel)%nat ->
  cx_extract strtod fuel (IStream (ws ++ c :: l) false false) z = (Throw WrongComplexLiteral, (IStream (c :: l) false false, z)).
Proof.
  intros strtod ws c l z fuel W C SC F. unfold cx_extract. rewrite skip_ok by auto. cbn [peek good eofbit failbit negb andb buf].
  rewrite SC. auto.
Qed.

Lemma reject_after_imag : forall strtod ws t x c l z fuel, Forall blank ws -> number t -> gives strtod t x -> 32 < code c -> (length ws < fuel)%nat ->
  exists s', cx_extract strtod fuel (IStream (ws ++ t ++ "j"%char :: c :: l) false false) z = (Throw WrongComplexLiteral, (s', z)).
Proof.
  intros strtod ws t x c l z fuel W N V C F. rewrite skipped by auto. rewrite (after_start strtod t x); auto.
  2:{ cbn. unfold stop_char. repeat split; try reflexivity; discriminate. }
  cbn [is_nil peek good eofbit failbit negb andb buf ignore]. change (code "j" <=? 32) with false. change (code "j" =? 106) with true. cbv iota.
  destruct (Z.leb_spec (code c) 32); [lia|]. eauto.
Qed.

Lemma reject_not_j : forall strtod ws t u x y c l z fuel, Forall blank ws -> number t -> gives strtod t x -> signed_number u -> gives strtod u y ->
  stop_char c -> 32 < code c -> c <> "j"%char -> (length ws < fuel)%nat ->
  exists s', cx_extract strtod fuel (IStream (ws ++ t ++ u ++ c :: l) false false) z = (Throw WrongComplexLiteral, (s', z)).
Proof.
  intros strtod ws t u x y c l z fuel W N V U VU SC C NJ F. rewrite skipped by auto. rewrite (after_start strtod t x) by (auto using signed_stop).
  destruct (signed_peek u (c :: l) U) as (c0 & -> & -> & ->).
  rewrite (extract_number strtod u y); [|apply U|auto|exact SC].
  cbn [is_nil]. unfold extract_char_opt. cbn [good eofbit failbit negb andb buf drop_while]. rewrite isspace_blank by auto.
  destruct (Z.eqb_spec (code c) 106) as [E|E]; cbn [negb]; [|eauto].
  exfalso. apply NJ. change 106 with (code "j") in E. unfold code in E. apply N2Z.inj in E.
  rewrite <- (ascii_N_embedding c), <- (ascii_N_embedding "j"). f_equal. exact E.
Qed.

Lemma reject_after_both : forall strtod ws t u x y c l z fuel, Forall blank ws -> number t -> gives strtod t x -> signed_number u -> gives strtod u y ->
  32 < code c -> (length ws < fuel)%nat ->
  exists s', cx_extract strtod fuel (IStream (ws ++ t ++ u ++ "j"%char :: c :: l) false false) z = (Throw WrongComplexLiteral, (s', z)).
Proof.
  intros strtod ws t u x y c l z fuel W N V U VU C F. rewrite skipped by auto. rewrite (after_start strtod t x) by (auto using signed_stop).
  destruct (signed_peek u ("j"%char :: c :: l) U) as (c0 & -> & -> & ->).
  rewrite (extract_number strtod u y); [|apply U|auto|cbn; unfold stop_char; repeat split; try reflexivity; discriminate].
  cbn [is_nil]. unfold extract_char_opt. cbn [good eofbit failbit negb andb buf drop_while]. change (isspace "j") with false. cbv iota.
  change (negb (code "j" =? 106)) with false. cbv iota. cbn [peek good eofbit failbit negb andb buf].
  destruct (Z.ltb_spec 32 (code c)); [eauto|lia].
Qed.

(** ** Undefined behaviour: [c] is read although nothing was stored in it *)

Lemma undefined_junk : forall strtod ws t x c l z fuel, Forall blank ws -> number t -> gives strtod t x ->
  stop_char c -> 32 < code c -> is_sign_char c = false -> c <> "j"%char -> snd (strtod []) = true -> (length ws < fuel)%nat ->
  exists s', cx_extract strtod fuel (IStream (ws ++ t ++ c :: l) false false) z = (UB Indeterminate, (s', z)).
Proof.
  intros strtod ws t x c l z fuel W N V SC C SG NJ BAD F. rewrite skipped by auto. rewrite (after_start strtod t x) by auto.
  cbn [is_nil peek good eofbit failbit negb andb buf]. destruct (Z.leb_spec (code c) 32); [lia|].
  destruct (Z.eqb_spec (code c) 106) as [E|E].
  { exfalso. apply NJ. change 106 with (code "j") in E. unfold code in E. apply N2Z.inj in E.
    rewrite <- (ascii_N_embedding c), <- (ascii_N_embedding "j"). f_equal. exact E. }
  unfold extract_double. cbn [good eofbit failbit negb andb buf drop_while]. rewrite isspace_blank by auto.
  unfold number_text. rewrite SG. rewrite (stop_text false false false (c :: l)) by exact SC.
  destruct (strtod []) as [v bad]. cbn in BAD. subst bad. unfold extract_char_opt. cbn. eauto.
Qed.

(** The [j] is missing at the end of the input. *)
Lemma undefined_no_j : forall strtod ws t u x y l z fuel, Forall blank ws -> number t -> gives strtod t x -> signed_number u -> gives strtod u y ->
  Forall (fun c => isspace c = true) l -> (length ws < fuel)%nat ->
  exists s', cx_extract strtod fuel (IStream (ws ++ t ++ u ++ l) false false) z = (UB Indeterminate, (s', z)).
Proof.
  intros strtod ws t u x y l z fuel W N V U VU SP F. rewrite skipped by auto. rewrite (after_start strtod t x) by (auto using signed_stop).
  destruct (signed_peek u l U) as (c0 & -> & -> & ->).
  assert (ST : stop l).
  { destruct l as [|c l]; cbn; auto. inversion SP as [|? ? H _]; subst. unfold isspace in H. unfold stop_char, is_digit_char.
    apply orb_true_iff in H. rewrite andb_true_iff, !Z.leb_le, Z.eqb_eq in H. destruct (Z.leb_spec 48 (code c)); cbn [andb]; [lia|]. repeat split; lia. }
  rewrite (extract_number strtod u y); [|apply U|auto|exact ST]. destruct l as [|c l].
  - cbn. eauto.
  - cbn [is_nil]. unfold extract_char_opt. cbn [good eofbit failbit negb andb buf].
    replace (drop_while isspace (c :: l)) with (@nil ascii).
    2:{ clear - SP. induction SP as [|a b H SP IH]; auto. cbn [drop_while]. rewrite H. exact IH. }
    eauto.
Qed.

(** ** Termination *)

Lemma cx_hangs : forall strtod s z fuel, good s = false \/ Forall blank (buf s) -> cx_extract strtod fuel s z = (OutOfFuel, (s, z)).
Proof. intros strtod s z fuel H. unfold cx_extract. rewrite skip_blank_diverges by auto. auto. Qed.

Lemma cx_after_skip : forall strtod s fuel fuel' z s1, skip_blank fuel s = Ok s1 -> skip_blank fuel' s = Ok s1 ->
  cx_extract strtod fuel s z = cx_extract strtod fuel' s z.
Proof. intros strtod s fuel fuel' z s1 H H0. unfold cx_extract. rewrite H, H0. auto. Qed.

Lemma cx_terminates : forall strtod s z, good s = true -> ~ Forall blank (buf s) ->
  exists o, fst o <> OutOfFuel /\ exists n, forall fuel, (n <= fuel)%nat -> cx_extract strtod fuel s z = o.
Proof.
  intros strtod [b e f] z G NB. unfold good in G. cbn [eofbit failbit buf] in *.
  destruct e, f; try discriminate. destruct (blank_split b) as [B|(ws & x & rest & -> & W & X)]; [contradiction|].
  assert (SK: forall fuel, (S (length ws) <= fuel)%nat -> skip_blank fuel (IStream (ws ++ x :: rest) false false) = Ok (IStream (x :: rest) false false))
    by (intros; apply skip_ok; auto).
  exists (cx_extract strtod (S (length ws)) (IStream (ws ++ x :: rest) false false) z). split.
  - unfold cx_extract. rewrite SK by lia.
    repeat match goal with
    | |- context [let (a, b) := ?e in _] => destruct e
    | |- context [if ?b then _ else _] => destruct b
    | |- context [match ?o with Some _ => _ | None => _ end] => destruct o
    end; cbn [fst]; discriminate.
  - exists (S (length ws)). intros fuel Hf. eapply cx_after_skip; apply SK; auto.
Qed.

Lemma cx_divergence : forall strtod s z,
  (diverges (fun fuel => fst (cx_extract strtod fuel s z)) <-> (eofbit s = true \/ failbit s = true \/ Forall blank (buf s))) /\
  (~ (eofbit s = true \/ failbit s = true \/ Forall blank (buf s)) -> exists o, converges (fun fuel => fst (cx_extract strtod fuel s z)) o).
Proof.
  intros strtod s z.
  assert (TOT : ~ (eofbit s = true \/ failbit s = true \/ Forall blank (buf s)) -> exists o, converges (fun fuel => fst (cx_extract strtod fuel s z)) o).
  { intros H. destruct (cx_terminates strtod s z) as (o & NO & n & Hn).
    - unfold good. destruct (eofbit s), (failbit s); tauto.
    - tauto.
    - exists (fst o). split; auto. exists n. intros fuel Hf. rewrite Hn; auto. }
  split; auto. split.
  - intros D. destruct (eofbit s) eqn:E; auto. destruct (failbit s) eqn:F; auto. right. right.
    destruct (blank_split (buf s)) as [B|(ws & c & rest & E' & W & C)]; auto. exfalso.
    destruct TOT as (o & NO & n & Hn).
    + intros [H|[H|H]]; try discriminate. rewrite E' in H. apply Forall_app in H as (_ & H). inversion H; subst. unfold blank in *. lia.
    + apply NO. rewrite <- (Hn n) by lia. apply D.
  - intros H fuel. rewrite cx_hangs; auto. destruct H as [H|[H|H]]; auto; left; unfold good; rewrite H; destruct (eofbit s); auto.
Qed.

(** ** Printing *)

Lemma print_text : forall show a, cx_print show a =
  ["("%char] ++ show (re a) ++ [if dltb (im a) d0 then "-"%char else "+"%char] ++ show (dabs (im a)) ++ ["j"%char; ")"%char].
Proof. reflexivity. Qed.

(** What was printed is never read back. *)
Lemma print_unreadable : forall strtod show a ws l z fuel, Forall blank ws -> (length ws < fuel)%nat ->
  exists s', cx_extract strtod fuel (IStream (ws ++ cx_print show a ++ l) false false) z = (Throw WrongComplexLiteral, (s', z)).
Proof. intros. eexists. unfold cx_print. cbn [app]. rewrite reject_start; auto; reflexivity. Qed.

(** ** What is accepted *)

Lemma float_text_app : forall l m d s g t r, float_text m d s g l = (t, r) -> l = t ++ r.
Proof.
  induction l as [|c l IH]; intros m d s g t r H; cbn [float_text] in H; [inversion H; auto|].
  repeat match type of H with
  | (if ?b then _ else _) = _ => destruct b
  | (let (a, b) := float_text ?m ?d ?s ?g l in _) = _ => let E := fresh in destruct (float_text m d s g l) eqn:E; apply IH in E
  end; inversion H; subst; auto.
Qed.
Lemma number_text_app : forall l t r, number_text l = (t, r) -> l = t ++ r.
Proof.
  intros [|c l] t r H; unfold number_text in H; [inversion H; auto|]. destruct (is_sign_char c).
  - destruct (float_text false false false false l) eqn:E. apply float_text_app in E. inversion H; subst. auto.
  - apply float_text_app in H. auto.
Qed.
Lemma drop_space : forall l, exists w, l = w ++ drop_while isspace l /\ Forall (fun c => isspace c = true) w.
Proof.
  induction l as [|c l (w & E & W)]; [exists []; auto|]. cbn [drop_while]. destruct (isspace c) eqn:S.
  - exists (c :: w). split; [cbn; congruence|constructor; auto].
  - exists []. auto.
Qed.

Lemma peek_blank : forall l c s, peek (IStream l false false) = (c, s) -> c <= 32 -> ends l.
Proof. intros [|a l] c s H B; cbn in *; auto. inversion H; subst. exact B. Qed.

Lemma code_j : forall c, code c = 106 -> c = "j"%char.
Proof.
  intros c E. change 106 with (code "j") in E. unfold code in E. apply N2Z.inj in E.
  rewrite <- (ascii_N_embedding c), <- (ascii_N_embedding "j"). f_equal. exact E.
Qed.

(** ** [while (is >> z)] *)

(** The last number is lost when it is real. *)
Lemma loop_real : forall strtod t x, number t -> gives strtod t x ->
  converges (fun fuel => cx_read_loop strtod fuel (IStream t false false)) (Ok []).
Proof.
  intros strtod t x N V. split; [discriminate|]. exists 1%nat. intros fuel F. destruct fuel as [|n]; [lia|]. cbn [cx_read_loop].
  assert (E := skipped strtod [] t [] (S n) cx_zero (Forall_nil _) N ltac:(cbn; lia)). cbn [app] in E. rewrite app_nil_r in E. rewrite E.
  assert (R := read_real strtod t x [] cx_zero N V I). rewrite app_nil_r in R. rewrite R. reflexivity.
Qed.
(** Otherwise the loop does not end. *)
Lemma loop_imag : forall strtod t y, number t -> gives strtod t y ->
  diverges (fun fuel => cx_read_loop strtod fuel (IStream (t ++ ["j"%char]) false false)).
Proof.
  intros strtod t y N V fuel. destruct fuel as [|n]; auto. cbn [cx_read_loop].
  assert (E := skipped strtod [] t ["j"%char] (S n) cx_zero (Forall_nil _) N ltac:(cbn; lia)). cbn [app] in E. rewrite E.
  rewrite (read_imag strtod t y [] cx_zero N V I). cbn [is_nil failbit].
  replace (cx_read_loop strtod n (IStream [] true false)) with (@OutOfFuel (list Complex)); auto.
  destruct n; auto. cbn [cx_read_loop]. rewrite cx_hangs; auto.
Qed.
Lemma loop_both : forall strtod t u x y, number t -> gives strtod t x -> signed_number u -> gives strtod u y ->
  diverges (fun fuel => cx_read_loop strtod fuel (IStream (t ++ u ++ ["j"%char]) false false)).
Proof.
  intros strtod t u x y N V U VU fuel. destruct fuel as [|n]; auto. cbn [cx_read_loop].
  assert (E := skipped strtod [] t (u ++ ["j"%char]) (S n) cx_zero (Forall_nil _) N ltac:(cbn; lia)). cbn [app] in E. rewrite E.
  rewrite (read_both strtod t u x y [] cx_zero N V U VU I). cbn [is_nil failbit].
  replace (cx_read_loop strtod n (IStream [] true false)) with (@OutOfFuel (list Complex)); auto.
  destruct n; auto. cbn [cx_read_loop]. rewrite cx_hangs; auto.
Qed.
