(** Reading Fractions in a base other than ten: proofs. *)
From Coq Require Import ZArith QArith Ascii String List Bool Lia.
From Verif Require Import Outcome IntModel IntSpec IntBase IntIO StreamModel IntStream Show ShowFacts FloatModel
  FracModel FracSpec FracFacts FracGcd FracIO ComplexModel OStreamModel FStreamModel FStreamSpec FStreamFacts.
Import ListNotations.
Open Scope Z_scope.

Lemma digit_code : forall b c d, digit_is b c d -> digit_value c = Some (Z.of_nat d) /\ is_digit_in b c = true /\ 48 <= code c /\ is_sign_char c = false /\
  (code c =? 120) || (code c =? 88) = false /\ code c <> 47.
Proof.
  intros b c d (L & H). assert (V: digit_value c = Some (Z.of_nat d) /\ 48 <= code c /\ is_sign_char c = false /\ (code c =? 120) || (code c =? 88) = false /\ code c <> 47).
  { assert (K: (d < 16)%nat) by (destruct b; cbn in L; lia).
    do 16 (destruct d as [|d]; [destruct H as [H|H]; cbn in H; injection H as <-; vm_compute; repeat split; congruence|]). lia. }
  destruct V as (V1 & V2 & V3 & V4 & V5). split; auto. split; auto. unfold is_digit_in. rewrite V1. apply Z.ltb_lt. destruct b; exact L.
Qed.
Lemma digits_value : forall b t ds, Forall2 (digit_is b) t ds -> forallb (is_digit_in b) t = true /\ digits_in b t = value_in b ds.
Proof.
  intros b t ds H. split.
  - induction H as [|c d t ds C H IH]; cbn [forallb]; auto. destruct (digit_code _ _ _ C) as (_ & -> & _). auto.
  - unfold digits_in, value_in. assert (G: forall a, fold_left (fun acc c => acc * radix_of b + match digit_value c with Some d => d | None => 0 end) t a =
      fold_left (fun a d => a * base_value b + Z.of_nat d) ds a); [|apply G].
    induction H as [|c d t ds C H IH]; intros a; cbn [fold_left]; auto.
    destruct (digit_code _ _ _ C) as (-> & _). rewrite IH. destruct b; auto.
Qed.
Lemma value_pos : forall b ds, 0 <= value_in b ds.
Proof.
  intros b ds. unfold value_in. assert (H: forall a, 0 <= a -> 0 <= fold_left (fun a d => a * base_value b + Z.of_nat d) ds a); [|apply H; lia].
  induction ds as [|d ds IH]; intros a A; cbn [fold_left]; auto. apply IH. assert (0 <= base_value b) by (destruct b; cbn; lia). nia.
Qed.

Definition ends_at (rest : list ascii) : Prop := match rest with [] => True | c :: _ => code c <= 32 \/ code c = 47 end.
Lemma ends_digit : forall b c, code c <= 32 \/ code c = 47 -> is_digit_in b c = false /\ (code c =? 120) || (code c =? 88) = false.
Proof.
  intros b c H. unfold is_digit_in, digit_value. split.
  - repeat match goal with |- context [?a <=? ?b] => destruct (Z.leb_spec a b); try lia end; auto.
  - destruct (Z.eqb_spec (code c) 120), (Z.eqb_spec (code c) 88); auto; lia.
Qed.
Lemma span_digits : forall b l rest, forallb (is_digit_in b) l = true -> ends_at rest ->
  take_while (is_digit_in b) (l ++ rest) = l /\ drop_while (is_digit_in b) (l ++ rest) = rest.
Proof.
  intros b l rest F E. induction l as [|a l IH].
  - cbn [app]. destruct rest as [|c r]; cbn [take_while drop_while]; auto. destruct (ends_digit b c E) as (-> & _). auto.
  - cbn [forallb] in F. apply andb_true_iff in F as (A & F). cbn [app take_while drop_while]. rewrite A. destruct (IH F). split; congruence.
Qed.
Lemma prefix_drop : forall b pre t ds rest, prefix_of b pre -> t <> [] -> Forall2 (digit_is b) t ds -> ends_at rest ->
  (match b with Hex => drop_prefix (pre ++ t ++ rest) | _ => pre ++ t ++ rest end) = t ++ rest.
Proof.
  intros b pre t ds rest P N H E. destruct P as [->|(-> & [->| ->])]; try reflexivity. destruct b; auto. destruct H as [|c d t ds C H]; [congruence|]. cbn [app]. unfold drop_prefix.
  destruct H as [|c2 d2 t ds C2 H]; cbn [app].
  - destruct rest as [|r rest]; auto. destruct (ends_digit Hex r E) as (_ & ->). rewrite andb_false_r. auto.
  - destruct (digit_code _ _ _ C2) as (_ & _ & _ & _ & -> & _). rewrite andb_false_r. auto.
Qed.
Lemma body_read : forall b pre t ds rest, prefix_of b pre -> t <> [] -> Forall2 (digit_is b) t ds -> ends_at rest ->
  let body := match b with Hex => drop_prefix (pre ++ t ++ rest) | _ => pre ++ t ++ rest end in
  take_while (is_digit_in b) body = t /\ drop_while (is_digit_in b) body = rest /\ digits_in b t = value_in b ds.
Proof.
  intros b pre t ds rest P N H E. cbv zeta. rewrite (prefix_drop b pre t ds rest P N H E). destruct (digits_value _ _ _ H) as (F & V). destruct (span_digits b t rest F E) as (-> & ->). auto.
Qed.
Lemma body_first : forall b pre t ds, prefix_of b pre -> t <> [] -> Forall2 (digit_is b) t ds -> exists c r, pre ++ t = c :: r /\ 48 <= code c /\ is_sign_char c = false.
Proof.
  intros b pre t ds P N H. destruct P as [->|(-> & [->| ->])].
  - destruct H as [|c d t ds C H]; [congruence|]. destruct (digit_code _ _ _ C) as (_ & _ & A & B & _). exists c, t. auto.
  - eexists _, _. split; [reflexivity|]. vm_compute. split; congruence.
  - eexists _, _. split; [reflexivity|]. vm_compute. split; congruence.
Qed.

(** The whole text of a number is taken, its value stored. *)
Lemma f_int_numeral : forall b n z rest w, numeral b n z -> INT_MIN <= z <= INT_MAX -> ends_at rest ->
  f_int (FIStream (IStream (n ++ rest) false false) w true b) = (z, FIStream (IStream rest (is_nil rest) false) w true b).
Proof.
  intros b n z rest w N ZR E. unfold f_int, lead. cbn [bare good eofbit failbit orb negb andb skipws buf ibase].
  assert (G: forall (v : Z) (t : list ascii), t <> [] -> v = z -> match t with
    | [] => (0, with_bare (IStream rest match rest with [] => true | _ :: _ => false end true) (FIStream (IStream (n ++ rest) false false) w true b))
    | _ :: _ => if INT_MAX <? v then (INT_MAX, with_bare (IStream rest match rest with [] => true | _ :: _ => false end true) (FIStream (IStream (n ++ rest) false false) w true b))
      else if v <? INT_MIN then (INT_MIN, with_bare (IStream rest match rest with [] => true | _ :: _ => false end true) (FIStream (IStream (n ++ rest) false false) w true b))
      else (v, with_bare (IStream rest match rest with [] => true | _ :: _ => false end false) (FIStream (IStream (n ++ rest) false false) w true b)) end =
    (z, FIStream (IStream rest (is_nil rest) false) w true b)).
  { intros v t NT ->. destruct t as [|a l]; [congruence|]. destruct (Z.ltb_spec INT_MAX z); [lia|]. destruct (Z.ltb_spec z INT_MIN); [lia|]. unfold with_bare. cbn [iwidth skipws ibase].
    destruct rest; auto. }
  destruct N as [pre t ds P NT H|pre t ds P NT H|pre t ds P NT H]; destruct (body_first b pre t ds P NT H) as (c & r & Q & C & S); destruct (body_read b pre t ds rest P NT H E) as (T1 & T2 & V); cbv zeta in T1, T2.
  - rewrite app_assoc, Q in T1, T2. rewrite Q in *. cbn [app] in *. cbn [drop_while]. rewrite isspace_blank by lia. cbv zeta. rewrite S, T1, T2, V. destruct (Z.eqb_spec (code c) 45); [lia|]. apply G; auto.
  - change (("+"%char :: pre ++ t) ++ rest) with ("+"%char :: ((pre ++ t) ++ rest)) in *. rewrite <- app_assoc in *. cbn [drop_while]. rewrite isspace_blank by (vm_compute; reflexivity). cbv zeta.
    change (is_sign_char "+") with true. cbv iota. rewrite T1, T2, V. change (code "+" =? 45) with false. cbv iota. apply G; auto.
  - change (("-"%char :: pre ++ t) ++ rest) with ("-"%char :: ((pre ++ t) ++ rest)) in *. rewrite <- app_assoc in *. cbn [drop_while]. rewrite isspace_blank by (vm_compute; reflexivity). cbv zeta.
    change (is_sign_char "-") with true. cbv iota. rewrite T1, T2, V. change (code "-" =? 45) with true. cbv iota. apply G; auto.
Qed.

Lemma numeral_first : forall b n z, numeral b n z -> exists c r, n = c :: r /\ 32 < code c.
Proof.
  intros b n z [pre t ds P N H|pre t ds P N H|pre t ds P N H].
  - destruct (body_first b pre t ds P N H) as (c & r & -> & C & _). exists c, r. split; auto. lia.
  - eexists _, _. split; [reflexivity|]. vm_compute. auto.
  - eexists _, _. split; [reflexivity|]. vm_compute. auto.
Qed.
Lemma opens_number : forall c r, opens (c :: r) -> starts_number (code c) = true.
Proof.
  intros c r [H|H]; unfold starts_number.
  - unfold is_sign_char in H. apply orb_true_iff in H as [H|H]; rewrite H, ?orb_true_r; auto.
  - unfold is_digit_char in H. rewrite H. auto.
Qed.
Lemma not_opens_number : forall c r, ~ opens (c :: r) -> starts_number (code c) = false.
Proof.
  intros c r H. unfold opens, is_sign_char, is_digit_char in H. unfold starts_number. apply not_true_iff_false. intros A. apply H. rewrite !orb_true_iff in A. rewrite orb_true_iff. tauto.
Qed.

Lemma begin_read : forall b n z rest f0 fuel, numeral b n z -> (0 < fuel)%nat -> exists c r, n = c :: r /\
  frac_fextract fuel (input_in b (n ++ rest)) f0 =
    if starts_number (code c) then
      let (m, i2) := f_int (input_in b (n ++ rest)) in
      let (c1, i3) := f_peek i2 in
      if c1 <=? 32 then made (frac_of_int m) i3 f0
      else
        let (c, i4) := f_char i3 in
        let (c2, i5) := f_peek i4 in
        if negb (starts_number c2) then (Throw WrongFractionLiteral, (with_bare (peeked_again (bare i5)) i5, f0)) else
        let (d, i6) := f_int i5 in
        if negb (code (match c with Some c => c | None => zero end) =? 47) then (Throw WrongFractionLiteral, (i6, f0)) else
        let (c3, i7) := f_peek i6 in
        if 32 <? c3 then (Throw WrongFractionLiteral, (i7, f0)) else made (frac_make m d) i7 f0
    else (Throw WrongFractionLiteral, (input_in b (n ++ rest), f0)).
Proof.
  intros b n z rest f0 fuel N L. destruct (numeral_first b n z N) as (c & r & -> & C). exists c, r. split; auto.
  unfold input_in, frac_fextract. cbn [bare app]. destruct fuel as [|fuel]; [lia|]. cbn [skip_blank]. unfold peek at 1. cbn [good eofbit failbit orb negb andb buf app].
  destruct (Z.leb_spec (code c) 32); [lia|]. unfold with_bare. cbn [iwidth skipws ibase].
  unfold f_peek at 1. unfold peek at 1. cbn [bare good eofbit failbit orb negb andb buf]. unfold with_bare at 1. cbn [iwidth skipws ibase]. destruct (starts_number (code c)); reflexivity.
Qed.

Theorem read_whole_in : forall b n z rest f0 fuel, numeral b n z -> opens n -> fits1 z -> ends rest -> (0 < fuel)%nat ->
  exists s, frac_fextract fuel (input_in b (n ++ rest)) f0 = (Ok tt, (FIStream s 0 true b, Frac z 1)) /\ buf s = rest.
Proof.
  intros b n z rest f0 fuel N O F E L. destruct (begin_read b n z rest f0 fuel N L) as (c & r & -> & ->). rewrite (opens_number c r O). unfold input_in.
  assert (EA: ends_at rest) by (destruct rest; cbn in *; auto). assert (IR: INT_MIN <= z <= INT_MAX) by (unfold fits1, INT_MIN, INT_MAX in *; lia).
  rewrite (f_int_numeral b (c :: r) z rest 0 N IR EA). unfold f_peek, peek. cbn [bare].
  assert (F1: frac_of_int z = Ok (Frac z 1)).
  { unfold frac_of_int. apply (make_valid (Frac z 1)). unfold valid. cbn [num den]. split; [unfold INT_MAX; lia|]. split; [exact F|]. apply Z.gcd_1_r. }
  destruct rest as [|x rest]; cbn [good eofbit failbit is_nil orb negb andb buf].
  - change (-1 <=? 32) with true. cbv iota. rewrite F1. unfold made, with_bare. cbn [iwidth skipws ibase]. eexists. split; [reflexivity|]. reflexivity.
  - cbn in E. destruct (Z.leb_spec (code x) 32) as [_|]; [|unfold blank in E; lia]. rewrite F1. unfold made, with_bare. cbn [iwidth skipws ibase]. eexists. split; [reflexivity|]. reflexivity.
Qed.

Lemma slash_code : forall r, ends_at ("/"%char :: r).
Proof. intros r. right. reflexivity. Qed.

Lemma read_two : forall b n z m y rest f0 fuel, numeral b n z -> numeral b m y -> opens n -> opens m -> fits1 z -> fits1 y -> ends rest -> (0 < fuel)%nat ->
  frac_fextract fuel (input_in b (n ++ "/"%char :: m ++ rest)) f0 = made (frac_make z y) (FIStream (IStream rest (is_nil rest) (is_nil rest)) 0 true b) f0.
Proof.
  intros b n z m y rest f0 fuel N M O1 O2 F1 F2 E L. destruct (begin_read b n z ("/"%char :: m ++ rest) f0 fuel N L) as (c & r & -> & ->). rewrite (opens_number c r O1). unfold input_in.
  assert (IR: INT_MIN <= z <= INT_MAX) by (unfold fits1, INT_MIN, INT_MAX in *; lia). assert (IR2: INT_MIN <= y <= INT_MAX) by (unfold fits1, INT_MIN, INT_MAX in *; lia).
  rewrite (f_int_numeral b (c :: r) z _ 0 N IR (slash_code _)). change (is_nil ("/"%char :: m ++ rest)) with false.
  change (f_peek (FIStream (IStream ("/"%char :: m ++ rest) false false) 0 true b)) with (47, FIStream (IStream ("/"%char :: m ++ rest) false false) 0 true b). cbv iota.
  change (47 <=? 32) with false. cbv iota.
  change (f_char (FIStream (IStream ("/"%char :: m ++ rest) false false) 0 true b)) with (Some "/"%char, FIStream (IStream (m ++ rest) false false) 0 true b). cbv iota.
  destruct (numeral_first b m y M) as (c2 & r2 & -> & C2).
  change (f_peek (FIStream (IStream ((c2 :: r2) ++ rest) false false) 0 true b)) with (code c2, FIStream (IStream ((c2 :: r2) ++ rest) false false) 0 true b). cbv iota.
  rewrite (opens_number c2 r2 O2). cbn [negb].
  assert (EA: ends_at rest) by (destruct rest; cbn in *; auto). rewrite (f_int_numeral b (c2 :: r2) y rest 0 M IR2 EA).
  change (code "/" =? 47) with true. cbn [negb]. destruct rest as [|x rest]; [reflexivity|].
  change (f_peek (FIStream (IStream (x :: rest) (is_nil (x :: rest)) false) 0 true b)) with (code x, FIStream (IStream (x :: rest) false false) 0 true b). cbv iota.
  cbn in E. unfold blank in E. destruct (Z.ltb_spec 32 (code x)); [lia|]. reflexivity.
Qed.
Theorem read_quotient_in : forall b n z m y rest f0 fuel, numeral b n z -> numeral b m y -> opens n -> opens m -> fits1 z -> fits1 y -> ends rest -> (0 < fuel)%nat ->
  exists s, buf s = rest /\ let o := frac_fextract fuel (input_in b (n ++ "/"%char :: m ++ rest)) f0 in
  (y = 0 -> o = (Throw DivideByZero, (FIStream s 0 true b, f0))) /\
  (y <> 0 -> exists r, o = (Ok tt, (FIStream s 0 true b, r)) /\ valid r /\ (qval r == inject_Z z / inject_Z y)%Q).
Proof.
  intros b n z m y rest f0 fuel N M O1 O2 F1 F2 E L. exists (IStream rest (is_nil rest) (is_nil rest)). split; auto. cbv zeta. rewrite (read_two b n z m y rest f0 fuel); auto.
  assert (IR: fits z) by (unfold fits, fits1, INT_MIN, INT_MAX in *; lia). assert (IR2: fits y) by (unfold fits, fits1, INT_MIN, INT_MAX in *; lia).
  destruct (make_cases z y IR IR2) as [(Y & ->)|[(Y & B & _)|(Y & _ & _ & q & -> & V & X)]].
  - split; [reflexivity|congruence].
  - exfalso. apply B. auto.
  - split; [congruence|]. intros _. exists q. split; auto. split; auto. apply qval_cross; auto. apply V.
Qed.

Theorem letter_refused : forall b n z rest f0 fuel, numeral b n z -> ~ opens n -> (0 < fuel)%nat ->
  frac_fextract fuel (input_in b (n ++ rest)) f0 = (Throw WrongFractionLiteral, (input_in b (n ++ rest), f0)).
Proof. intros b n z rest f0 fuel N O L. destruct (begin_read b n z rest f0 fuel N L) as (c & r & -> & ->). rewrite (not_opens_number c r O). auto. Qed.

Theorem prefix_twice : forall rest f0 fuel, (0 < fuel)%nat ->
  exists j, frac_fextract fuel (input_in Hex (list_ascii_of_string "0x0x" ++ rest)) f0 = (Throw WrongFractionLiteral, (j, f0)).
Proof.
  intros rest f0 [|fuel] L; [lia|]. unfold input_in, frac_fextract. cbn [bare].
  change (skip_blank (S fuel) (IStream (list_ascii_of_string "0x0x" ++ rest) false false)) with (Ok (IStream (list_ascii_of_string "0x0x" ++ rest) false false)). cbv iota.
  unfold with_bare at 1. cbn [iwidth skipws ibase].
  change (f_peek (FIStream (IStream (list_ascii_of_string "0x0x" ++ rest) false false) 0 true Hex)) with (48, FIStream (IStream (list_ascii_of_string "0x0x" ++ rest) false false) 0 true Hex). cbv iota.
  change (negb (starts_number 48)) with false. cbv iota.
  change (f_int (FIStream (IStream (list_ascii_of_string "0x0x" ++ rest) false false) 0 true Hex)) with (0, FIStream (IStream ("x"%char :: rest) false false) 0 true Hex). cbv iota.
  change (f_peek (FIStream (IStream ("x"%char :: rest) false false) 0 true Hex)) with (120, FIStream (IStream ("x"%char :: rest) false false) 0 true Hex). cbv iota.
  change (120 <=? 32) with false. cbv iota. change (f_char (FIStream (IStream ("x"%char :: rest) false false) 0 true Hex)) with (Some "x"%char, FIStream (IStream rest false false) 0 true Hex). cbv iota.
  destruct (f_peek _) as (c2, i5). destruct (starts_number c2); cbn [negb]; [|eexists; reflexivity]. destruct (f_int i5) as (d, i6). change (code "x" =? 47) with false. cbn [negb]. eexists. reflexivity.
Qed.
