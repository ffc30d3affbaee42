(** Reading from streams with formatting state. *)
From Coq Require Import ZArith QArith List Bool Ascii Lia.
From Verif Require Import Outcome IntModel IntSpec IntBase IntIO StreamModel IntStream Show ShowFacts FloatModel
  FracModel FracSpec FracFacts FracGcd FracIO ComplexModel OStreamModel FStreamModel FStreamSpec.
Import ListNotations.
Open Scope Z_scope.

(** ** The default state *)

Lemma bare_with : forall i, with_bare (bare i) i = i.
Proof. intros []; auto. Qed.

Lemma string_plain : forall i, plain i -> f_string i = (fst (extract_string (bare i)), with_bare (snd (extract_string (bare i))) i).
Proof.
  intros [s w k b] (W & K & B). cbn in W, K, B. subst. unfold f_string, extract_string, lead. cbn [bare skipws iwidth].
  destruct (good s); cbn [negb]; auto. destruct (drop_while isspace (buf s)) as [|c l] eqn:E; [auto|].
  change (0 <? 0) with false. cbn [andb negb]. cbv iota zeta.
  assert (N: isspace c = false).
  { clear - E. induction (buf s) as [|a r IH]; cbn in E; [discriminate|]. destruct (isspace a) eqn:I; auto. injection E as -> _. auto. }
  set (f := fun c0 => negb (isspace c0)).
  assert (T: forall r, take_while f r ++ drop_while f r = r /\ skipn (length (take_while f r)) r = drop_while f r).
  { induction r as [|a r (I1 & I2)]; cbn [take_while drop_while length skipn app]; auto. destruct (f a); cbn [length skipn app]; auto. split; congruence. }
  cbn [fst snd]. rewrite (proj2 (T (c :: l))). unfold with_width, with_bare. cbn [bare iwidth skipws ibase]. f_equal.
  f_equal. cbn [take_while drop_while]. assert (F: f c = true) by (unfold f; rewrite N; auto). rewrite F. destruct (drop_while f l); auto.
Qed.

Lemma int_plain : forall i x, plain i -> int_fextract i x = lifted i (int_extract (bare i) x).
Proof.
  intros i x P. unfold int_fextract, int_extract. rewrite string_plain by auto. destruct (extract_string (bare i)) as (t, s). cbn [fst snd].
  destruct (int_of_chars (c_str t)); reflexivity.
Qed.

Lemma peek_plain : forall i, f_peek i = (fst (peek (bare i)), with_bare (snd (peek (bare i))) i).
Proof. intros i. unfold f_peek. destruct (peek (bare i)); auto. Qed.

Lemma digit_dec : forall c, is_digit_in Dec c = is_digit_char c.
Proof. intros c. unfold is_digit_in, digit_value, is_digit_char, radix_of. destruct (Z.leb_spec 48 (code c)), (Z.leb_spec (code c) 57); cbn [andb];
  repeat match goal with |- context [?a <=? ?b] => destruct (Z.leb_spec a b) end; cbn [andb]; try (apply Z.ltb_lt; lia); try apply Z.ltb_ge; auto; try lia. Qed.

Lemma while_ext : forall f g l, (forall c, f c = g c) -> take_while f l = take_while g l /\ drop_while f l = drop_while g l.
Proof. intros f g l H. induction l as [|a l (I1 & I2)]; cbn; auto. rewrite <- H. destruct (f a); split; congruence. Qed.

Lemma digits_dec : forall l, forallb is_digit_char l = true -> digits_in Dec l = dec_digits l.
Proof.
  intros l. unfold digits_in, dec_digits.
  enough (G: forall acc, forallb is_digit_char l = true ->
    fold_left (fun acc c => acc * radix_of Dec + match digit_value c with Some d => d | None => 0 end) l acc =
    fold_left (fun acc c => acc * 10 + (code c - 48)) l acc) by apply G.
  induction l as [|c l IH]; intros acc F; cbn [fold_left]; auto.
  cbn [forallb] in F. apply andb_true_iff in F as (C & F). rewrite IH by auto. f_equal. unfold digit_value, is_digit_char in *. rewrite C. cbn [radix_of]. lia.
Qed.

Lemma take_all : forall f l, forallb f (take_while f l) = true.
Proof. induction l; cbn; auto. destruct (f a) eqn:E; cbn; auto. rewrite E. auto. Qed.

Lemma f_int_plain : forall i, skipws i = true -> ibase i = Dec -> f_int i = (fst (extract_int (bare i)), with_bare (snd (extract_int (bare i))) i).
Proof.
  intros [s w k b] K B. cbn in K, B. subst. unfold f_int, extract_int, lead. cbn [bare skipws ibase].
  destruct (good s); cbn [negb]; auto. destruct (drop_while isspace (buf s)) as [|c l]; auto. cbv zeta.
  set (body := if is_sign_char c then l else c :: l).
  destruct (while_ext (is_digit_in Dec) is_digit_char body digit_dec) as (-> & ->).
  rewrite digits_dec by apply take_all. destruct (take_while is_digit_char body) as [|d ds]; auto.
  destruct (INT_MAX <? _); auto. destruct (_ <? INT_MIN); auto.
Qed.

Lemma f_char_plain : forall i, skipws i = true ->
  (match fst (f_char i) with Some c => c | None => zero end, snd (f_char i)) = (fst (extract_char (bare i)), with_bare (snd (extract_char (bare i))) i).
Proof.
  intros [s w k b] K. cbn in K. subst. unfold f_char, extract_char, lead. cbn [bare skipws].
  destruct (good s); cbn [negb]; auto. destruct (drop_while isspace (buf s)); auto.
Qed.

Lemma frac_plain : forall fuel i f, skipws i = true -> ibase i = Dec -> frac_fextract fuel i f = lifted i (frac_extract fuel (bare i) f).
Proof.
  intros fuel i f K B. unfold frac_fextract, frac_extract. destruct (skip_blank fuel (bare i)) as [s| | |]; try (unfold lifted; cbn [fst snd]; rewrite bare_with; auto; fail).
  assert (I: forall s, skipws (with_bare s i) = true /\ ibase (with_bare s i) = Dec /\ bare (with_bare s i) = s /\ forall t, with_bare t (with_bare s i) = with_bare t i)
    by (intros; cbn; auto).
  rewrite peek_plain. destruct (I s) as (_ & _ & -> & ->). destruct (peek s) as (c0, s1). cbn [fst snd].
  destruct (starts_number c0); cbn [negb]; [|reflexivity].
  rewrite f_int_plain by apply I. destruct (I s1) as (_ & _ & -> & ->). destruct (extract_int s1) as (n, s2). cbn [fst snd].
  rewrite peek_plain. destruct (I s2) as (_ & _ & -> & ->). destruct (peek s2) as (c1, s3). cbn [fst snd].
  destruct (c1 <=? 32); [destruct (frac_of_int n); reflexivity|].
  pose proof (f_char_plain (with_bare s3 i) (proj1 (I s3))) as C. destruct (I s3) as (_ & _ & E1 & E2). rewrite E1, E2 in C.
  destruct (f_char (with_bare s3 i)) as (oc, i4). destruct (extract_char s3) as (c, s4). cbn [fst snd] in C. injection C as C ->.
  rewrite peek_plain. destruct (I s4) as (_ & _ & -> & ->). destruct (peek s4) as (c2, s5). cbn [fst snd].
  destruct (starts_number c2); cbn [negb]; [|reflexivity].
  rewrite f_int_plain by apply I. destruct (I s5) as (_ & _ & -> & ->). destruct (extract_int s5) as (d, s6). cbn [fst snd]. rewrite C.
  destruct (code c =? 47); cbn [negb]; [|reflexivity].
  rewrite peek_plain. destruct (I s6) as (_ & _ & -> & ->). destruct (peek s6) as (c3, s7). cbn [fst snd].
  destruct (32 <? c3); [reflexivity|]. destruct (frac_make n d); reflexivity.
Qed.

Lemma f_double_plain : forall strtod i, skipws i = true -> f_double strtod i = (fst (extract_double strtod (bare i)), with_bare (snd (extract_double strtod (bare i))) i).
Proof.
  intros strtod [s w k b] K. cbn in K. subst. unfold f_double, extract_double, lead. cbn [bare skipws].
  destruct (good s); cbn [negb]; auto. destruct (drop_while isspace (buf s)); auto. destruct (number_text _) as (t, rest). destruct (strtod t). auto.
Qed.
Lemma f_char_opt : forall i, skipws i = true -> f_char i = (fst (extract_char_opt (bare i)), with_bare (snd (extract_char_opt (bare i))) i).
Proof.
  intros [s w k b] K. cbn in K. subst. unfold f_char, extract_char_opt, lead. cbn [bare skipws].
  destruct (good s); cbn [negb]; auto. destruct (drop_while isspace (buf s)); auto.
Qed.

Lemma cx_plain : forall strtod fuel i z, skipws i = true -> cx_fextract strtod fuel i z = lifted i (cx_extract strtod fuel (bare i) z).
Proof.
  intros strtod fuel i z K. unfold cx_fextract, cx_extract. destruct (skip_blank fuel (bare i)) as [s| | |]; try (unfold lifted; cbn [fst snd]; rewrite bare_with; auto; fail).
  assert (I: forall s, skipws (with_bare s i) = true /\ bare (with_bare s i) = s /\ forall t, with_bare t (with_bare s i) = with_bare t i)
    by (intros; cbn; auto).
  rewrite peek_plain. destruct (I s) as (_ & -> & ->). destruct (peek s) as (c0, s1). cbn [fst snd].
  destruct (starts_complex c0); cbn [negb]; [|reflexivity].
  rewrite f_double_plain by apply I. destruct (I s1) as (_ & -> & ->). destruct (extract_double strtod s1) as (real, s2). cbn [fst snd].
  rewrite peek_plain. destruct (I s2) as (_ & -> & ->). destruct (peek s2) as (c1, s3). cbn [fst snd].
  destruct (c1 <=? 32); [destruct real; reflexivity|].
  destruct (c1 =? 106).
  { destruct (I s3) as (_ & -> & ->). rewrite peek_plain. destruct (I (ignore s3)) as (_ & -> & ->). destruct (peek (ignore s3)) as (c2, s5). cbn [fst snd].
    destruct (c2 <=? 32); [destruct real; reflexivity|reflexivity]. }
  rewrite f_double_plain by apply I. destruct (I s3) as (_ & -> & ->). destruct (extract_double strtod s3) as (imag, s4). cbn [fst snd].
  rewrite f_char_opt by apply I. destruct (I s4) as (_ & -> & ->). destruct (extract_char_opt s4) as (oc, s5). cbn [fst snd].
  destruct oc as [c|]; [|reflexivity]. destruct (code c =? 106); cbn [negb]; [|reflexivity].
  rewrite peek_plain. destruct (I s5) as (_ & -> & ->). destruct (peek s5) as (c3, s6). cbn [fst snd].
  destruct (32 <? c3); [reflexivity|]. destruct real, imag; reflexivity.
Qed.

(** ** The field width *)

Lemma drop_spaces : forall ws t rest, forallb isspace ws = true -> t <> [] -> forallb (fun c => negb (isspace c)) t = true ->
  drop_while isspace (ws ++ t ++ rest) = t ++ rest.
Proof.
  intros ws t rest W N T. rewrite drop_while_app by auto. destruct t as [|c t]; [congruence|]. cbn in *. apply andb_true_iff in T as (C & _).
  destruct (isspace c); [discriminate|auto].
Qed.

Lemma c_str_firstn : forall n t, forallb (fun c => negb (code c =? 0)) t = true -> c_str (firstn n t) = firstn n t.
Proof.
  intros n t F. unfold c_str. rewrite <- (app_nil_r (firstn n t)) at 1. rewrite take_while_app, app_nil_r; auto.
  revert n. induction t as [|a t IH]; intros [|n]; cbn in *; auto. apply andb_true_iff in F as (-> & F). cbn. auto.
Qed.

Lemma string_width : forall ws t rest n b, forallb isspace ws = true -> t <> [] -> forallb (fun c => negb (isspace c)) t = true ->
  stops (fun c => negb (isspace c)) rest -> 0 < n ->
  f_string (FIStream (IStream (ws ++ t ++ rest) false false) n true b) =
    (firstn (Z.to_nat n) t, FIStream (IStream (skipn (Z.to_nat n) t ++ rest) (is_nil (skipn (Z.to_nat n) t ++ rest) && (Z.of_nat (length t) <? n)) false) 0 true b).
Proof.
  intros ws t rest n b W N T S P. unfold f_string, lead. cbn [bare good eofbit failbit negb andb skipws buf iwidth].
  rewrite drop_spaces by auto. destruct (t ++ rest) as [|x l] eqn:E; [destruct t; [congruence|discriminate]|]. rewrite <- E.
  cbv zeta. clear E x l. destruct (Z.ltb_spec 0 n); [|lia]. cbn [andb].
  rewrite take_while_app, take_while_stop, app_nil_r by auto. set (k := Z.to_nat n).
  assert (L: length (firstn k t) = Nat.min k (length t)) by apply firstn_length.
  assert (Sk: skipn (length (firstn k t)) (t ++ rest) = skipn k t ++ rest).
  { rewrite skipn_app, L. destruct (Nat.le_gt_cases k (length t)).
    - rewrite Nat.min_l by auto. replace (k - length t)%nat with O by lia. auto.
    - rewrite Nat.min_r by lia. rewrite Nat.sub_diag, skipn_all, (skipn_all2 (n:=k)) by lia. auto. }
  rewrite Sk. unfold with_width, with_bare. cbn [bare iwidth skipws ibase]. f_equal. f_equal. f_equal.
  - destruct (skipn k t ++ rest) as [|x l] eqn:E; cbn [is_nil andb]; auto. apply app_eq_nil in E as (E & _).
    assert (length t <= k)%nat by (rewrite <- (firstn_skipn k t), E, app_nil_r; rewrite firstn_length; lia).
    rewrite L. destruct (Z.leb_spec n (Z.of_nat (Nat.min k (length t)))), (Z.ltb_spec (Z.of_nat (length t)) n); auto; unfold k in *; lia.
  - destruct (firstn k t) eqn:E; auto. destruct t; [congruence|]. destruct k eqn:K; [unfold k in K; lia|discriminate].
Qed.

Lemma int_width_ok : forall ws t rest n b x z, forallb isspace ws = true -> t <> [] -> forallb (fun c => negb (isspace c)) t = true ->
  forallb (fun c => negb (code c =? 0)) t = true -> stops (fun c => negb (isspace c)) rest -> 0 < n -> literal (firstn (Z.to_nat n) t) = Some z ->
  exists y s, repr y z /\ buf s = skipn (Z.to_nat n) t ++ rest /\ failbit s = false /\
    int_fextract (FIStream (IStream (ws ++ t ++ rest) false false) n true b) x = (Ok tt, (FIStream s 0 true b, y)).
Proof.
  intros ws t rest n b x z W N T Z0 S P L. unfold int_fextract. rewrite string_width by auto. rewrite c_str_firstn by auto.
  destruct (int_of_chars_ok _ _ L) as (y & -> & R). exists y. eexists. split; [eauto|]. split; [|split; [|reflexivity]]; reflexivity.
Qed.
Lemma int_width_bad : forall ws t rest n b x, forallb isspace ws = true -> t <> [] -> forallb (fun c => negb (isspace c)) t = true ->
  forallb (fun c => negb (code c =? 0)) t = true -> stops (fun c => negb (isspace c)) rest -> 0 < n -> literal (firstn (Z.to_nat n) t) = None ->
  exists s, buf s = skipn (Z.to_nat n) t ++ rest /\ failbit s = false /\
    int_fextract (FIStream (IStream (ws ++ t ++ rest) false false) n true b) x = (Throw WrongIntegerLiteral, (FIStream s 0 true b, x)).
Proof.
  intros ws t rest n b x W N T Z0 S P L. unfold int_fextract. rewrite string_width by auto. rewrite c_str_firstn by auto.
  rewrite int_of_chars_bad by auto. eexists. split; [|split; [|reflexivity]]; reflexivity.
Qed.

(** A number read in two pieces. *)
Lemma dec_of_split : forall a b acc r, dec_of acc (a ++ b) = Some r ->
  exists p q, dec_of acc a = Some p /\ dec_of 0 b = Some q /\ r = p * 10 ^ Z.of_nat (length b) + q.
Proof.
  induction a as [|c a IH]; intros b acc r H; cbn [app dec_of] in H.
  - exists acc. revert acc r H. induction b as [|c b IHb]; intros acc r H; cbn [dec_of length] in *.
    + exists 0. injection H as <-. split; [auto|]. split; auto. change (10 ^ Z.of_nat 0) with 1. lia.
    + destruct (digit_of c) as [d|]; [|discriminate]. destruct (IHb _ _ H) as (q & _ & Q & ->).
      destruct (dec_of (10 * 0 + d) b) as [q'|] eqn:E.
      * exists q'. split; auto. split; auto. destruct (IHb _ _ E) as (q2 & _ & Q2 & ->). assert (q2 = q) by congruence. subst.
        rewrite Nat2Z.inj_succ, Z.pow_succ_r by lia. ring.
      * exfalso. clear - E Q. assert (G: forall l a1 a2, dec_of a1 l = None -> dec_of a2 l = None).
        { induction l; intros a1 a2 H; cbn in *; [discriminate|]. destruct (digit_of a); eauto. }
        rewrite (G _ _ 0 E) in Q. discriminate.
  - cbn [dec_of]. destruct (digit_of c); [|discriminate]. eauto.
Qed.

Lemma digits_literal : forall ds, ds <> [] -> forallb is_digit_char ds = true -> exists z, literal ds = Some z /\ dec_of 0 ds = Some z.
Proof.
  intros [|c b] N F; [congruence|]. exists (fold_left (fun a c => 10 * a + (code c - 48)) (c :: b) 0).
  destruct (dec_of_forallb (c :: b) 0) as (A & _). specialize (A F).
  rewrite literal_digits; auto. cbn [forallb] in F. apply andb_true_iff in F as (F & _).
  unfold is_digit_char, is_sign_char in *. apply andb_true_iff in F as (F1 & F2). apply Z.leb_le in F1, F2.
  destruct (Z.eqb_spec (code c) 43), (Z.eqb_spec (code c) 45); auto; lia.
Qed.

Lemma digit_plain : forall ds, forallb is_digit_char ds = true ->
  forallb (fun c => negb (isspace c)) ds = true /\ forallb (fun c => negb (code c =? 0)) ds = true.
Proof.
  intros ds F. split; apply forallb_forall; intros c I; apply (proj1 (forallb_forall _ _) F) in I;
    unfold is_digit_char, isspace in *; apply andb_true_iff in I as (I1 & I2); apply Z.leb_le in I1, I2.
  - destruct (Z.eqb_spec (code c) 32), (Z.leb_spec 9 (code c)), (Z.leb_spec (code c) 13); auto; lia.
  - destruct (Z.eqb_spec (code c) 0); auto; lia.
Qed.

Lemma int_pieces : forall ws ds rest n b x1 x2 z, forallb isspace ws = true -> forallb is_digit_char ds = true -> 0 < n < Z.of_nat (length ds) ->
  stops (fun c => negb (isspace c)) rest -> literal ds = Some z ->
  exists y1 y2 p q i1 s2, repr y1 p /\ repr y2 q /\ z = p * 10 ^ (Z.of_nat (length ds) - n) + q /\
    int_fextract (FIStream (IStream (ws ++ ds ++ rest) false false) n true b) x1 = (Ok tt, (i1, y1)) /\
    int_fextract i1 x2 = (Ok tt, (FIStream s2 0 true b, y2)) /\ buf s2 = rest.
Proof.
  intros ws ds rest n b x1 x2 z W F P S L. set (k := Z.to_nat n).
  destruct (digit_plain ds F) as (F1 & F2). assert (N: ds <> []) by (intros ->; cbn in P; lia).
  destruct (digits_literal ds N F) as (z' & L1 & D). assert (z' = z) by congruence. subst z'.
  rewrite <- (firstn_skipn k ds) in D. destruct (dec_of_split _ _ _ _ D) as (p & q & Dp & Dq & E).
  assert (Ff: forallb is_digit_char (firstn k ds) = true /\ forallb is_digit_char (skipn k ds) = true).
  { rewrite <- (firstn_skipn k ds), forallb_app in F. apply andb_true_iff in F. auto. }
  destruct Ff as (Ff & Fs).
  assert (Nf: firstn k ds <> []). { intros H. apply (f_equal (@length _)) in H. rewrite firstn_length in H. cbn in H. unfold k in H. lia. }
  assert (Ns: skipn k ds <> []). { intros H. apply (f_equal (@length _)) in H. rewrite skipn_length in H. cbn in H. unfold k in H. lia. }
  destruct (digits_literal _ Nf Ff) as (p' & Lp & Dp'). assert (p' = p) by congruence. subst p'.
  destruct (digits_literal _ Ns Fs) as (q' & Lq & Dq'). assert (q' = q) by congruence. subst q'.
  destruct (int_width_ok ws ds rest n b x1 p) as (y1 & s1 & R1 & B1 & Fl & E1); auto; [lia|].
  unfold int_fextract in E1. rewrite string_width in E1 by (auto; lia). rewrite c_str_firstn in E1 by auto. fold k in E1.
  destruct (int_of_chars (firstn k ds)) eqn:Eo; try discriminate. injection E1 as E1 ->.
  destruct (digit_plain _ Fs) as (G1 & G2).
  destruct (extract_ok [] (skipn k ds) rest x2 q) as (y2 & R2 & E2); auto.
  { rewrite <- (firstn_all (skipn k ds)), c_str_firstn by auto. rewrite firstn_all. auto. }
  exists y1, y2, p, q, (FIStream s1 0 true b). eexists. split; auto. split; auto. split.
  { rewrite E. f_equal. f_equal. f_equal. rewrite skipn_length. unfold k. lia. }
  split; [|split].
  - unfold int_fextract. rewrite string_width by (auto; lia). rewrite c_str_firstn by auto. fold k. rewrite Eo, <- E1. reflexivity.
  - rewrite <- E1. cbn [app] in E2. destruct (skipn k ds ++ rest) as [|c0 l0] eqn:Ec; [destruct (skipn k ds); [congruence|discriminate]|].
    rewrite <- Ec in *. clear Ec c0 l0.
    replace (is_nil (skipn k ds ++ rest)) with false by (destruct (skipn k ds); [congruence|auto]). cbn [andb].
    unfold int_fextract, f_string, lead. cbn [bare good eofbit failbit negb andb skipws buf iwidth].
    change (drop_while isspace (skipn k ds ++ rest)) with (drop_while isspace ([] ++ skipn k ds ++ rest)). rewrite drop_spaces by auto.
    unfold int_extract in E2. pose proof (extract_token [] (skipn k ds) rest eq_refl Ns G1 S) as ET. cbn [app] in ET. rewrite ET in E2. clear ET.
    destruct (skipn k ds ++ rest) as [|c0 l0] eqn:Ec; [destruct (skipn k ds); [congruence|discriminate]|]. rewrite <- Ec. clear E1.
    cbv zeta. change (0 <? 0) with false. cbn [andb negb]. rewrite take_while_app, take_while_stop, app_nil_r by auto.
    replace (skipn (length (skipn k ds)) (skipn k ds ++ rest)) with rest.
    2:{ rewrite skipn_app, Nat.sub_diag, skipn_all. auto. }
    destruct (int_of_chars (c_str (skipn k ds))); try discriminate. injection E2 as E2. subst. reflexivity.
  - reflexivity.
Qed.

(** ** What is left of the formatting state *)

Lemma kept_bare : forall s i j, kept i j -> kept i (with_bare s j).
Proof. intros s i j H. exact H. Qed.
Lemma kept_peek : forall i j, kept i j -> kept i (snd (f_peek j)).
Proof. intros i j H. unfold f_peek. destruct (peek (bare j)). exact H. Qed.
Lemma kept_int : forall i j, kept i j -> kept i (snd (f_int j)).
Proof.
  intros i j H. unfold f_int. destruct (good (bare j)); cbn [negb]; [|exact H]. destruct (lead j) as [|c b]; [exact H|]. cbv zeta.
  destruct (take_while _ _); [exact H|]. destruct (INT_MAX <? _); [exact H|]. destruct (_ <? INT_MIN); exact H.
Qed.
Lemma kept_char : forall i j, kept i j -> kept i (snd (f_char j)).
Proof. intros i j H. unfold f_char. destruct (good (bare j)); cbn [negb]; [|exact H]. destruct (lead j); exact H. Qed.
Lemma kept_double : forall f i j, kept i j -> kept i (snd (f_double f j)).
Proof.
  intros f i j H. unfold f_double. destruct (good (bare j)); cbn [negb]; [|exact H]. destruct (lead j); [exact H|].
  destruct (number_text _) as (t, r). destruct (f t). exact H.
Qed.
Lemma kept_made : forall A (o : outcome A) i j x, kept i j -> kept i (fst (snd (made o j x))).
Proof. intros A [] i j x H; exact H. Qed.

Ltac step L := match goal with
  | |- context [let (_, _) := ?f in _] => let K := fresh "K" in pose proof (L : kept _ (snd f)) as K; destruct f as (?, ?); cbn [snd] in K
  end.

Lemma frac_keeps : forall fuel i f, kept i (fst (snd (frac_fextract fuel i f))).
Proof.
  intros fuel i f. unfold frac_fextract. assert (K0: kept i i) by (repeat split). destruct (skip_blank fuel (bare i)) as [s| | |]; try exact K0.
  assert (K: kept i (with_bare s i)) by exact K0.
  step (kept_peek _ _ K). destruct (starts_number z); cbn [negb]; [|exact K1]. clear K.
  step (kept_int _ _ K1). clear K1. step (kept_peek _ _ K). clear K. destruct (z1 <=? 32); [apply kept_made; auto|].
  step (kept_char _ _ K1). clear K1. step (kept_peek _ _ K). clear K. destruct (starts_number z2); cbn [negb]; [|exact K1].
  step (kept_int _ _ K1). clear K1. destruct (_ =? 47); cbn [negb]; [|exact K].
  step (kept_peek _ _ K). destruct (32 <? z4); [exact K1|apply kept_made; auto].
Qed.

Lemma cx_keeps : forall strtod fuel i z, kept i (fst (snd (cx_fextract strtod fuel i z))).
Proof.
  intros strtod fuel i z. unfold cx_fextract. assert (K0: kept i i) by (repeat split). destruct (skip_blank fuel (bare i)) as [s| | |]; try exact K0.
  assert (K: kept i (with_bare s i)) by exact K0.
  step (kept_peek _ _ K). destruct (starts_complex z0); cbn [negb]; [|exact K1]. clear K.
  step (kept_double strtod _ _ K1). clear K1. step (kept_peek _ _ K). clear K. destruct (z1 <=? 32); [apply kept_made; auto|].
  destruct (z1 =? 106).
  - step (kept_peek _ _ (kept_bare (ignore (bare f1)) _ _ K1)). destruct (z2 <=? 32); [apply kept_made; auto|exact K].
  - step (kept_double strtod _ _ K1). clear K1. step (kept_char _ _ K). clear K. destruct o1 as [c|]; [|exact K1].
    destruct (code c =? 106); cbn [negb]; [|exact K1]. step (kept_peek _ _ K1). destruct (32 <? z2); [exact K|apply kept_made; auto].
Qed.

(** ** noskipws *)

Lemma lead_nospace : forall i k, match buf (bare i) with [] => False | c :: _ => isspace c = false end -> lead (set_skip k i) = buf (bare i).
Proof. intros i k H. unfold lead. cbn [set_skip skipws bare]. destruct k; auto. destruct (buf (bare i)) as [|c b]; [contradiction|]. cbn. rewrite H. auto. Qed.

Lemma peek_front : forall i c j, f_peek i = (c, j) -> 32 < c -> j = i /\ match buf (bare i) with [] => False | c0 :: _ => isspace c0 = false end.
Proof.
  intros i c j H C. unfold f_peek, peek in H. destruct (good (bare i)); cbn [negb] in H; [|injection H as <- _; lia].
  destruct (buf (bare i)) as [|a b]; injection H as <- <-; [lia|]. split; [apply bare_with|apply isspace_blank; auto].
Qed.

Lemma peek_skip : forall k i, f_peek (set_skip k i) = (fst (f_peek i), set_skip k (snd (f_peek i))).
Proof. intros k i. unfold f_peek. cbn [bare set_skip]. destruct (peek (bare i)). reflexivity. Qed.

Lemma lead_front : forall i k, match buf (bare i) with [] => False | c :: _ => isspace c = false end -> lead (set_skip k i) = lead i.
Proof. intros i k H. rewrite lead_nospace by auto. symmetry. replace i with (set_skip (skipws i) i) at 1 by (destruct i; auto). apply lead_nospace; auto. Qed.

Lemma int_skip : forall k i, match buf (bare i) with [] => False | c :: _ => isspace c = false end ->
  f_int (set_skip k i) = (fst (f_int i), set_skip k (snd (f_int i))).
Proof.
  intros k i H. unfold f_int. rewrite lead_front by auto. cbn [bare set_skip ibase]. destruct (good (bare i)); cbn [negb]; auto.
  destruct (lead i); auto. cbv zeta. destruct (take_while _ _); auto. destruct (INT_MAX <? _); auto. destruct (_ <? INT_MIN); auto.
Qed.
Lemma char_skip : forall k i, match buf (bare i) with [] => False | c :: _ => isspace c = false end ->
  f_char (set_skip k i) = (fst (f_char i), set_skip k (snd (f_char i))).
Proof. intros k i H. unfold f_char. rewrite lead_front by auto. cbn [bare set_skip]. destruct (good (bare i)); cbn [negb]; auto. destruct (lead i); auto. Qed.
Lemma double_skip : forall f k i, match buf (bare i) with [] => False | c :: _ => isspace c = false end ->
  f_double f (set_skip k i) = (fst (f_double f i), set_skip k (snd (f_double f i))).
Proof.
  intros f k i H. unfold f_double. rewrite lead_front by auto. cbn [bare set_skip]. destruct (good (bare i)); cbn [negb]; auto. destruct (lead i); auto.
  destruct (number_text _) as (t, r). destruct (f t). auto.
Qed.
Lemma made_skip : forall A (o : outcome A) k i x, same_but_skip k (made o i x) (made o (set_skip k i) x).
Proof. intros A [] k i x; reflexivity. Qed.

Lemma starts_number_big : forall c, starts_number c = true -> 32 < c.
Proof. intros c H. unfold starts_number in H. destruct (Z.leb_spec 48 c), (Z.eqb_spec c 45), (Z.eqb_spec c 43); cbn in H; try lia; try discriminate. Qed.
Lemma starts_complex_big : forall c, starts_complex c = true -> 32 < c.
Proof. intros c H. unfold starts_complex in H. destruct (Z.leb_spec 48 c), (Z.eqb_spec c 45), (Z.eqb_spec c 43), (Z.eqb_spec c 46); cbn in H; try lia; try discriminate. Qed.

Lemma frac_noskip : forall k fuel i f, same_but_skip k (frac_fextract fuel i f) (frac_fextract fuel (set_skip k i) f).
Proof.
  intros k fuel i f. unfold frac_fextract. cbn [bare set_skip]. destruct (skip_blank fuel (bare i)) as [s| | |]; try reflexivity.
  change (with_bare s (set_skip k i)) with (set_skip k (with_bare s i)). rewrite peek_skip. destruct (f_peek (with_bare s i)) as (c0, i1) eqn:P1. cbn [fst snd].
  destruct (starts_number c0) eqn:S0; cbn [negb]; [|reflexivity]. destruct (peek_front _ _ _ P1 (starts_number_big _ S0)) as (-> & H1).
  rewrite int_skip by auto. destruct (f_int (with_bare s i)) as (n, i2). cbn [fst snd].
  rewrite peek_skip. destruct (f_peek i2) as (c1, i3) eqn:P3. cbn [fst snd]. destruct (Z.leb_spec c1 32); [apply made_skip|].
  destruct (peek_front _ _ _ P3) as (-> & H3); [auto|]. rewrite char_skip by auto. destruct (f_char i2) as (c, i4). cbn [fst snd].
  rewrite peek_skip. destruct (f_peek i4) as (c2, i5) eqn:P5. cbn [fst snd]. destruct (starts_number c2) eqn:S2; cbn [negb]; [|reflexivity].
  destruct (peek_front _ _ _ P5 (starts_number_big _ S2)) as (-> & H5). rewrite int_skip by auto. destruct (f_int i4) as (d, i6). cbn [fst snd].
  destruct (_ =? 47); cbn [negb]; [|reflexivity]. rewrite peek_skip. destruct (f_peek i6) as (c3, i7). cbn [fst snd].
  destruct (32 <? c3); [reflexivity|apply made_skip].
Qed.

(** For Complex the only difference is white space in front of the final j. *)
Lemma cx_noskip : forall strtod fuel i z, skipws i = true ->
  same_but_skip false (cx_fextract strtod fuel i z) (cx_fextract strtod fuel (set_skip false i) z) \/
  (exists s, cx_fextract strtod fuel (set_skip false i) z = (Throw WrongComplexLiteral, (set_skip false (with_bare s i), z))).
Proof.
  intros strtod fuel i z K. unfold cx_fextract. cbn [bare set_skip]. destruct (skip_blank fuel (bare i)) as [s| | |]; try (left; reflexivity).
  change (with_bare s (set_skip false i)) with (set_skip false (with_bare s i)). rewrite peek_skip.
  assert (K1: kept i (with_bare s i)) by (repeat split).
  destruct (f_peek (with_bare s i)) as (c0, i1) eqn:P1. cbn [fst snd].
  destruct (starts_complex c0) eqn:S0; cbn [negb]; [|left; reflexivity]. destruct (peek_front _ _ _ P1 (starts_complex_big _ S0)) as (-> & H1).
  rewrite double_skip by auto. pose proof (kept_double strtod _ _ K1) as K2. destruct (f_double strtod (with_bare s i)) as (real, i2). cbn [fst snd] in *.
  rewrite peek_skip. pose proof (kept_peek _ _ K2) as K3. destruct (f_peek i2) as (c1, i3) eqn:P3. cbn [fst snd] in *. destruct (Z.leb_spec c1 32); [left; apply made_skip|].
  destruct (peek_front _ _ _ P3) as (-> & H3); [auto|]. destruct (c1 =? 106).
  { left. cbn [bare set_skip]. change (with_bare (ignore (bare i2)) (set_skip false i2)) with (set_skip false (with_bare (ignore (bare i2)) i2)). rewrite peek_skip.
    destruct (f_peek (with_bare (ignore (bare i2)) i2)) as (c2, i5). cbn [fst snd]. destruct (c2 <=? 32); [apply made_skip|reflexivity]. }
  rewrite double_skip by auto. pose proof (kept_double strtod _ _ K2) as K4. destruct (f_double strtod i2) as (imag, i4). cbn [fst snd] in *.
  destruct (buf (bare i4)) as [|a b] eqn:B.
  { left. unfold f_char, lead. cbn [bare set_skip skipws]. destruct (good (bare i4)); cbn [negb]; [|reflexivity].
    rewrite B. destruct K4 as (_ & -> & _). rewrite K. reflexivity. }
  destruct (isspace a) eqn:Sp.
  { destruct (good (bare i4)) eqn:G.
    - right. unfold f_char, lead. cbn [bare set_skip skipws]. rewrite G, B. cbn [negb].
      assert (N: code a =? 106 = false). { unfold isspace in Sp. destruct (Z.eqb_spec (code a) 106) as [E|]; auto. rewrite E in Sp. discriminate. }
      rewrite N. cbn [negb]. exists (IStream b false false). destruct i, i4, K4 as (A1 & A2 & A3). cbn in *. subst. reflexivity.
    - left. unfold f_char. cbn [bare set_skip]. rewrite G. reflexivity. }
  left. rewrite char_skip by (rewrite B; auto). destruct (f_char i4) as (c, i5). cbn [fst snd]. destruct c as [c|]; [|reflexivity].
  destruct (code c =? 106); cbn [negb]; [|reflexivity]. rewrite peek_skip. destruct (f_peek i5) as (c3, i6). cbn [fst snd].
  destruct (32 <? c3); [reflexivity|apply made_skip].
Qed.

Lemma int_noskip : forall i x, good (bare i) = true -> skipws i = false ->
  match buf (bare i) with
  | c :: _ => isspace c = true -> exists j, int_fextract i x = (Throw WrongIntegerLiteral, (j, x)) /\ buf (bare j) = buf (bare i) /\ failbit (bare j) = true /\ skipws j = false
  | [] => True end /\
  (match buf (bare i) with [] => False | c :: _ => isspace c = false end -> same_but_skip false (int_fextract (set_skip true i) x) (int_fextract i x)).
Proof.
  intros i x G K. split.
  - destruct (buf (bare i)) as [|c b] eqn:B; auto. intros S. unfold int_fextract, f_string, lead. rewrite G, K, B. cbn [negb].
    cbn [take_while]. rewrite S. cbn [negb]. replace (if 0 <? iwidth i then firstn (Z.to_nat (iwidth i)) [] else []) with (@nil ascii) by (destruct (0 <? iwidth i); [rewrite firstn_nil|]; auto).
    cbv zeta. cbn [length skipn c_str take_while].
    rewrite int_of_chars_bad by reflexivity. eexists. split; [reflexivity|]. repeat split; auto.
  - intros H. unfold int_fextract, f_string. rewrite lead_nospace by auto. unfold lead. rewrite K. cbn [bare set_skip skipws iwidth]. rewrite G. cbn [negb].
    destruct (buf (bare i)) as [|c b]; [contradiction|]. cbv zeta.
    set (t := if 0 <? iwidth i then _ else _).
    unfold same_but_skip. destruct (int_of_chars (c_str t)); cbn [fst snd]; destruct i; cbn in *; subst; reflexivity.
Qed.

(** ** Other bases *)

Lemma radix_range : forall b, 8 <= radix_of b <= 16.
Proof. destruct b; cbn; lia. Qed.

Lemma hexit_code : forall d, 0 <= d < 16 -> code (hexit d) = if d <? 10 then d + 48 else d + 87.
Proof.
  intros d H. unfold hexit, code. destruct (Z.ltb_spec d 10); rewrite N_ascii_embedding; lia.
Qed.
Lemma hexit_value : forall d, 0 <= d < 16 -> digit_value (hexit d) = Some d.
Proof.
  intros d H. unfold digit_value. rewrite hexit_code by auto. destruct (Z.ltb_spec d 10);
  repeat match goal with |- context [?a <=? ?b] => destruct (Z.leb_spec a b); try lia end; cbn [andb]; f_equal; lia.
Qed.
Lemma hexit_in : forall b d, 0 <= d < radix_of b -> is_digit_in b (hexit d) = true.
Proof. intros b d H. pose proof (radix_range b). unfold is_digit_in. rewrite hexit_value by lia. apply Z.ltb_lt. lia. Qed.

Lemma digits_in_snoc : forall b l d, 0 <= d < 16 -> digits_in b (l ++ [hexit d]) = digits_in b l * radix_of b + d.
Proof. intros b l d H. unfold digits_in. rewrite fold_left_app. cbn [fold_left]. rewrite hexit_value by auto. auto. Qed.

Lemma digits_spec : forall b fuel n acc, 0 <= n < radix_of b ^ Z.of_nat fuel -> (0 < fuel)%nat ->
  exists d l, digits fuel (radix_of b) n acc = hexit d :: l ++ acc /\ forallb (is_digit_in b) (hexit d :: l) = true /\
    digits_in b (hexit d :: l) = n /\ first_digit (radix_of b) n d.
Proof.
  intros b. pose proof (radix_range b) as RB. set (B := radix_of b) in *. induction fuel as [|f IH]; intros n acc H P; [lia|].
  cbn [digits]. destruct (Z.ltb_spec n B).
  - exists n, []. split; [reflexivity|]. cbn [forallb]. rewrite hexit_in by (fold B; lia). split; auto. split.
    + unfold digits_in. cbn [fold_left]. rewrite hexit_value by lia. lia.
    + exists 0. rewrite Z.pow_0_r. lia.
  - destruct f as [|f]; [cbn in H; lia|].
    destruct (IH (n / B) (hexit (n mod B) :: acc)) as (d & l & E & F & V & D).
    + split; [apply Z.div_pos; lia|]. apply Z.div_lt_upper_bound; [lia|]. rewrite Nat2Z.inj_succ, Z.pow_succ_r in H by lia. lia.
    + lia.
    + pose proof (Z.mod_pos_bound n B). exists d, (l ++ [hexit (n mod B)]). split; [rewrite E, <- app_assoc; auto|].
      change (hexit d :: l ++ [hexit (n mod B)]) with ((hexit d :: l) ++ [hexit (n mod B)]). split; [|split].
      * rewrite forallb_app, F. cbn [forallb]. rewrite hexit_in by (fold B; lia). auto.
      * rewrite digits_in_snoc by lia. rewrite V. fold B. rewrite (Z.div_mod n B) at 3 by lia. lia.
      * destruct D as (k & K & (D1 & D2) & D3 & D4). exists (k + 1). rewrite Z.pow_add_r, Z.pow_1_r by lia. split; [lia|].
        pose proof (Z.div_mod n B). assert (0 < n / B) by (apply Z.div_str_pos; lia). split; [|split; [auto|intros; lia]].
        set (q := n / B) in *. set (m := B ^ k) in *. nia.
Qed.

Lemma first_digit_pos : forall b n d, 2 <= b -> first_digit b n d -> d = 0 \/ (0 < n /\ exists k, 0 <= k /\ d = n / b ^ k /\ b ^ k <= n < b ^ (k + 1)).
Proof.
  intros b n d B (k & K & (D1 & D2) & D3 & D4). destruct (Z.eq_dec d 0); [auto|right].
  assert (P: 0 < b ^ k) by (apply Z.pow_pos_nonneg; lia). split; [nia|]. exists k. split; auto. split.
  - apply Z.div_unique with (n - d * b ^ k); nia.
  - rewrite Z.pow_add_r, Z.pow_1_r by lia. nia.
Qed.
Lemma first_digit_unique : forall b n d e, 2 <= b -> first_digit b n d -> first_digit b n e -> d = e.
Proof.
  intros b n d e B D E. pose proof D as (k & K & D1 & D2 & D3). pose proof E as (k' & K' & E1 & E2 & E3).
  destruct (first_digit_pos b n d B D) as [->|(P & i & I & -> & Li & Ui)].
  - specialize (D3 eq_refl). subst n. assert (0 < b ^ k') by (apply Z.pow_pos_nonneg; lia). nia.
  - destruct (first_digit_pos b n e B E) as [->|(_ & j & J & -> & Lj & Uj)]; [rewrite (E3 eq_refl) in P; lia|].
    enough (i = j) by (subst; auto).
    destruct (Z.lt_trichotomy i j) as [L|[|L]]; auto.
    + assert (b ^ (i + 1) <= b ^ j) by (apply Z.pow_le_mono_r; lia). lia.
    + assert (b ^ (j + 1) <= b ^ i) by (apply Z.pow_le_mono_r; lia). lia.
Qed.

Lemma in_not_x : forall b c, is_digit_in b c = true -> (code c =? 120) || (code c =? 88) = false.
Proof.
  intros b c H. unfold is_digit_in, digit_value in H. destruct (Z.eqb_spec (code c) 120) as [E|]; [rewrite E in H; discriminate|].
  destruct (Z.eqb_spec (code c) 88) as [E|]; [rewrite E in H; discriminate|]. auto.
Qed.
Lemma in_code : forall b c, is_digit_in b c = true -> 48 <= code c.
Proof.
  intros b c H. unfold is_digit_in, digit_value in H.
  repeat match type of H with context [?a <=? ?b] => destruct (Z.leb_spec a b); cbn [andb] in H end; try lia; discriminate.
Qed.

(** Reading one number. *)
Lemma f_int_in : forall b c ds rest w, forallb (is_digit_in b) (c :: ds) = true -> (rest = [] \/ exists r, rest = slash :: r) ->
  let v := digits_in b (c :: ds) in let eof := is_nil rest in
  f_int (FIStream (IStream (c :: ds ++ rest) false false) w true b) =
    if INT_MAX <? v then (INT_MAX, FIStream (IStream rest eof true) w true b)
    else if v <? INT_MIN then (INT_MIN, FIStream (IStream rest eof true) w true b)
    else (v, FIStream (IStream rest eof false) w true b).
Proof.
  intros b c ds rest w F R v eof. pose proof F as F'. cbn [forallb] in F. apply andb_true_iff in F as (C & F). pose proof (in_code _ _ C) as K.
  unfold f_int, lead. cbn [bare good eofbit failbit orb negb andb skipws buf ibase]. cbn [drop_while]. rewrite isspace_blank by lia.
  assert (S: is_sign_char c = false) by (unfold is_sign_char; destruct (Z.eqb_spec (code c) 43), (Z.eqb_spec (code c) 45); auto; lia).
  rewrite S. cbv zeta. destruct (Z.eqb_spec (code c) 45); [lia|].
  assert (P: (match b with Hex => drop_prefix (c :: ds ++ rest) | _ => c :: ds ++ rest end) = c :: ds ++ rest).
  { destruct b; auto. unfold drop_prefix. destruct ds as [|a ds]; cbn [app].
    - destruct R as [->|(r & ->)]; auto. replace (_ || _) with false by reflexivity. rewrite andb_false_r. auto.
    - cbn [forallb] in F. apply andb_true_iff in F as (A & _). rewrite (in_not_x _ _ A), andb_false_r. auto. }
  rewrite P. assert (St: match rest with [] => True | x :: _ => is_digit_in b x = false end) by (destruct R as [->|(r & ->)]; cbn; destruct b; auto).
  assert (TD: forall l, forallb (is_digit_in b) l = true -> take_while (is_digit_in b) (l ++ rest) = l /\ drop_while (is_digit_in b) (l ++ rest) = rest).
  { induction l as [|a l IH]; intros H.
    - cbn [app]. destruct rest; cbn [take_while drop_while]; auto. rewrite St. auto.
    - cbn [forallb] in H. apply andb_true_iff in H as (A & H). cbn [app take_while drop_while]. rewrite A. destruct (IH H). split; congruence. }
  change (c :: ds ++ rest) with ((c :: ds) ++ rest). destruct (TD _ F') as (-> & ->). fold v. unfold eof. unfold with_bare. cbn [bare iwidth skipws ibase].
  destruct rest; reflexivity.
Qed.

Lemma starts_hexit : forall d, 0 <= d < 16 -> starts_number (code (hexit d)) = (d <=? 9).
Proof.
  intros d H. rewrite hexit_code by auto. unfold starts_number. destruct (Z.ltb_spec d 10), (Z.leb_spec d 9); try lia;
  repeat match goal with |- context [?a <=? ?b] => destruct (Z.leb_spec a b); try lia | |- context [?a =? ?b] => destruct (Z.eqb_spec a b); try lia end; auto.
Qed.

Lemma fits_digits : forall b n, 0 <= n < 2 ^ 32 -> 0 <= n < radix_of b ^ Z.of_nat 32.
Proof. intros b n H. assert (2 ^ 32 <= radix_of b ^ Z.of_nat 32) by (destruct b; vm_compute; discriminate). lia. Qed.

Lemma filler_0 : forall s os, width os = 0 -> filler os s = [].
Proof. intros s os H. unfold filler. rewrite H. replace (Z.to_nat (0 - Z.of_nat (length s))) with 0%nat by lia. auto. Qed.

Lemma put_int_in : forall b z, b <> Dec -> forall w,
  put_int z (OStream w 0 " "%char SRight b false) = OStream (w ++ digits 32 (radix_of b) (z mod 2 ^ 32) []) 0 " "%char SRight b false.
Proof. intros b z H w. unfold put_int, number. cbn [base]. destruct b; [congruence| |]; unfold emit; cbn [adjust fill base showpos written]; rewrite filler_0 by reflexivity; reflexivity. Qed.

Lemma printed_in_eq : forall b f, b <> Dec -> printed_in b f =
  digits 32 (radix_of b) (num f mod 2 ^ 32) [] ++ (if den f =? 1 then [] else slash :: digits 32 (radix_of b) (den f mod 2 ^ 32) []).
Proof.
  intros b f H. unfold printed_in, frac_put. destruct (den f =? 1); rewrite !put_int_in by auto; [cbn [written]; rewrite app_nil_r; auto|].
  unfold put_text, emit. cbn [adjust fill base showpos written]. rewrite filler_0 by reflexivity. rewrite put_int_in by auto. cbn [written app].
  rewrite <- !app_assoc. auto.
Qed.

Lemma read_in : forall b f f0 fuel d e, b <> Dec -> valid f -> (0 < fuel)%nat ->
  first_digit (radix_of b) (num f mod 2 ^ 32) d -> first_digit (radix_of b) (den f) e ->
  exists j,
  frac_fextract fuel (input_in b (printed_in b f)) f0 =
    if d <=? 9 then
      if num f <? 0 then (Ok tt, (j, Frac INT_MAX 1))
      else if (den f =? 1) || (e <=? 9) then (Ok tt, (j, f)) else (Throw WrongFractionLiteral, (j, f0))
    else (Throw WrongFractionLiteral, (j, f0)).
Proof.
  intros b f f0 fuel d e NB V P D E. pose proof (radix_range b) as RB. pose proof V as (V1 & V2 & V3). unfold INT_MAX in V1, V2.
  assert (D2: 0 <= d < 16) by (destruct D as (? & ? & ? & ? & ?); lia). assert (E2: 0 <= e < 16) by (destruct E as (? & ? & ? & ? & ?); lia).
  assert (R1: 0 <= num f mod 2 ^ 32 < 2 ^ 32) by (apply Z.mod_pos_bound; lia).
  destruct (digits_spec b 32 (num f mod 2 ^ 32) []) as (d' & l & En & Fn & Vn & Dn); [apply fits_digits; auto|lia|].
  assert (d' = d) by (eapply first_digit_unique; eauto; lia). subst d'. rewrite app_nil_r in En.
  rewrite printed_in_eq, En by auto. set (rest := if den f =? 1 then [] else _). unfold input_in, frac_fextract. cbn [bare].
  destruct fuel as [|fuel]; [lia|]. cbn [skip_blank]. unfold peek at 1. cbn [good eofbit failbit orb negb andb buf app].
  assert (C: 32 < code (hexit d)) by (rewrite hexit_code by auto; destruct (d <? 10); lia).
  destruct (Z.leb_spec (code (hexit d)) 32); [lia|]. unfold with_bare. cbn [iwidth skipws ibase].
  unfold f_peek at 1. unfold peek at 1. cbn [bare good eofbit failbit orb negb andb buf]. unfold with_bare. cbn [iwidth skipws ibase].
  rewrite starts_hexit by auto. destruct (d <=? 9); cbn [negb]; [|eexists; reflexivity].
  assert (R: rest = [] \/ exists r, rest = slash :: r) by (unfold rest; destruct (den f =? 1); eauto).
  rewrite f_int_in by auto. cbv zeta. rewrite Vn. unfold INT_MIN.
  destruct (Z.ltb_spec (num f) 0) as [N|N].
  { assert (M: num f mod 2 ^ 32 = num f + 2 ^ 32) by (symmetry; apply Z.mod_unique with (-1); lia). rewrite M.
    destruct (Z.ltb_spec INT_MAX (num f + 2 ^ 32)) as [|Bad]; [|unfold INT_MAX in Bad; lia].
    unfold f_peek at 1, peek at 1. cbn [bare good eofbit failbit negb andb]. destruct (is_nil rest); cbn [negb orb andb];
    (change (-1 <=? 32) with true; cbv iota; unfold made; replace (frac_of_int INT_MAX) with (Ok (Frac INT_MAX 1)) by (vm_compute; reflexivity); eexists; reflexivity). }
  rewrite Z.mod_small by lia. destruct (Z.ltb_spec INT_MAX (num f)) as [Bad|_]; [unfold INT_MAX in Bad; lia|]. destruct (Z.ltb_spec (num f) (-2147483648)); [lia|].
  unfold rest. destruct (Z.eqb_spec (den f) 1) as [D1|D1]; cbn [orb].
  { unfold f_peek at 1, peek at 1. cbn [bare is_nil good eofbit failbit orb negb andb]. change (-1 <=? 32) with true. cbv iota.
    assert (F1: frac_of_int (num f) = Ok f). { unfold frac_of_int. rewrite <- D1. apply make_valid; auto. }
    rewrite F1. unfold made. eexists; reflexivity. }
  rewrite Z.mod_small by lia.
  destruct (digits_spec b 32 (den f) []) as (e' & m & Em & Fm & Vm & Dm); [apply fits_digits; lia|lia|].
  assert (e' = e) by (eapply first_digit_unique; eauto; lia). subst e'. rewrite app_nil_r in Em. rewrite Em. cbn [is_nil].
  unfold f_peek at 1, peek at 1. cbn [bare good eofbit failbit orb negb andb buf]. unfold with_bare. cbn [iwidth skipws ibase].
  change (code slash <=? 32) with false. cbv iota.
  unfold f_char, lead. cbn [bare good eofbit failbit orb negb andb buf skipws drop_while]. change (isspace slash) with false. cbv iota.
  unfold with_bare. cbn [iwidth skipws ibase].
  unfold f_peek at 1, peek at 1. cbn [bare good eofbit failbit orb negb andb buf]. unfold with_bare. cbn [iwidth skipws ibase].
  rewrite starts_hexit by auto. destruct (e <=? 9); cbn [negb]; [|eexists; reflexivity].
  rewrite <- (app_nil_r m). rewrite f_int_in by auto. cbv zeta. rewrite Vm.
  destruct (Z.ltb_spec INT_MAX (den f)) as [Bad|_]; [unfold INT_MAX in Bad; lia|]. destruct (Z.ltb_spec (den f) INT_MIN) as [Bad|_]; [unfold INT_MIN in Bad; lia|].
  change (code slash =? 47) with true. cbn [negb is_nil]. unfold f_peek, peek. cbn [bare good eofbit failbit orb negb andb]. change (32 <? -1) with false. cbv iota.
  rewrite make_valid by auto. unfold made. eexists; reflexivity.
Qed.

Lemma oct_back : forall f f0 fuel, valid f -> (0 < fuel)%nat ->
  ((exists j, frac_fextract fuel (input_in Oct (printed_in Oct f)) f0 = (Ok tt, (j, f))) <-> 0 <= num f) /\
  (num f < 0 -> exists j, frac_fextract fuel (input_in Oct (printed_in Oct f)) f0 = (Ok tt, (j, Frac INT_MAX 1))).
Proof.
  intros f f0 fuel V P. destruct (digits_spec Oct 32 (num f mod 2 ^ 32) []) as (d & _ & _ & _ & _ & D); [apply fits_digits, Z.mod_pos_bound; lia|lia|].
  destruct (digits_spec Oct 32 (den f) []) as (e & _ & _ & _ & _ & E); [apply fits_digits; destruct V as (V & _); unfold INT_MAX in V; lia|lia|].
  destruct (read_in Oct f f0 fuel d e) as (j & R); auto; [discriminate|]. rewrite R.
  assert (d < 8) by (destruct D as (? & ? & ? & ? & ?); cbn in *; lia). assert (e < 8) by (destruct E as (? & ? & ? & ? & ?); cbn in *; lia).
  destruct (Z.leb_spec d 9); [|lia]. destruct (Z.leb_spec e 9); [|lia]. rewrite orb_true_r.
  destruct (Z.ltb_spec (num f) 0); split; try lia; eauto.
  - split; [intros (j' & Q)|lia]. injection Q as _ Q. rewrite <- Q in H3. cbn in H3. unfold INT_MAX in H3. lia.
  - split; eauto.
Qed.

Lemma hex_back : forall f f0 fuel d e, valid f -> (0 < fuel)%nat -> first_digit 16 (num f) d -> first_digit 16 (den f) e ->
  ((exists j, frac_fextract fuel (input_in Hex (printed_in Hex f)) f0 = (Ok tt, (j, f))) <-> (d <= 9 /\ (den f = 1 \/ e <= 9))) /\
  (d <= 9 /\ (den f = 1 \/ e <= 9) \/ exists j, frac_fextract fuel (input_in Hex (printed_in Hex f)) f0 = (Throw WrongFractionLiteral, (j, f0))).
Proof.
  intros f f0 fuel d e V P D E. pose proof V as (V1 & V2 & V3). unfold INT_MAX in *.
  assert (N: 0 <= num f). { destruct D as (k & K & (D1 & _) & D3 & _). assert (0 < 16 ^ k) by (apply Z.pow_pos_nonneg; lia). nia. }
  destruct (read_in Hex f f0 fuel d e) as (j & R); auto; [discriminate|rewrite Z.mod_small by lia; auto|]. rewrite R.
  destruct (Z.leb_spec d 9), (Z.ltb_spec (num f) 0), (Z.eqb_spec (den f) 1), (Z.leb_spec e 9); cbn [orb]; try lia; split; try (left; lia); try (right; eauto; fail);
  split; try lia; eauto; try (intros (? & Q); discriminate).
Qed.
Lemma hex_negative : forall f f0 fuel, valid f -> num f < 0 -> (0 < fuel)%nat ->
  (exists j, frac_fextract fuel (input_in Hex (printed_in Hex f)) f0 = (Ok tt, (j, Frac INT_MAX 1))) \/
  (exists j, frac_fextract fuel (input_in Hex (printed_in Hex f)) f0 = (Throw WrongFractionLiteral, (j, f0))).
Proof.
  intros f f0 fuel V N P. destruct (digits_spec Hex 32 (num f mod 2 ^ 32) []) as (d & _ & _ & _ & _ & D); [apply fits_digits, Z.mod_pos_bound; lia|lia|].
  destruct (digits_spec Hex 32 (den f) []) as (e & _ & _ & _ & _ & E); [apply fits_digits; destruct V as (V & _); unfold INT_MAX in V; lia|lia|].
  destruct (read_in Hex f f0 fuel d e) as (j & R); auto; [discriminate|]. rewrite R. destruct (d <=? 9); eauto. destruct (Z.ltb_spec (num f) 0); [eauto|lia].
Qed.
Lemma hex_negative_exact : forall f f0 fuel, valid f -> num f < 0 -> (0 < fuel)%nat ->
  ((exists j, frac_fextract fuel (input_in Hex (printed_in Hex f)) f0 = (Ok tt, (j, Frac INT_MAX 1))) <-> num f < - (6 * 16 ^ 7)).
Proof.
  intros f f0 fuel V N P. pose proof V as (V1 & V2 & V3). unfold INT_MAX in V1, V2.
  assert (M: num f mod 2 ^ 32 = num f + 2 ^ 32) by (symmetry; apply Z.mod_unique with (-1); lia).
  assert (D: first_digit 16 (num f mod 2 ^ 32) ((num f + 2 ^ 32) / 16 ^ 7)).
  { rewrite M. exists 7. split; [lia|]. set (n := num f + 2 ^ 32). pose proof (Z.div_mod n (16 ^ 7)). pose proof (Z.mod_pos_bound n (16 ^ 7)).
    set (q := n / 16 ^ 7) in *. assert (n = num f + 4294967296) by reflexivity. change (16 ^ 7) with 268435456 in *. lia. }
  destruct (digits_spec Hex 32 (den f) []) as (e & _ & _ & _ & _ & E); [apply fits_digits; lia|lia|].
  destruct (read_in Hex f f0 fuel _ e ltac:(discriminate) V P D E) as (j & R). rewrite R.
  assert (Q: (num f + 2 ^ 32) / 16 ^ 7 <= 9 <-> num f < - (6 * 16 ^ 7)).
  { pose proof (Z.div_mod (num f + 2 ^ 32) (16 ^ 7)). pose proof (Z.mod_pos_bound (num f + 2 ^ 32) (16 ^ 7)). change (16 ^ 7) with 268435456 in *. change (2 ^ 32) with 4294967296 in *. lia. }
  destruct (Z.ltb_spec (num f) 0); [|lia]. destruct (Z.leb_spec ((num f + 2 ^ 32) / 16 ^ 7) 9); split; try lia; eauto. intros (? & X); discriminate.
Qed.

Lemma int_resets : forall i x, good (bare i) = true -> (exists c, In c (buf (bare i)) /\ isspace c = false) -> iwidth (fst (snd (int_fextract i x))) = 0.
Proof.
  intros i x G (c & C & S). unfold int_fextract, f_string. rewrite G. cbn [negb].
  assert (L: lead i <> []). { unfold lead. destruct (skipws i); [|intros E; rewrite E in C; destruct C]. induction (buf (bare i)) as [|a l IH]; [destruct C|]. cbn.
    destruct (isspace a) eqn:A; [|discriminate]. destruct C as [->|C]; [congruence|auto]. }
  destruct (lead i) as [|a l]; [congruence|]. cbv zeta. set (t := if 0 <? iwidth i then _ else _). destruct (int_of_chars (c_str t)); reflexivity.
Qed.

(** Nothing to read: both flags are set, and the width survives exactly when it is the sentry that meets
    the end of the input. *)
Lemma int_nothing : forall i x, good (bare i) = true -> (if skipws i then forallb isspace (buf (bare i)) = true else buf (bare i) = []) ->
  int_fextract i x = (Throw WrongIntegerLiteral, (FIStream (IStream [] true true) (if skipws i then iwidth i else 0) (skipws i) (ibase i), x)).
Proof.
  intros i x G H. unfold int_fextract, f_string. rewrite G. cbn [negb].
  assert (L: lead i = []). { unfold lead. destruct (skipws i); [|exact H]. induction (buf (bare i)) as [|a l IH]; [reflexivity|]. cbn in H |- *.
    apply andb_true_iff in H. destruct H as (A & B). rewrite A. auto. }
  rewrite L. destruct i as [s w [|] b]; reflexivity.
Qed.

Lemma int_not_good : forall i x, good (bare i) = false -> exists s,
  int_fextract i x = (Throw WrongIntegerLiteral, (FIStream s (iwidth i) (skipws i) (ibase i), x)) /\ buf s = buf (bare i) /\ failbit s = true /\ eofbit s = eofbit (bare i).
Proof.
  intros i x G. unfold int_fextract, f_string. rewrite G. destruct i as [s w k b]. eexists. split; [reflexivity|repeat split].
Qed.
