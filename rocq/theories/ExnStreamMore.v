(** Extractions from streams with exceptions: what is read, and reading loops. *)
From Coq Require Import ZArith QArith List Bool Ascii Lia.
From Verif Require Import Outcome IntModel IntSpec IntBase IntIO StreamModel IntStream FloatModel Show ShowFacts FracModel FracSpec FracFacts FracGcd FracIO FracMore
  IntCanon IntMore FracExpr ComplexModel ComplexSpec ComplexIO ComplexExact StrModel ExnStreamModel ExnStreamSpec ExnStreamFacts ExnStream.
Import ListNotations.
Open Scope Z_scope.

(** ** What a number extraction without failbit has read *)
Lemma take_drop : forall f l, l = take_while f l ++ drop_while f l.
Proof. induction l as [|a l IH]; cbn; [auto|]. destruct (f a); cbn; [f_equal; auto|auto]. Qed.
Lemma take_all : forall f l, forallb f (take_while f l) = true.
Proof. induction l as [|a l IH]; cbn; [auto|]. destruct (f a) eqn:E; cbn; [rewrite E; auto|auto]. Qed.
Lemma literal_of : forall c b ds, ds = (if is_sign_char c then b else c :: b) -> ds <> [] -> forallb is_digit_char ds = true ->
  literal (c :: b) = Some (if code c =? 45 then - dec_digits ds else dec_digits ds).
Proof.
  intros c b ds E N F. assert (D: dec_of 0 ds = Some (dec_digits ds)).
  { rewrite (proj1 (dec_of_forallb ds 0) F). unfold dec_digits. rewrite fold_dec. reflexivity. }
  destruct (is_sign_char c) eqn:S.
  - subst b. apply is_sign_spec in S as [->| ->]; cbn [literal]; destruct ds as [|x ds]; try congruence; rewrite D; reflexivity.
  - subst ds. rewrite literal_digits by auto. rewrite D. f_equal. destruct (Z.eqb_spec (code c) 45) as [e|]; [|auto].
    exfalso. unfold is_sign_char in S. rewrite e in S. discriminate.
Qed.
Lemma int_sound : forall c b v s, 32 < code c -> extract_int (IStream (c :: b) false false) = (v, s) -> failbit s = false ->
  exists n rest, c :: b = n ++ rest /\ literal n = Some v /\ FracSpec.fits v /\ s = IStream rest (is_nil rest) false.
Proof.
  intros c b v s C E F. unfold extract_int in E. cbn [good eofbit failbit negb andb buf drop_while] in E. rewrite isspace_blank in E by auto. cbv zeta in E.
  set (body := if is_sign_char c then b else c :: b) in *. set (ds := take_while is_digit_char body) in *. set (rest := drop_while is_digit_char body) in *.
  assert (BD: body = ds ++ rest) by apply take_drop. assert (FD: forallb is_digit_char ds = true) by apply take_all.
  clearbody ds rest. assert (ND: ds <> []) by (intros Z0; rewrite Z0 in E; inversion E; subst s; discriminate).
  assert (E': (let v0 := if code c =? 45 then - dec_digits ds else dec_digits ds in if INT_MAX <? v0 then (INT_MAX, IStream rest (is_nil rest) true)
    else if v0 <? INT_MIN then (INT_MIN, IStream rest (is_nil rest) true) else (v0, IStream rest (is_nil rest) false)) = (v, s)) by (destruct ds; [congruence|exact E]).
  clear E. cbv zeta in E'. rename E' into E.
  destruct (Z.ltb_spec INT_MAX (if code c =? 45 then - dec_digits ds else dec_digits ds)) as [L|L]; [inversion E; subst s; discriminate|].
  destruct (Z.ltb_spec (if code c =? 45 then - dec_digits ds else dec_digits ds) INT_MIN) as [L1|L1]; [inversion E; subst s; discriminate|].
  injection E as <- <-. exists (if is_sign_char c then c :: ds else ds), rest.
  split. { unfold body in BD. destruct (is_sign_char c); cbn [app]; [f_equal|]; exact BD. }
  split; [|split; [split; lia|reflexivity]].
  unfold body in BD. destruct (is_sign_char c) eqn:S.
  - apply literal_of; rewrite ?S; auto.
  - destruct ds as [|d ds]; [congruence|]. cbn [app] in BD. injection BD as <- _. apply literal_of; rewrite ?S; auto.
Qed.

(** ** Fractions, with an exception for failbit *)
Lemma skip_inv : forall B m (old : B) k o p fuel s, o <> OutOfFuel -> x_skip m old fuel s k = (Ends o, p) -> exists s1, skip_blank fuel s = Ok s1 /\ k s1 = (Ends o, p).
Proof.
  intros B m old k o p fuel s O. revert s. induction fuel as [|fuel IH]; intros s E; [cbn in E; congruence|]. cbn [x_skip skip_blank] in *. unfold guarded in E.
  destruct (peek s) as [c s1]. destruct (hot m s1); [discriminate|]. destruct (c <=? 32); [|eauto].
  destruct (hot m (ignore s1)); [discriminate|]. auto.
Qed.
Lemma skip_split : forall fuel s s1, skip_blank fuel s = Ok s1 -> good s = true /\
  exists ws c b, buf s = ws ++ c :: b /\ Forall blank ws /\ 32 < code c /\ s1 = IStream (c :: b) false false.
Proof.
  intros fuel s s1 E. destruct (good s) eqn:G; [|rewrite skip_stuck in E by auto; discriminate]. split; [auto|].
  destruct (blank_split (buf s)) as [B|(ws & c & b & Eb & W & C)]; [rewrite skip_blank_diverges in E by auto; discriminate|].
  exists ws, c, b. destruct s as [l [] []]; try discriminate. cbn [buf] in Eb. subst l. repeat split; auto.
  clear G. revert fuel E. induction W as [|a ws A W IH]; intros [|fuel] E; try discriminate; cbn [skip_blank app] in E.
  - cbn [peek good eofbit failbit negb andb buf] in E. destruct (Z.leb_spec (code c) 32); [lia|]. congruence.
  - cbn [peek good eofbit failbit negb andb buf] in E. unfold blank in A. destruct (Z.leb_spec (code a) 32); [|lia]. eapply IH. exact E.
Qed.
Lemma frac_total : forall fuel s f s1, skip_blank fuel s = Ok s1 -> fst (frac_extract fuel s f) <> OutOfFuel.
Proof.
  intros fuel s f s1 E. unfold frac_extract. rewrite E. destruct (peek s1) as [c0 s2]. destruct (negb (starts_number c0)); [discriminate|].
  destruct (extract_int s2) as [n s3]. destruct (peek s3) as [c1 s4]. destruct (c1 <=? 32).
  { pose proof (make_total n 1) as M. unfold frac_of_int. destruct (frac_make n 1); try discriminate. congruence. }
  destruct (extract_char s4) as [c s5]. destruct (peek s5) as [c2 s6]. destruct (negb (starts_number c2)); [discriminate|].
  destruct (extract_int s6) as [d s7]. destruct (negb (code c =? 47)); [discriminate|]. destruct (peek s7) as [c3 s8]. destruct (32 <? c3); [discriminate|].
  pose proof (make_total n d) as M. destruct (frac_make n d); try discriminate. congruence.
Qed.
Lemma clean_peek : forall rest c s, peek (IStream rest (is_nil rest) false) = (c, s) -> failbit s = false ->
  exists x r, rest = x :: r /\ c = code x /\ s = IStream rest false false.
Proof. intros [|x r] c s E F; cbn in E; inversion E; subst; [discriminate|eauto]. Qed.
Lemma failed_peek : forall s c s', peek s = (c, s') -> failbit s' = false -> failbit s = false.
Proof. intros [b [] []] c s' E F; cbn in E; inversion E; subst; auto. Qed.
Lemma failed_int : forall s n s', extract_int s = (n, s') -> failbit s' = false -> good s = true.
Proof. intros s n s' E F. destruct (good s) eqn:G; [auto|]. unfold extract_int in E. rewrite G in E. inversion E; subst. discriminate. Qed.
Lemma made : forall n d (s : istream) f s' r, FracSpec.fits n -> FracSpec.fits d ->
  match frac_make n d with Ok q => (Ok tt, (s, q)) | Throw e => (Throw e, (s, f)) | UB u => (UB u, (s, f)) | OutOfFuel => (OutOfFuel, (s, f)) end = (Ok tt, (s', r) : istream * Fraction) ->
  s' = s /\ fits1 n /\ fits1 d /\ d <> 0 /\ valid r /\ (qval r == inject_Z n / inject_Z d)%Q.
Proof.
  intros n d s f s' r Fn Fd E. destruct (make_cases n d Fn Fd) as [(_ & M)|[(_ & _ & M)|(D & F1 & F2 & q & M & _)]]; rewrite M in E; try discriminate.
  injection E as <- <-. destruct (make_exact n d Fn Fd D) as (X & _). destruct X as (q' & M' & V & Q); [unfold fits1, INT_MIN, INT_MAX in *; lia|].
  rewrite M in M'. injection M' as <-. auto 10.
Qed.

Definition outcome_of (n d : Z) (s : istream) (f : Fraction) : outcome unit * (istream * Fraction) :=
  match frac_make n d with Ok q => (Ok tt, (s, q)) | Throw e => (Throw e, (s, f)) | UB u => (UB u, (s, f)) | OutOfFuel => (OutOfFuel, (s, f)) end.
Lemma frac_parsed : forall m s f s' r fuel o, on_fail m = true -> o <> OutOfFuel -> o <> Throw WrongFractionLiteral -> frac_xextract m fuel s f = (Ends o, (s', r)) ->
   eofbit s = false /\ failbit s = false /\ exists ws t n d c rest, buf s = ws ++ t ++ c :: rest /\ Forall blank ws /\ fraction_text t n d /\
     blank c /\ s' = IStream (c :: rest) false false /\ FracSpec.fits n /\ FracSpec.fits d /\ outcome_of n d s' f = (o, (s', r)).
Proof.
  intros m s f s' r fuel o M O O' E. pose proof E as E0. unfold frac_xextract in E0. apply skip_inv in E0 as (s1 & K & _); [|auto].
  pose proof (frac_agrees m fuel s f (frac_total fuel s f s1 K)) as A. unfold agree in A. rewrite E in A.
  destruct (frac_extract fuel s f) as [o0 [s2 y]] eqn:P. destruct (hot m s2) eqn:H; [destruct A as (? & A & _); discriminate|]. injection A as <- <- <-. clear E.
  assert (F: failbit s' = false). { unfold hot in H. rewrite M in H. apply orb_false_iff in H as (_ & H). exact H. } clear H.
  destruct (skip_split _ _ _ K) as (G & ws & c0 & b & Eb & W & C0 & ->). unfold good in G. apply andb_true_iff in G as (G1 & G2). apply negb_true_iff in G1, G2.
  split; [auto|]. split; [auto|]. unfold frac_extract in P. rewrite K in P. cbn [peek good eofbit failbit negb andb buf] in P.
  destruct (starts_number (code c0)); cbn [negb] in P; [|congruence].
  destruct (extract_int (IStream (c0 :: b) false false)) as [n s2] eqn:E2. destruct (peek s2) as [c1 s3] eqn:E3.
  destruct (Z.leb_spec c1 32) as [L|L].
  + assert (S3: s' = s3) by (unfold frac_of_int in P; destruct (frac_make n 1); inversion P; auto). subst s3.
    destruct (int_sound _ _ _ _ C0 E2 (failed_peek _ _ _ E3 F)) as (t & rest & Et & Lt & Ft & ->).
    destruct (clean_peek _ _ _ E3 F) as (x & rr & -> & -> & ->).
    exists ws, t, n, 1, x, rr. rewrite Eb, Et. split; [auto|]. split; [auto|]. split; [constructor; auto|]. split; [exact L|]. split; [auto|]. split; [auto|].
    split; [unfold FracSpec.fits, INT_MIN, INT_MAX; lia|exact P].
  + destruct (peek_above _ _ _ E3 L) as (-> & b2 & -> & N2). destruct (int_sound _ _ _ _ C0 E2 eq_refl) as (t & rest & Et & Lt & Ft & R).
    injection R as -> _. destruct rest as [|x rest]; [congruence|]. clear N2. cbn in E3. injection E3 as <-.
    unfold extract_char in P. cbn [good eofbit failbit negb andb buf drop_while] in P. rewrite isspace_blank in P by auto.
    destruct (peek (IStream rest false false)) as [c2 s5] eqn:E5. destruct (starts_number c2) eqn:SN; cbn [negb] in P; [|congruence].
    assert (A2: 32 < c2). { unfold starts_number in SN. destruct (Z.leb_spec 48 c2); [lia|]. cbn [andb orb] in SN. apply orb_true_iff in SN as [SN|SN]; apply Z.eqb_eq in SN; lia. }
    destruct (peek_above _ _ _ E5 A2) as (-> & b5 & R5 & N5). injection R5 as <-. destruct rest as [|y rest]; [congruence|]. cbn in E5. injection E5 as <-.
    destruct (extract_int (IStream (y :: rest) false false)) as [d s6] eqn:E6. destruct (Z.eqb_spec (code x) 47) as [X|X]; cbn [negb] in P; [|congruence].
    destruct (peek s6) as [c3 s7] eqn:E7. destruct (Z.ltb_spec 32 c3) as [L3|L3]; [congruence|].
    assert (S7: s' = s7) by (destruct (frac_make n d); inversion P; auto). subst s7.
    destruct (int_sound _ _ _ _ A2 E6 (failed_peek _ _ _ E7 F)) as (u & rest' & Eu & Lu & Fu & ->).
    destruct (clean_peek _ _ _ E7 F) as (c & rr & -> & -> & ->).
    assert (XS: x = "/"%char). { apply code_inj. exact X. }
    exists ws, (t ++ "/"%char :: u), n, d, c, rr. rewrite Eb, Et, Eu, XS. split; [f_equal; rewrite <- app_assoc; reflexivity|]. split; [auto|]. split; [constructor; auto|]. split; [exact L3|].
    split; [auto|]. split; [auto|]. split; [auto|exact P].
Qed.

Theorem frac_exact : forall m s f s' r, on_fail m = true ->
  ((exists fuel, frac_xextract m fuel s f = (Ends (Ok tt), (s', r))) <->
   eofbit s = false /\ failbit s = false /\ exists ws t n d c rest, buf s = ws ++ t ++ c :: rest /\ Forall blank ws /\ fraction_text t n d /\
     blank c /\ s' = IStream (c :: rest) false false /\ fits1 n /\ fits1 d /\ d <> 0 /\ valid r /\ (qval r == inject_Z n / inject_Z d)%Q).
Proof.
  intros m s f s' r M. split.
  - intros (fuel & E). destruct (frac_parsed m s f s' r fuel (Ok tt) M ltac:(discriminate) ltac:(discriminate) E) as (G1 & G2 & ws & t & n & d & c & rest & Eb & W & T & C & Es & Fn & Fd & P).
    split; [auto|]. split; [auto|]. exists ws, t, n, d, c, rest. destruct (made n d s' f s' r Fn Fd P) as (_ & Q). auto 10.
  - intros (E1 & E2 & ws & t & n & d & c & rest & Eb & W & T & C & -> & Fn & Fd & D & V & Q).
    destruct s as [b e g]. cbn [buf eofbit failbit] in *. subst e g b. exists (S (length ws)).
    assert (PL: frac_extract (S (length ws)) (IStream (ws ++ t ++ c :: rest) false false) f = (Ok tt, (IStream (c :: rest) false false, r))).
    { destruct T as [t n L|t n u d Lt Lu].
      - rewrite (read_int ws t n (c :: rest)) by (auto; lia). cbn [is_nil]. do 3 f_equal. symmetry. apply valid_qval; auto.
        { unfold valid. cbn [num den]. unfold fits1, INT_MAX in *. repeat split; try lia. apply Z.gcd_1_r. }
        rewrite Q. unfold Qeq, qval, Qdiv. cbn. lia.
      - rewrite <- app_assoc. cbn [app]. rewrite (read_ratio ws t n u d (c :: rest)) by (auto using fits1_fits; lia). cbn [is_nil].
        destruct (make_exact n d ltac:(auto using fits1_fits) ltac:(auto using fits1_fits) D) as (X & _). destruct X as (q & Mq & Vq & Qq); [unfold fits1, INT_MIN, INT_MAX in *; lia|].
        unfold build. rewrite Mq. do 3 f_equal. apply valid_qval; auto. rewrite Q, Qq. reflexivity. }
    pose proof (frac_agrees m (S (length ws)) (IStream (ws ++ t ++ c :: rest) false false) f) as A. rewrite PL in A. specialize (A ltac:(discriminate)).
    unfold agree in A. rewrite hot_good in A. exact A.
Qed.

(** What can still be undefined: the most negative int. *)
Theorem frac_undefined : forall m s f fuel u s' r, on_fail m = true -> frac_xextract m fuel s f = (Ends (UB u), (s', r)) ->
  u = SignedOverflow /\ exists ws t n d c rest, buf s = ws ++ t ++ c :: rest /\ Forall blank ws /\ fraction_text t n d /\ blank c /\ (n = INT_MIN \/ d = INT_MIN).
Proof.
  intros m s f fuel u s' r M E.
  destruct (frac_parsed m s f s' r fuel (UB u) M ltac:(discriminate) ltac:(discriminate) E) as (_ & _ & ws & t & n & d & c & rest & Eb & W & T & C & Es & Fn & Fd & P).
  unfold outcome_of in P. destruct (make_cases n d Fn Fd) as [(_ & K)|[(_ & N & K)|(_ & _ & _ & q & K & _)]]; rewrite K in P; try discriminate.
  injection P as <-. split; [auto|]. exists ws, t, n, d, c, rest. repeat split; auto. unfold FracSpec.fits, fits1, INT_MIN, INT_MAX in *. lia.
Qed.
(** A fraction at the end of the input is lost. *)
Theorem frac_lost : forall m ws t n d f fuel, on_eof m = true \/ on_fail m = true -> Forall blank ws -> fraction_text t n d -> fits1 n -> fits1 d -> (length ws < fuel)%nat ->
  exists s, frac_xextract m fuel (IStream (ws ++ t) false false) f = (Failure, (s, f)).
Proof.
  intros m ws t n d f fuel M W T Fn Fd L.
  assert (H: hot m (IStream [] true true) = true) by (unfold hot; cbn; rewrite !andb_true_r; destruct M as [-> | ->]; [reflexivity|apply orb_true_r]).
  assert (P: exists o y, o <> OutOfFuel /\ frac_extract fuel (IStream (ws ++ t) false false) f = (o, (IStream [] true true, y))).
  { destruct T as [t n Lt|t n u d Lt Lu].
    - exists (Ok tt), (Frac n 1). split; [discriminate|]. pose proof (read_int ws t n [] fuel f W Lt Fn I L) as R. rewrite app_nil_r in R. exact R.
    - pose proof (read_ratio ws t n u d [] fuel f W Lt Lu (fits1_fits _ Fn) (fits1_fits _ Fd) I L) as R. rewrite app_nil_r in R. rewrite R. unfold build.
      pose proof (make_total n d) as MT. destruct (frac_make n d); try congruence; eexists _, _; (split; [|reflexivity]); discriminate. }
  destruct P as (o & y & O & P). pose proof (frac_agrees m fuel (IStream (ws ++ t) false false) f) as A. rewrite P in A. specialize (A O). unfold agree in A. rewrite H in A.
  destruct A as (s & A & _). eauto.
Qed.
Lemma number_no_j : forall t, number t -> ~ In "j"%char t.
Proof.
  assert (D: forall ds, digits ds -> ~ In "j"%char ds).
  { intros ds H I. unfold digits in H. rewrite Forall_forall in H. specialize (H _ I). unfold digit in H. vm_compute in H. destruct H as (_ & H). apply H. reflexivity. }
  assert (S: forall sg, sign_opt sg -> ~ In "j"%char sg) by (intros sg [->|[->| ->]] I; cbn in I; [exact I|destruct I as [I|I]; [discriminate|exact I]|destruct I as [I|I]; [discriminate|exact I]]).
  intros t (sg & m & e & -> & Sg & M & X) I. apply in_app_or in I as [I|I]; [apply (S sg); auto|]. apply in_app_or in I as [I|I].
  - destruct M as [(_ & M)|(a & b & -> & A & B & _)]; [apply (D m); auto|]. apply in_app_or in I as [I|[I|I]]; [apply (D a); auto|discriminate|apply (D b); auto].
  - destruct X as [->|(c & sg' & ds & -> & C & Sg' & Ds & _)]; [destruct I|]. destruct I as [I|I]; [destruct C; subst; discriminate|]. apply in_app_or in I as [I|I]; [apply (S sg'); auto|apply (D ds); auto].
Qed.
(** What follows decides whether a complex number is read. *)
Theorem cx_read : forall m strtod t x y ws c rest z fuel, complex_literal (gives strtod) d0 t x y -> Forall blank ws -> blank c -> (length ws < fuel)%nat ->
  cx_xextract m strtod fuel (IStream (ws ++ t ++ c :: rest) false false) z = (Ends (Ok tt), (IStream (c :: rest) false false, Cx x y)).
Proof.
  intros m strtod t x y ws c rest z fuel T W C L. destruct (read_literal strtod t x y ws (c :: rest) z fuel T W C L) as (f & E & F). rewrite F in E by discriminate.
  pose proof (cx_agrees m strtod fuel (IStream (ws ++ t ++ c :: rest) false false) z) as A. rewrite E in A. specialize (A ltac:(discriminate)).
  unfold agree in A. cbn [is_nil] in A. rewrite hot_good in A. exact A.
Qed.
Theorem cx_lost : forall m strtod t x ws z fuel, on_eof m = true \/ on_fail m = true -> number t -> gives strtod t x -> Forall blank ws -> (length ws < fuel)%nat ->
  exists s, cx_xextract m strtod fuel (IStream (ws ++ t) false false) z = (Failure, (s, z)).
Proof.
  intros m strtod t x ws z fuel M T V W L.
  assert (E: cx_extract strtod fuel (IStream (ws ++ t) false false) z = (Ok tt, (IStream [] true true, cx_of x))).
  { pose proof (skipped strtod ws t [] fuel z W T L) as K. rewrite app_nil_r in K. rewrite K. pose proof (read_real strtod t x [] z T V I) as R. rewrite app_nil_r in *. exact R. }
  pose proof (cx_agrees m strtod fuel (IStream (ws ++ t) false false) z) as A. rewrite E in A. specialize (A ltac:(discriminate)). unfold agree in A.
  assert (H: hot m (IStream [] true true) = true) by (unfold hot; cbn; rewrite !andb_true_r; destruct M as [-> | ->]; [reflexivity|apply orb_true_r]).
  rewrite H in A. destruct A as (s & A & _). eauto.
Qed.
(** One that ends with j, at the end of the input, is read if only failbit throws. *)
Theorem cx_last : forall m strtod t x y ws z fuel, complex_literal (gives strtod) d0 (t ++ ["j"%char]) x y -> Forall blank ws -> (length ws < fuel)%nat ->
  (on_eof m = false -> cx_xextract m strtod fuel (IStream (ws ++ t ++ ["j"%char]) false false) z = (Ends (Ok tt), (IStream [] true false, Cx x y))) /\
  (on_eof m = true -> exists s, cx_xextract m strtod fuel (IStream (ws ++ t ++ ["j"%char]) false false) z = (Failure, (s, z))).
Proof.
  intros m strtod t x y ws z fuel T W L.
  assert (E: cx_extract strtod fuel (IStream (ws ++ t ++ ["j"%char]) false false) z = (Ok tt, (IStream [] true false, Cx x y))).
  { inversion T as [t' x' N V Et|t' y' N V Et|t' u' x' y' N V U VU Et]; subst.
    - exfalso. pose proof (number_no_j _ N) as NJ. apply NJ. apply in_or_app. right. left. reflexivity.
    - apply app_inj_tail in Et as (-> & _). rewrite skipped by auto. apply (read_imag strtod t y [] z N V I).
    - rewrite app_assoc in Et. apply app_inj_tail in Et as (<- & _). rewrite <- ?app_assoc. rewrite skipped by auto. apply (read_both strtod t' u' x y [] z N V U VU I). }
  pose proof (cx_agrees m strtod fuel (IStream (ws ++ t ++ ["j"%char]) false false) z) as A. rewrite E in A. specialize (A ltac:(discriminate)). unfold agree in A.
  assert (H: hot m (IStream [] true false) = on_eof m) by (unfold hot; cbn; rewrite andb_true_r, andb_false_r, orb_false_r; reflexivity).
  rewrite H in A. destruct (on_eof m); split; intros K; try discriminate; [|exact A]. destruct A as (s & A & _). eauto.
Qed.
(** With an exception for failbit nothing is undefined. *)
Theorem cx_defined : forall m strtod fuel s z u, on_fail m = true -> fst (cx_xextract m strtod fuel s z) <> Ends (UB u).
Proof.
  intros m strtod fuel s z u M E.
  destruct (cx_xextract m strtod fuel s z) as [rd p] eqn:X. cbn [fst] in E. subst rd. pose proof X as X0. unfold cx_xextract in X0. apply skip_inv in X0 as (s1 & K & R); [|discriminate].
  destruct (skip_split _ _ _ K) as (_ & ws & c & b & _ & _ & C & ->). rewrite complex_same in R. destruct (starts_complex (code c)); cbn [negb] in R; [|discriminate].
  assert (HF: forall s, hot m s = false -> failbit s = false) by (intros q H; unfold hot in H; rewrite M in H; apply orb_false_iff in H as (_ & H); exact H).
  assert (DS: forall c b r q, 32 < code c -> extract_double strtod (IStream (c :: b) false false) = (r, q) -> exists v, r = Some v).
  { intros c' b' r q C' D. unfold extract_double in D. cbn [good eofbit failbit negb andb buf drop_while] in D. rewrite isspace_blank in D by auto.
    destruct (number_text (c' :: b')) as [t0 rest0]. destruct (strtod t0) as [x0 bad0]. inversion D; eauto. }
  unfold guarded at 1 in R. destruct (extract_double strtod (IStream (c :: b) false false)) as [real s2] eqn:D1. destruct (DS _ _ _ _ C D1) as (xr & ->).
  destruct (hot m s2) eqn:H2; [discriminate|]. unfold guarded at 1 in R. destruct (peek s2) as [c1 s3] eqn:P3. destruct (hot m s3) eqn:H3; [discriminate|].
  destruct (Z.leb_spec c1 32) as [L|L]; [discriminate|].
  destruct (peek_above _ _ _ P3 L) as (-> & b2 & -> & N2). destruct b2 as [|a2 b2]; [congruence|]. cbn in P3. injection P3 as <-. rewrite guard_peek in R.
  destruct (code a2 =? 106).
  - unfold guarded at 1 in R. destruct (hot m (ignore _)); [discriminate|]. unfold guarded in R. destruct (peek (ignore _)) as [c2 s5]. destruct (hot m s5); [discriminate|]. destruct (c2 <=? 32); discriminate.
  - unfold guarded at 1 in R. destruct (extract_double strtod (IStream (a2 :: b2) false false)) as [imag s4] eqn:D2. destruct (DS _ _ _ _ L D2) as (xi & ->).
    destruct (hot m s4) eqn:H4; [discriminate|]. unfold guarded at 1 in R. destruct (extract_char_opt s4) as [oc s5] eqn:P5. destruct (hot m s5) eqn:H5; [discriminate|].
    destruct oc as [oc|].
    + destruct (negb (code oc =? 106)); [discriminate|]. unfold guarded in R. destruct (peek s5) as [c3 s6]. destruct (hot m s6); [discriminate|]. destruct (32 <? c3); discriminate.
    + apply HF in H5. unfold extract_char_opt in P5. destruct (negb (good s4)); [inversion P5; subst; discriminate|]. destruct (drop_while isspace (buf s4)); inversion P5; subst; discriminate.
Qed.

(** ** Reading loops *)
Lemma skip_blanks : forall B m (old : B) k ws fuel, on_eof m = true \/ on_fail m = true -> Forall blank ws -> (length ws < fuel)%nat ->
  exists s', x_skip m old fuel (IStream ws false false) k = (Failure, (s', old)).
Proof.
  intros B m old k ws fuel M W. revert fuel. induction W as [|c ws C W IH]; intros [|fuel] L; cbn in L; try lia.
  - destruct m as [[] f]; cbn [on_fail on_eof] in *; [eexists; reflexivity|]. destruct f; [eexists; reflexivity|]. destruct M; discriminate.
  - cbn [x_skip]. rewrite guard_peek. unfold blank in C. destruct (Z.leb_spec (code c) 32); [|lia]. unfold guarded, ignore. cbn [good eofbit failbit negb andb buf]. rewrite hot_good. apply IH. lia.
Qed.
Section Loop.
Variables (B : Type) (extract : istream -> B -> left_behind B) (x0 : B) (print : B -> list ascii) (white : ascii -> Prop) (usual : B -> Prop) (room : nat).
Hypothesis one : forall ws x c rest, Forall white ws -> usual x -> white c -> (length ws < room)%nat ->
  extract (IStream (ws ++ print x ++ c :: rest) false false) x0 = (Ends (Ok tt), (IStream (c :: rest) false false, x)).
Lemma loop_reads : forall items ws0 final n,
  Forall (fun it => snd it <> [] /\ Forall white (snd it) /\ (length (snd it) < room)%nat /\ usual (fst it)) items -> Forall white ws0 -> (length ws0 < room)%nat ->
  exists ws, Forall white ws /\ (length ws < room)%nat /\
    forall l e, read_while extract x0 n (IStream (ws ++ final) false false) = (l, e) ->
    read_while extract x0 (length items + n) (IStream (ws0 ++ spaced print items ++ final) false false) = (map fst items ++ l, e).
Proof.
  induction items as [|[x w] items IH]; intros ws0 final n F W0 L0.
  - exists ws0. auto.
  - inversion F as [|? ? (N & W & L & U) F']; subst. cbn [fst snd] in *. destruct (IH w final n F' W L) as (ws & W' & L' & K). exists ws. split; [auto|]. split; [auto|].
    intros l e E. specialize (K l e E). destruct w as [|c w]; [congruence|]. inversion W as [|? ? C W1]; subst.
    cbn [length Nat.add read_while map fst]. unfold spaced in *. cbn [flat_map fst snd]. rewrite <- !app_assoc. cbn [app] in *. rewrite one by auto. cbn [failbit]. rewrite K. reflexivity.
Qed.
End Loop.
Lemma in_run : forall A (items : list (A * list ascii)) it, In it items -> (length (snd it) <= length (flat_map snd items))%nat.
Proof. induction items as [|a items IH]; intros it [].
  - subst. cbn [flat_map]. rewrite app_length. lia.
  - cbn [flat_map]. rewrite app_length. specialize (IH _ H). lia. Qed.

(** The fraction [f] at the end is not stored. *)
Theorem frac_loop : forall m items ws0 final, on_eof m = true \/ on_fail m = true -> Forall blank ws0 -> white_runs items -> Forall (fun it => valid (fst it)) items ->
  (final = [] \/ exists f, valid f /\ final = frac_print f) ->
  exists k, forall fuel, (k <= fuel)%nat ->
  read_while (frac_xextract m fuel) (Frac 0 1) fuel (IStream (ws0 ++ spaced frac_print items ++ final) false false) = (map fst items, Failure).
Proof.
  intros m items ws0 final M W0 R V Fin. exists (S (length ws0 + length (flat_map snd items) + length items)). intros fuel L.
  assert (One: forall ws x c rest, Forall blank ws -> valid x -> blank c -> (length ws < fuel)%nat ->
    frac_xextract m fuel (IStream (ws ++ frac_print x ++ c :: rest) false false) (Frac 0 1) = (Ends (Ok tt), (IStream (c :: rest) false false, x))).
  { intros ws x c rest W Vx C Lw. pose proof (roundtrip ws x (c :: rest) fuel (Frac 0 1) W Vx C Lw) as P.
    pose proof (frac_agrees m fuel (IStream (ws ++ frac_print x ++ c :: rest) false false) (Frac 0 1)) as A. rewrite P in A. specialize (A ltac:(discriminate)).
    unfold agree in A. cbn [is_nil] in A. rewrite hot_good in A. exact A. }
  assert (F: Forall (fun it => snd it <> [] /\ Forall blank (snd it) /\ (length (snd it) < fuel)%nat /\ valid (fst it)) items).
  { apply Forall_forall. intros it I. unfold white_runs in R. rewrite Forall_forall in R, V. destruct (R it I). pose proof (in_run _ _ _ I). split; [auto|]. split; [auto|]. split; [lia|apply V; auto]. }
  destruct (loop_reads _ (frac_xextract m fuel) (Frac 0 1) frac_print blank valid fuel One items ws0 final (fuel - length items) F W0 ltac:(lia)) as (ws & W & Lw & K).
  replace fuel with (length items + (fuel - length items))%nat at 2 by lia. rewrite (K [] Failure); [rewrite app_nil_r; reflexivity|].
  destruct (fuel - length items)%nat as [|n] eqn:En; [lia|]. cbn [read_while].
  assert (Q: exists s', frac_xextract m fuel (IStream (ws ++ final) false false) (Frac 0 1) = (Failure, (s', Frac 0 1))).
  { destruct Fin as [->|(f & Vf & ->)].
    - rewrite app_nil_r. unfold frac_xextract. apply skip_blanks; auto.
    - assert (P: frac_extract fuel (IStream (ws ++ frac_print f) false false) (Frac 0 1) = (Ok tt, (IStream [] true true, f))).
      { pose proof (roundtrip ws f [] fuel (Frac 0 1) W Vf I Lw) as P. rewrite app_nil_r in P. exact P. }
      pose proof (frac_agrees m fuel (IStream (ws ++ frac_print f) false false) (Frac 0 1)) as A. rewrite P in A. specialize (A ltac:(discriminate)). unfold agree in A.
      assert (H: hot m (IStream [] true true) = true) by (unfold hot; cbn; rewrite !andb_true_r; destruct M as [-> | ->]; [reflexivity|apply orb_true_r]).
      rewrite H in A. destruct A as (s & A & _). eauto. }
  destruct Q as (s' & ->). reflexivity.
Qed.

(** A complex number written with j at the end is stored if only failbit throws, a real number is not. *)
Theorem cx_loop : forall m strtod (texts : list (Complex * (list ascii * list ascii))) ws0 final rest, on_eof m = true \/ on_fail m = true -> Forall blank ws0 ->
  Forall (fun it => complex_literal (gives strtod) d0 (fst (snd it)) (re (fst it)) (im (fst it)) /\ snd (snd it) <> [] /\ Forall blank (snd (snd it))) texts ->
  (final = [] /\ rest = []) \/
  (exists x, number final /\ gives strtod final x /\ rest = []) \/
  (exists t x y, final = t ++ ["j"%char] /\ complex_literal (gives strtod) d0 final x y /\ rest = if on_eof m then [] else [Cx x y]) ->
  exists k, forall fuel, (k <= fuel)%nat ->
  read_while (cx_xextract m strtod fuel) cx_zero fuel
    (IStream (ws0 ++ flat_map (fun it => fst (snd it) ++ snd (snd it)) texts ++ final) false false) = (map fst texts ++ rest, Failure).
Proof.
  intros m strtod texts ws0 final rest M W0 F Fin. exists (S (S (length ws0 + length (flat_map (fun it => snd (snd it)) texts) + length texts))). intros fuel L.
  assert (E: exists n, (n = fuel - length texts)%nat /\ (2 <= n)%nat /\ fuel = (length texts + n)%nat) by (exists (fuel - length texts)%nat; lia). destruct E as (n & _ & N & En).
  rewrite En at 2. clear En. assert (L0: (length ws0 + length (flat_map (fun it => snd (snd it)) texts) < fuel)%nat) by lia. clear L.
  revert ws0 W0 L0. induction F as [|[z [t w]] texts (T & NE & W) F IH]; intros ws0 W0 L0.
  - cbn [length Nat.add flat_map app map]. cbn in L0. destruct n as [|n]; [lia|]. destruct n as [|n]; [lia|]. destruct Fin as [(-> & ->)|[(x & Nf & G & ->)|(t & x & y & -> & T & ->)]].
    + rewrite app_nil_r. assert (Q: exists s', cx_xextract m strtod fuel (IStream ws0 false false) cx_zero = (Failure, (s', cx_zero))) by (unfold cx_xextract; apply skip_blanks; auto; lia).
      destruct Q as (s' & Q). cbn [read_while]. rewrite Q. reflexivity.
    + cbn [read_while]. destruct (cx_lost m strtod final x ws0 cx_zero fuel M Nf G W0 ltac:(lia)) as (s' & ->). reflexivity.
    + cbn [read_while]. destruct (cx_last m strtod t x y ws0 cx_zero fuel T W0 ltac:(lia)) as (A & C). destruct (on_eof m) eqn:Eo.
      * destruct (C eq_refl) as (s' & ->). reflexivity.
      * rewrite (A eq_refl). cbn [failbit]. destruct M as [M|M]; [discriminate|]. destruct fuel as [|fuel]; [lia|]. unfold cx_xextract at 1. cbn [x_skip]. unfold guarded at 1.
        cbn [peek good eofbit failbit negb andb buf]. unfold hot at 1, set_fail. cbn [eofbit failbit]. rewrite M, Eo. cbn [andb orb]. reflexivity.
  - cbn [length Nat.add flat_map fst snd map] in *. rewrite app_length in L0. cbn [read_while].
    replace (ws0 ++ ((t ++ w) ++ flat_map (fun it => fst (snd it) ++ snd (snd it)) texts) ++ final) with (ws0 ++ t ++ w ++ flat_map (fun it => fst (snd it) ++ snd (snd it)) texts ++ final)
      by (rewrite <- !app_assoc; reflexivity).
    specialize (IH w W ltac:(lia)). destruct w as [|c w]; [congruence|]. inversion W as [|? ? C W1]; subst. cbn [app] in *.
    rewrite (cx_read m strtod t (re z) (im z)) by (auto; lia). cbn [failbit]. rewrite IH. destruct z. reflexivity.
Qed.

(** Every Int is stored if only failbit throws. *)
Theorem int_loop : forall m items ws0 final rest, on_fail m = true -> Forall (fun c => isspace c = true) ws0 ->
  Forall (fun it => canonical (fst it) /\ snd it <> [] /\ Forall (fun c => isspace c = true) (snd it)) items ->
  (final = [] /\ rest = []) \/ (exists x, canonical x /\ final = int_print x /\ rest = if on_eof m then [] else [x]) ->
  exists k, forall fuel, (k <= fuel)%nat ->
  read_while (int_xextract m) (MkInt 0 []) fuel (IStream (ws0 ++ spaced int_print items ++ final) false false) = (map fst items ++ rest, Failure).
Proof.
  intros m items ws0 final rest M W0 F Fin. exists (S (S (length items))). intros fuel L.
  set (white := fun c => isspace c = true).
  assert (Tok: forall ws x rest, Forall white ws -> canonical x -> stops (fun c => negb (isspace c)) rest ->
    int_extract (IStream (ws ++ int_print x ++ rest) false false) (MkInt 0 []) = (Ok tt, (IStream rest (is_nil rest) false, x))).
  { intros ws x r W C S. pose proof (canon_repr _ C) as R. rewrite (int_print_show _ _ R). destruct (show_token (value x)) as (T1 & T2 & T3). destruct (show_int_spec (value x)) as (LT & _).
    destruct (extract_ok ws (show_int (value x)) r (MkInt 0 []) (value x)) as (y & Ry & E); auto; [apply Forall_isspace; auto|rewrite T3; auto|].
    rewrite E. rewrite (repr_unique _ _ _ Ry R). reflexivity. }
  assert (One: forall ws x c r, Forall white ws -> canonical x -> white c -> (length ws < S (length ws0 + length (flat_map snd items)))%nat ->
    int_xextract m (IStream (ws ++ int_print x ++ c :: r) false false) (MkInt 0 []) = (Ends (Ok tt), (IStream (c :: r) false false, x))).
  { intros ws x c r W C Wc _. pose proof (int_agrees m (IStream (ws ++ int_print x ++ c :: r) false false) (MkInt 0 [])) as A.
    rewrite Tok in A by (auto; cbn; rewrite Wc; reflexivity). unfold agree in A. cbn [is_nil] in A. rewrite hot_good in A. exact A. }
  assert (F': Forall (fun it => snd it <> [] /\ Forall white (snd it) /\ (length (snd it) < S (length ws0 + length (flat_map snd items)))%nat /\ canonical (fst it)) items).
  { apply Forall_forall. intros it I. rewrite Forall_forall in F. destruct (F it I) as (? & ? & ?). pose proof (in_run _ _ _ I). split; [auto|]. split; [auto|]. split; [lia|auto]. }
  destruct (loop_reads _ (int_xextract m) (MkInt 0 []) int_print white canonical _ One items ws0 final (fuel - length items) F' W0 ltac:(lia)) as (ws & W & _ & K).
  replace fuel with (length items + (fuel - length items))%nat by lia. apply K. clear K.
  assert (HF: forall s, failbit s = true -> hot m s = true) by (intros s E; unfold hot; rewrite M, E; apply orb_true_r).
  destruct (fuel - length items)%nat as [|[|n]] eqn:En; [lia|lia|]. destruct Fin as [(-> & ->)|(x & C & -> & ->)].
  - rewrite app_nil_r. cbn [read_while]. pose proof (int_agrees m (IStream ws false false) (MkInt 0 [])) as A.
    destruct (extract_empty (IStream ws false false) (MkInt 0 [])) as (s' & Fs & E); [right; cbn; apply Forall_isspace; auto|]. rewrite E in A. unfold agree in A. rewrite HF in A by auto.
    destruct A as (s'' & -> & _). reflexivity.
  - cbn [read_while]. pose proof (int_agrees m (IStream (ws ++ int_print x) false false) (MkInt 0 [])) as A. pose proof (Tok ws x [] W C I) as E. rewrite app_nil_r in E. rewrite E in A.
    unfold agree in A. cbn [is_nil] in A. assert (H: hot m (IStream [] true false) = on_eof m) by (unfold hot; cbn; rewrite andb_true_r, andb_false_r, orb_false_r; reflexivity).
    rewrite H in A. destruct (on_eof m); [destruct A as (s & -> & _); reflexivity|]. rewrite A. cbn [failbit].
    pose proof (int_agrees m (IStream [] true false) (MkInt 0 [])) as A'. destruct (extract_empty (IStream [] true false) (MkInt 0 [])) as (s' & Fs & E'); [left; reflexivity|].
    rewrite E' in A'. unfold agree in A'. rewrite HF in A' by auto. destruct A' as (s'' & -> & _). reflexivity.
Qed.

(** ** Witnesses *)
Theorem frac_ends_failbit : forall m s f, on_fail m = true ->
  exists n r, fst r <> Ends OutOfFuel /\ forall fuel, (n <= fuel)%nat -> frac_xextract m fuel s f = r.
Proof. intros m s f M. apply frac_ends. intros (_ & H & _). congruence. Qed.
Theorem cx_ends_failbit : forall m strtod s z, on_fail m = true ->
  exists n r, fst r <> Ends OutOfFuel /\ forall fuel, (n <= fuel)%nat -> cx_xextract m strtod fuel s z = r.
Proof. intros m strtod s z M. apply cx_ends. intros (_ & H & _). congruence. Qed.
Theorem frac_not_all : ~ (forall m ws t n d rest f, on_fail m = true -> Forall blank ws -> fraction_text t n d -> fits1 n -> fits1 d -> d <> 0 -> ends rest ->
  exists fuel s' r, frac_xextract m fuel (IStream (ws ++ t ++ rest) false false) f = (Ends (Ok tt), (s', r)) /\ (qval r == inject_Z n / inject_Z d)%Q).
Proof.
  intros H. specialize (H (Mask false true) [] ["1"%char] 1 1 [] (Frac 0 1) eq_refl (Forall_nil _) (whole ["1"%char] 1 eq_refl)).
  destruct H as (fuel & s' & r & E & _); try (unfold fits1, INT_MAX; lia); [exact I|].
  destruct fuel as [|fuel]; [discriminate|].
  destruct (frac_lost (Mask false true) [] ["1"%char] 1 1 (Frac 0 1) (S fuel) (or_intror eq_refl) (Forall_nil _) (whole ["1"%char] 1 eq_refl)) as (s & L); [unfold fits1, INT_MAX; lia|unfold fits1, INT_MAX; lia|cbn; lia|].
  cbn [app] in *. congruence.
Qed.
Theorem cx_not_all : forall strtod x, gives strtod ["1"%char] x ->
  ~ (forall m t x y ws rest z, on_fail m = true -> complex_literal (gives strtod) d0 t x y -> Forall blank ws -> ends rest ->
  exists fuel s', cx_xextract m strtod fuel (IStream (ws ++ t ++ rest) false false) z = (Ends (Ok tt), (s', Cx x y))).
Proof.
  intros strtod x G H. assert (N: number ["1"%char]).
  { exists [], ["1"%char], []. split; [reflexivity|]. split; [left; reflexivity|]. split; [left; split; [discriminate|]|left; reflexivity]. constructor; [unfold digit; vm_compute; split; discriminate|constructor]. }
  destruct (H (Mask false true) ["1"%char] x d0 [] [] cx_zero eq_refl (lit_real _ _ _ _ N G) (Forall_nil _) I) as (fuel & s' & E).
  destruct fuel as [|fuel]; [discriminate|]. destruct (cx_lost (Mask false true) strtod ["1"%char] x [] cx_zero (S fuel) (or_intror eq_refl) N G (Forall_nil _)) as (s & L); [cbn; lia|].
  cbn [app] in *. congruence.
Qed.
