(** Int(text) and Str(text).to_integer(10) read the same literals. *)
From Coq Require Import String Ascii ZArith List Bool Lia.
From Verif Require Import Outcome IntModel IntSpec IntBase IntIO IntMore ListModel ListSpec ListFacts StrModel StrSpec StrFacts StrMore StrNum StrDec StrFloat StrSum ShowFacts.
Import ListNotations.
Open Scope Z_scope.

Lemma digit_of_val : forall c d, digit_of c = Some d <-> digit_val 10 c d.
Proof.
  intros c d. rewrite digit_of_spec. unfold digit_val, is_digit_char. change (byte c) with (code c).
  destruct (Z.leb_spec 48 (code c)); destruct (Z.leb_spec (code c) 57); cbn [andb]; split; intros E; try discriminate; try lia.
  - injection E as <-. lia.
  - f_equal. lia.
Qed.

Lemma dec_of_digits : forall t acc v, dec_of acc t = Some v <->
  exists ds, digits_text 10 t ds /\ v = acc * 10 ^ Z.of_nat (length ds) + positional 10 ds.
Proof.
  unfold digits_text. induction t as [|c t]; intros acc v; cbn [dec_of].
  - split.
    + intros E. injection E as <-. exists []. split; [constructor|]. cbn. lia.
    + intros (ds & F & ->). inversion F; subst. cbn. f_equal. lia.
  - split.
    + destruct (digit_of c) as [d|] eqn:D; [|discriminate]. intros E. apply IHt in E. destruct E as (ds & F & ->).
      exists (d :: ds). split; [constructor; auto; apply digit_of_val; auto|]. cbn [positional length].
      rewrite Nat2Z.inj_succ, Z.pow_succ_r by lia. ring.
    + intros (ds & F & ->). inversion F; subst. apply digit_of_val in H1. rewrite H1. apply IHt.
      exists l'. split; auto. cbn [positional length]. rewrite Nat2Z.inj_succ, Z.pow_succ_r by lia. ring.
Qed.

Lemma digits_nonempty : forall t ds, digits_text 10 t ds -> t <> [] <-> ds <> [].
Proof. intros t ds F. inversion F; subst; split; intros; congruence || discriminate. Qed.

Lemma blank_not_digit : forall c, blank c -> digit_of c = None.
Proof. intros c [->|[->|[->| ->]]]; reflexivity. Qed.

Lemma literal_int_literal : forall s z, literal s = Some z -> int_literal 10 s z.
Proof.
  assert (G: forall sg t negative z, sign_text sg negative -> t <> [] -> dec_of 0 t = Some (if negative then - z else z) -> int_literal 10 (sg ++ t) z).
  { intros sg t negative z S N E. apply dec_of_digits in E. destruct E as (ds & F & E).
    exists [], sg, t, [], negative, ds. rewrite app_nil_r. split; auto. split; [constructor|]. split; [constructor|]. split; auto. split; auto.
    split; [apply (digits_nonempty t); auto|]. destruct negative; lia. }
  intros [|c s] z L; [discriminate|].
  assert (H: forall t, t <> [] -> dec_of 0 t = Some z -> int_literal 10 t z).
  { intros t N E. apply (G [] t false z); cbn; auto. }
  destruct (ascii_dec c "+"%char) as [->|N1].
  - cbn [literal] in L. destruct s as [|d s]; [discriminate|]. apply (G ["+"%char] (d :: s) false z); cbn; auto. discriminate.
  - destruct (ascii_dec c "-"%char) as [->|N2].
    + cbn [literal] in L. destruct s as [|d s]; [discriminate|]. apply (G ["-"%char] (d :: s) true z); cbn [sign_text]; auto; [discriminate|].
      destruct (dec_of 0 (d :: s)) as [v|]; cbn [option_map] in L; [|discriminate]. injection L as <-. f_equal. lia.
    + apply H; [discriminate|].
      destruct (digit_of c) as [d|] eqn:D.
      * rewrite (literal_of_digits _ _ _ D) in L. exact L.
      * destruct c as [[] [] [] [] [] [] [] []]; try exact L; contradiction.
Qed.

Lemma int_literal_literal : forall s z, int_literal 10 s z -> (forall c, In c s -> ~ blank c) -> literal s = Some z.
Proof.
  intros s z (b1 & sg & t & b2 & neg & ds & -> & B1 & B2 & S & F & N & ->) NB.
  assert (E1: b1 = []). { destruct b1 as [|c b1]; auto. inversion B1; subst. destruct (NB c); auto. left. auto. }
  assert (E2: b2 = []). { destruct b2 as [|c b2]; auto. inversion B2; subst. destruct (NB c); auto. rewrite !in_app_iff. right. right. right. left. auto. }
  subst. rewrite app_nil_r. cbn [app].
  assert (D: dec_of 0 t = Some (positional 10 ds)) by (apply dec_of_digits; exists ds; split; auto; lia).
  assert (T: t <> []) by (apply (digits_nonempty t ds); auto).
  destruct neg; cbn [sign_text] in S.
  - subst sg. cbn [app literal]. destruct t; [contradiction|]. rewrite D. reflexivity.
  - destruct S as [-> | ->]; cbn [app].
    + destruct t as [|c t]; [contradiction|]. inversion F; subst. apply digit_of_val in H1. rewrite (literal_of_digits _ _ _ H1). exact D.
    + cbn [literal]. destruct t; [contradiction|]. exact D.
Qed.

Lemma literals_agree : forall p s, len s < INT_MAX -> (forall c, In c s -> ~ blank c) ->
  (forall x, int_of_chars s = Ok x <-> str_to_integer p s 10 = Ok x) /\
  (int_of_chars s = Throw WrongIntegerLiteral <-> str_to_integer p s 10 = Throw BadIntegerLiteral).
Proof.
  intros p s L NB. pose proof (string_constructor s) as C. destruct (to_integer_spec p 10 s L) as (_ & T & E).
  destruct (literal s) as [z|] eqn:Ls.
  - destruct C as (r & C & R). destruct (T ltac:(lia) z (literal_int_literal s z Ls)) as (r' & T' & R').
    assert (r' = r) by (eapply repr_unique; eauto). subst r'. rewrite C, T'. split; [intros; reflexivity|split; discriminate].
  - assert (N: forall z, ~ int_literal 10 s z). { intros z I. rewrite (int_literal_literal s z I NB) in Ls. discriminate. }
    rewrite C, (E ltac:(lia) N). split; [intros; split; discriminate|split; auto].
Qed.

Lemma int_accepted_by_str : forall p s x, len s < INT_MAX -> int_of_chars s = Ok x -> str_to_integer p s 10 = Ok x.
Proof.
  intros p s x L H. pose proof (string_constructor s) as C. destruct (to_integer_spec p 10 s L) as (_ & T & _).
  destruct (literal s) as [z|] eqn:Ls; [|congruence].
  destruct C as (r & C & R). destruct (T ltac:(lia) z (literal_int_literal s z Ls)) as (r' & T' & R').
  assert (r' = r) by (eapply repr_unique; eauto). congruence.
Qed.

Lemma print_to_integer : forall p x, canonical x -> len (int_print x) < INT_MAX -> str_to_integer p (int_print x) 10 = Ok x.
Proof. intros p x C L. apply int_accepted_by_str; auto. apply int_print_roundtrip. auto. Qed.

Lemma blanks_differ : forall p, exists s x, len s < INT_MAX /\ str_to_integer p s 10 = Ok x /\ int_of_chars s = Throw WrongIntegerLiteral.
Proof. intros p. exists [" "%char; "1"%char], (MkInt 1 [1]). destruct p; vm_compute; auto. Qed.
