(** Proofs about [to_integer] and [to_decimal]. *)
From Coq Require Import String Ascii ZArith List Bool Lia.
From Flocq Require Import BinarySingleNaN.
From Verif Require Import Outcome IntModel IntSpec IntBase IntAddSub IntMulDiv ListModel ListSpec ListFacts ListMore FloatModel StrModel StrSpec StrFacts StrMore.
Import ListNotations.
Open Scope Z_scope.

(** ** Characters *)

Definition dig_byte (c : ascii) (i : Z) : Prop := i < 10 /\ byte c = 48 + i \/ 10 <= i < 36 /\ (byte c = 65 + (i - 10) \/ byte c = 97 + (i - 10)).

Lemma nat36 : forall (P : nat -> Prop), P 0%nat -> P 1%nat -> P 2%nat -> P 3%nat -> P 4%nat -> P 5%nat -> P 6%nat -> P 7%nat -> P 8%nat -> P 9%nat ->
  P 10%nat -> P 11%nat -> P 12%nat -> P 13%nat -> P 14%nat -> P 15%nat -> P 16%nat -> P 17%nat -> P 18%nat -> P 19%nat ->
  P 20%nat -> P 21%nat -> P 22%nat -> P 23%nat -> P 24%nat -> P 25%nat -> P 26%nat -> P 27%nat -> P 28%nat -> P 29%nat ->
  P 30%nat -> P 31%nat -> P 32%nat -> P 33%nat -> P 34%nat -> P 35%nat -> forall n, (n < 36)%nat -> P n.
Proof.
  intros. do 36 (destruct n as [|n]; [assumption|]). lia.
Qed.

Lemma digit_tables : forall i, 0 <= i < 36 -> exists u l, vat upper_digits i = Ok u /\ vat lower_digits i = Ok l /\
  forall c, (Ascii.eqb c u || Ascii.eqb c l = true <-> dig_byte c i).
Proof.
  intros i H. rewrite <- (Z2Nat.id i) by lia. assert (Z.to_nat i < 36)%nat as N by lia. revert N. generalize (Z.to_nat i). clear.
  apply nat36.
  all: eexists; eexists; split; [reflexivity|]; split; [reflexivity|].
  all: intros c; rewrite orb_true_iff, !Ascii.eqb_eq; unfold dig_byte.
  all: split; [intros [-> | ->]; vm_compute; auto; try (right; split; [split; congruence|auto])|].
  all: try (left; split; congruence).
  all: intros [(L & B)|(R & B)].
  all: try (exfalso; lia).
  all: try (destruct B as [B|B]).
  all: first [left; apply byte_inj; rewrite B; reflexivity|right; apply byte_inj; rewrite B; reflexivity|lia].
Qed.

Lemma dig_byte_unique : forall c i j, dig_byte c i -> dig_byte c j -> 0 <= i -> 0 <= j -> i = j.
Proof. unfold dig_byte. intros c i j A B. lia. Qed.

Lemma char_loop_spec : forall c n i, 0 <= i -> i + Z.of_nat n <= 36 ->
  (forall d, i <= d < i + Z.of_nat n -> dig_byte c d -> char_loop c n i = Ok d) /\
  ((forall d, i <= d < i + Z.of_nat n -> ~ dig_byte c d) -> char_loop c n i = Ok (-1)).
Proof.
  induction n as [|n IH]; intros i H1 H2; cbn [char_loop].
  - split; auto. intros d D. lia.
  - destruct (digit_tables i) as (u & l & -> & -> & T); [lia|]. cbn [bind]. destruct (IH (i + 1)) as (A & B); [lia|lia|]. split.
    + intros d D E. destruct (Z.eq_dec i d) as [->|N].
      * apply T in E. rewrite E. auto.
      * destruct (Ascii.eqb c u || Ascii.eqb c l) eqn:K.
        { apply T in K. exfalso. apply N. eapply dig_byte_unique; eauto. lia. }
        apply A; [lia|auto].
    + intros N. destruct (Ascii.eqb c u || Ascii.eqb c l) eqn:K.
      { apply T in K. exfalso. apply (N i); [lia|auto]. }
      apply B. intros d D. apply N. lia.
Qed.

Lemma digit_val_dig : forall base c d, digit_val base c d <-> 0 <= d < base /\ dig_byte c d.
Proof. reflexivity. Qed.

Lemma char_to_integer_digit : forall base c d, base <= 36 -> digit_val base c d -> char_to_integer c base = Ok d.
Proof.
  intros base c d B (D & E). unfold char_to_integer. apply char_loop_spec; auto; lia.
Qed.
Lemma char_to_integer_not : forall base c, 0 <= base <= 36 -> (forall d, ~ digit_val base c d) -> char_to_integer c base = Ok (-1).
Proof.
  intros base c B N. unfold char_to_integer. apply char_loop_spec; try lia. intros d D E. apply (N d). split; [lia|auto].
Qed.
Lemma digit_val_unique : forall base c d d', digit_val base c d -> digit_val base c d' -> d = d'.
Proof. intros base c d d' (A & B) (C & D). eapply dig_byte_unique; eauto; lia. Qed.

Lemma digit_dec : forall base c, 0 <= base <= 36 -> (exists d, digit_val base c d) \/ forall d, ~ digit_val base c d.
Proof.
  intros base c B. destruct (char_to_integer c base) as [d| | |] eqn:E.
  - destruct (Z.eq_dec d (-1)) as [->|N].
    + right. intros d D. rewrite (char_to_integer_digit base c d) in E by (auto; lia). destruct D. injection E as ->. lia.
    + left. assert (forall k i, 0 <= i -> i + Z.of_nat k <= 36 -> char_loop c k i = Ok d -> d <> -1 -> i <= d < i + Z.of_nat k /\ dig_byte c d) as G.
      { clear. induction k as [|k IH]; intros i H1 H2; cbn [char_loop].
        - intros X; injection X as <-. lia.
        - destruct (digit_tables i) as (u & l & -> & -> & T); [lia|]. cbn [bind]. destruct (Ascii.eqb c u || Ascii.eqb c l) eqn:K.
          + intros X; injection X as <-. apply T in K. intros _. split; [lia|auto].
          + intros X N. apply IH in X; auto; try lia. split; [lia|apply X]. }
      exists d. apply G in E; auto; try lia. split; [lia|apply E].
  - right. intros d D. rewrite (char_to_integer_digit base c d) in E by (auto; lia). discriminate.
  - right. intros d D. rewrite (char_to_integer_digit base c d) in E by (auto; lia). discriminate.
  - right. intros d D. rewrite (char_to_integer_digit base c d) in E by (auto; lia). discriminate.
Qed.

Definition signc (c : ascii) : Prop := c = "+"%char \/ c = "-"%char.

Lemma digit_not_blank : forall base c d, digit_val base c d -> ~ blank c /\ ~ signc c /\ c <> "."%char.
Proof.
  intros base c d (R & D).
  assert (48 <= byte c) as L by lia.
  split; [|split].
  - intros [->|[->|[->| ->]]]; vm_compute in L; auto.
  - intros [->| ->]; vm_compute in L; auto.
  - intros ->; vm_compute in L; auto.
Qed.

Lemma event_blank : forall c base, blank c -> get_event c base = Ok E_BLANK.
Proof. intros c base [->|[->|[->| ->]]]; reflexivity. Qed.
Lemma event_sign : forall c base, signc c -> get_event c base = Ok E_SIGN.
Proof. intros c base [->| ->]; reflexivity. Qed.

Lemma not_blank_test : forall c, ~ blank c -> Ascii.eqb c " " || Ascii.eqb c "010" || Ascii.eqb c "009" || Ascii.eqb c "013" = false.
Proof.
  intros c N. unfold blank in N.
  destruct (Ascii.eqb_spec c " "); [tauto|]. destruct (Ascii.eqb_spec c "010"); [tauto|].
  destruct (Ascii.eqb_spec c "009"); [tauto|]. destruct (Ascii.eqb_spec c "013"); tauto.
Qed.
Lemma not_sign_test : forall c, ~ signc c -> Ascii.eqb c "+" || Ascii.eqb c "-" = false.
Proof.
  intros c N. unfold signc in N. destruct (Ascii.eqb_spec c "+"); [tauto|]. destruct (Ascii.eqb_spec c "-"); tauto.
Qed.
Lemma event_digit : forall c base d, base <= 36 -> digit_val base c d -> get_event c base = Ok E_DIGIT.
Proof.
  intros c base d B D. pose proof (digit_not_blank _ _ _ D) as (N1 & N2 & _). unfold get_event.
  rewrite not_blank_test, not_sign_test, (char_to_integer_digit _ _ _ B D) by auto. cbn [bind].
  destruct (Z.eqb_spec d (-1)); auto. destruct D. lia.
Qed.

Lemma blank_dec : forall c, blank c \/ ~ blank c.
Proof.
  intros c. unfold blank. destruct (Ascii.eqb_spec c " "); auto. destruct (Ascii.eqb_spec c "010"); auto.
  destruct (Ascii.eqb_spec c "009"); auto. destruct (Ascii.eqb_spec c "013"); auto. right. intuition.
Qed.
Lemma sign_dec : forall c, signc c \/ ~ signc c.
Proof. intros c. unfold signc. destruct (Ascii.eqb_spec c "+"); auto. destruct (Ascii.eqb_spec c "-"); auto. right. intuition. Qed.

(** What the event of a character says about it. *)
Lemma event_cases : forall c base, 0 <= base <= 36 ->
  (blank c /\ get_event c base = Ok E_BLANK) \/
  (signc c /\ get_event c base = Ok E_SIGN) \/
  (exists d, digit_val base c d /\ get_event c base = Ok E_DIGIT /\ char_to_integer c base = Ok d) \/
  (c = "."%char /\ get_event c base = Ok E_POINT) \/
  ((c = "e"%char \/ c = "E"%char) /\ get_event c base = Ok E_EXP) \/
  get_event c base = Ok E_OTHER.
Proof.
  intros c base B. destruct (blank_dec c) as [X|N1]; [left; split; auto; apply event_blank; auto|].
  destruct (sign_dec c) as [X|N2]; [right; left; split; auto; apply event_sign; auto|].
  destruct (digit_dec base c B) as [(d & D)|N3].
  { right; right; left. exists d. split; auto. split; [eapply event_digit; eauto; lia|apply char_to_integer_digit; auto; lia]. }
  right; right; right. unfold get_event. rewrite not_blank_test, not_sign_test, char_to_integer_not by auto.
  change (negb (-1 =? -1)) with false. cbn [bind].
  destruct (Ascii.eqb_spec c "."); auto. destruct (Ascii.eqb_spec c "e"); cbn [orb]; auto.
  destruct (Ascii.eqb_spec c "E"); auto.
Qed.

Lemma event_point : get_event "."%char 10 = Ok E_POINT. Proof. reflexivity. Qed.
Lemma event_exp : forall c, c = "e"%char \/ c = "E"%char -> get_event c 10 = Ok E_EXP.
Proof. intros c [->| ->]; reflexivity. Qed.

Lemma positional_snoc : forall base ds d, positional base (ds ++ [d]) = positional base ds * base + d.
Proof.
  intros base ds d. induction ds as [|x ds IH]; cbn [app positional length]; [cbn; lia|].
  rewrite IH, app_length. cbn [length]. replace (Z.of_nat (length ds + 1)) with (Z.of_nat (length ds) + 1) by lia.
  rewrite Z.pow_add_r by lia. lia.
Qed.
Lemma positional_nonneg : forall base t ds, digits_text base t ds -> 0 <= positional base ds.
Proof.
  intros base t ds F. induction F as [|c d t ds (D & _) F IH]; cbn [positional]; [lia|].
  assert (0 <= base ^ Z.of_nat (length ds)) by (apply Z.pow_nonneg; lia). nia.
Qed.
Lemma digits_snoc : forall base t ds c d, digits_text base t ds -> digit_val base c d -> digits_text base (t ++ [c]) (ds ++ [d]).
Proof. intros base t ds c d A B. apply Forall2_app; [exact A|]. constructor; [exact B|constructor]. Qed.

(** ** to_integer *)

Lemma integer_step : forall p base x a d, 2 <= base <= 36 -> repr x a -> 0 <= a -> 0 <= d < base ->
  exists y, repr y (a * base + d) /\ forall (K : Int -> outcome (state * bool * Int)),
    (b <- int_of_int base ;; m <- int_mul p x b ;; d <- Ok d ;; d <- int_of_int d ;; integer <- int_add p m d ;; K integer) = K y.
Proof.
  intros p base x a d B X A D.
  destruct (int_of_int_eq base) as (b & Eb & Rb); [unfold INT_MIN, INT_MAX; lia|].
  destruct (int_mul_assign_spec p x b a base X Rb) as (m & Em & Rm).
  destruct (int_of_int_eq d) as (e & Ee & Re); [unfold INT_MIN, INT_MAX; lia|].
  destruct (int_add_assign_spec p m e (a * base) d Rm Re) as (y & Ey & Ry).
  { right; left. assert (0 <= Z.sgn (a * base)) by (apply Z.sgn_nonneg; nia). assert (0 <= Z.sgn d) by (apply Z.sgn_nonneg; lia). nia. }
  exists y. split; auto. intros K. rewrite Eb. cbn [bind]. unfold int_mul. rewrite Em. cbn [bind]. rewrite Ee. cbn [bind]. unfold int_add. rewrite Ey. auto.
Qed.

(** What has been read when the loop is in a state. *)
Definition int_inv (base : Z) (st : state) (pre : str) (non_negative : bool) (x : Int) : Prop :=
  match st with
  | S_START => Forall blank pre /\ non_negative = true /\ repr x 0
  | S_SIGN => exists b1 sg, pre = b1 ++ sg /\ Forall blank b1 /\ sign_text sg (negb non_negative) /\ repr x 0
  | S_INT => exists b1 sg t ds, pre = b1 ++ sg ++ t /\ Forall blank b1 /\ sign_text sg (negb non_negative) /\
      digits_text base t ds /\ ds <> [] /\ repr x (positional base ds)
  | S_END => exists b1 sg t ds b2, pre = b1 ++ sg ++ t ++ b2 /\ Forall blank b1 /\ Forall blank b2 /\ sign_text sg (negb non_negative) /\
      digits_text base t ds /\ ds <> [] /\ repr x (positional base ds)
  | S_OTHER => True
  | _ => False
  end.

Lemma integer_loop_sound : forall p base n cs st pre nn x, 2 <= base <= 36 -> 0 <= n < INT_MAX -> int_inv base st pre nn x -> st <> S_OTHER ->
  exists st' nn' x', integer_loop p base n cs st nn x = Ok (st', nn', x') /\ int_inv base st' (pre ++ cs) nn' x'.
Proof.
  intros p base n cs. induction cs as [|c cs IH]; intros st pre nn x B N I O.
  { exists st, nn, x. cbn [integer_loop]. rewrite app_nil_r. auto. }
  assert (pre ++ c :: cs = (pre ++ [c]) ++ cs) as EQ by (rewrite <- app_assoc; auto). rewrite EQ. clear EQ.
  assert (forall nn x, exists st' nn' x', (st <- leave_loop n ;; Ok (st, nn, x)) = Ok (st', nn', x') /\ int_inv base st' ((pre ++ [c]) ++ cs) nn' x') as LV.
  { intros m y. exists S_OTHER, m, y. unfold leave_loop. rewrite chk32_ok by (unfold INT_MIN; lia). cbn [bind]. split; auto. exact Logic.I. }
  cbn [integer_loop].
  destruct (event_cases c base) as [(C & E)|[(C & E)|[(d & C & E & G)|[(C & E)|[(C & E)|E]]]]]; [lia| | | | | |]; rewrite E; cbn [bind].
  - destruct st; try apply LV; try contradiction.
    + apply IH; auto; try discriminate. destruct I as (I1 & I2 & I3). split; auto. apply Forall_app; auto.
    + apply IH; auto; try discriminate. destruct I as (b1 & sg & t & ds & -> & I1 & I2 & I3 & I4 & I5). exists b1, sg, t, ds, [c].
      rewrite <- !app_assoc. split; auto 10.
    + apply IH; auto; try discriminate. destruct I as (b1 & sg & t & ds & b2 & -> & I1 & I2 & I3 & I4 & I5 & I6). exists b1, sg, t, ds, (b2 ++ [c]).
      rewrite <- !app_assoc. split; auto. split; auto. split; [apply Forall_app; auto|auto].
  - destruct st; try apply LV; try contradiction.
    apply IH; auto; try discriminate. destruct I as (I1 & I2 & I3). exists pre, [c]. split; auto. split; auto. split; auto.
    destruct C as [->| ->]; cbn; auto.
  - assert (0 <= d < base) as DR by apply C.
    destruct st; try apply LV; try contradiction.
    + destruct I as (I1 & -> & I3). rewrite G. destruct (integer_step p base x 0 d B I3) as (y & Y & K); try lia. rewrite K.
      apply IH; auto; try discriminate. exists pre, [], [c], [d]. split; auto. split; auto. split; [left; auto|]. split; [constructor; auto; constructor|].
      split; [discriminate|]. cbn. replace (d * 1 + 0) with (0 * base + d) by lia. auto.
    + destruct I as (b1 & sg & -> & I1 & I2 & I3). rewrite G. destruct (integer_step p base x 0 d B I3) as (y & Y & K); try lia. rewrite K.
      apply IH; auto; try discriminate. exists b1, sg, [c], [d]. rewrite <- app_assoc. split; auto. split; auto. split; auto. split; [constructor; auto; constructor|].
      split; [discriminate|]. cbn. replace (d * 1 + 0) with (0 * base + d) by lia. auto.
    + destruct I as (b1 & sg & t & ds & -> & I1 & I2 & I3 & I4 & I5). rewrite G.
      destruct (integer_step p base x (positional base ds) d B I5) as (y & Y & K); try lia. { eapply positional_nonneg; eauto. } rewrite K.
      apply IH; auto; try discriminate. exists b1, sg, (t ++ [c]), (ds ++ [d]). rewrite <- !app_assoc. split; auto. split; auto. split; auto.
      split; [apply digits_snoc; auto|]. split; [destruct ds; discriminate|]. rewrite positional_snoc. auto.
  - destruct st; try apply LV; contradiction.
  - destruct st; try apply LV; contradiction.
  - destruct st; try apply LV; contradiction.
Qed.

Lemma loop_blanks : forall p base n b cs st nn x, 2 <= base <= 36 -> Forall blank b -> st = S_START \/ st = S_END ->
  integer_loop p base n (b ++ cs) st nn x = integer_loop p base n cs st nn x.
Proof.
  intros p base n b cs st nn x B F S. induction F as [|c b C F IH]; auto. cbn [app integer_loop]. rewrite event_blank by auto. cbn [bind].
  destruct S as [->| ->]; apply IH.
Qed.
Lemma loop_tail : forall p base n b nn x, 2 <= base <= 36 -> Forall blank b ->
  exists st, (st = S_INT \/ st = S_END) /\ integer_loop p base n b S_INT nn x = Ok (st, nn, x).
Proof.
  intros p base n b nn x B F. destruct F as [|c b C F]; [exists S_INT; auto|]. exists S_END. split; auto.
  cbn [integer_loop]. rewrite event_blank by auto. cbn [bind]. rewrite <- (app_nil_r b), loop_blanks by auto. reflexivity.
Qed.
Lemma loop_digits : forall p base n t ds, 2 <= base <= 36 -> digits_text base t ds -> forall cs x a, repr x a -> 0 <= a ->
  exists y, repr y (a * base ^ Z.of_nat (length ds) + positional base ds) /\
  forall nn, integer_loop p base n (t ++ cs) S_INT nn x = integer_loop p base n cs S_INT nn y.
Proof.
  intros p base n t ds B F. induction F as [|c d t ds D F IH]; intros cs x a X A.
  - exists x. cbn [length positional]. split; auto. replace (a * base ^ Z.of_nat 0 + 0) with a by (cbn; lia). auto.
  - assert (0 <= d < base) as DR by apply D. destruct (integer_step p base x a d B X A DR) as (y & Y & K).
    destruct (IH cs y _ Y) as (z & Z1 & Z2); [nia|]. exists z. split.
    + cbn [length positional]. replace (Z.of_nat (S (length ds))) with (1 + Z.of_nat (length ds)) by lia. rewrite Z.pow_add_r by lia.
      replace (a * (base ^ 1 * base ^ Z.of_nat (length ds)) + (d * base ^ Z.of_nat (length ds) + positional base ds))
        with ((a * base + d) * base ^ Z.of_nat (length ds) + positional base ds) by lia. auto.
    + intros nn. cbn [app integer_loop]. erewrite event_digit by (eauto; lia). cbn [bind]. rewrite (char_to_integer_digit _ _ _ (proj2 B) D). rewrite K. auto.
Qed.
(** The first digit, in either of the states before digits. *)
Lemma loop_first : forall p base n c d cs st nn, 2 <= base <= 36 -> digit_val base c d -> st = S_START \/ st = S_SIGN ->
  exists y, repr y d /\ integer_loop p base n (c :: cs) st nn (MkInt 0 []) = integer_loop p base n cs S_INT nn y.
Proof.
  intros p base n c d cs st nn B D S. assert (0 <= d < base) as DR by apply D.
  destruct (integer_step p base (MkInt 0 []) 0 d B repr_zero) as (y & Y & K); try lia. exists y. split.
  - replace d with (0 * base + d) by lia. auto.
  - cbn [integer_loop]. erewrite event_digit by (eauto; lia). cbn [bind]. rewrite (char_to_integer_digit _ _ _ (proj2 B) D).
    destruct S as [->| ->]; apply K.
Qed.

Lemma to_integer_ok : forall p base s z, 2 <= base <= 36 -> int_literal base s z -> returns (str_to_integer p s base) z.
Proof.
  intros p base s z B (b1 & sg & t & b2 & neg & ds & -> & F1 & F2 & SG & D & N & ->).
  unfold str_to_integer. destruct (Z.ltb_spec base 2); [lia|]. destruct (Z.ltb_spec 36 base); [lia|]. cbn [orb].
  generalize (size (b1 ++ sg ++ t ++ b2)). intros n. rewrite loop_blanks by auto.
  assert (exists y st, repr y (positional base ds) /\ (st = S_INT \/ st = S_END) /\
    integer_loop p base n (sg ++ t ++ b2) S_START true (MkInt 0 []) = Ok (st, negb neg, y)) as (y & st & Y & S & ->).
  { destruct D as [|c d t ds D F]; [contradiction|]. assert (0 <= d < base) as DR by apply D.
    assert (forall st nn, st = S_START \/ st = S_SIGN -> exists y st', repr y (positional base (d :: ds)) /\ (st' = S_INT \/ st' = S_END) /\
      integer_loop p base n ((c :: t) ++ b2) st nn (MkInt 0 []) = Ok (st', nn, y)) as G.
    { intros st nn S. cbn [app]. destruct (loop_first p base n c d (t ++ b2) st nn B D S) as (y & Y & ->).
      destruct (loop_digits p base n t ds B F b2 y d Y) as (w & W & K); [lia|]. rewrite K.
      destruct (loop_tail p base n b2 nn w B F2) as (st' & S' & E). exists w, st'. split; auto. }
    destruct neg; cbn [negb].
    - cbn in SG. subst sg. cbn [app integer_loop]. rewrite event_sign by (right; auto). cbn [bind]. apply (G S_SIGN false). auto.
    - destruct SG as [->| ->].
      + apply (G S_START true). auto.
      + cbn [app integer_loop]. rewrite event_sign by (left; auto). cbn [bind]. apply (G S_SIGN true). auto. }
  cbn [bind]. destruct neg; cbn [negb].
  - exists (int_neg y). split; [|apply int_neg_spec; auto]. destruct S as [->| ->]; auto.
  - exists y. split; auto. destruct S as [->| ->]; auto.
Qed.

Lemma to_integer_bad : forall p base s, 2 <= base <= 36 -> len s < INT_MAX -> (forall z, ~ int_literal base s z) ->
  str_to_integer p s base = Throw BadIntegerLiteral.
Proof.
  intros p base s B L N. unfold str_to_integer. destruct (Z.ltb_spec base 2); [lia|]. destruct (Z.ltb_spec 36 base); [lia|]. cbn [orb].
  destruct (integer_loop_sound p base (size s) s S_START [] true (MkInt 0 []) B) as (st & nn & x & -> & I).
  - rewrite size_ok by lia. pose proof (len_nonneg _ s). lia.
  - split; auto. split; auto. apply repr_zero.
  - discriminate.
  - cbn [bind app] in *. destruct st; auto; exfalso.
    + destruct I as (b1 & sg & t & ds & -> & I1 & I2 & I3 & I4 & I5). eapply N. exists b1, sg, t, [], (negb nn), ds. rewrite app_nil_r. repeat split; eauto.
    + destruct I as (b1 & sg & t & ds & b2 & -> & I1 & I2 & I3 & I4 & I5 & I6). eapply N. exists b1, sg, t, b2, (negb nn), ds. repeat split; eauto.
Qed.

Lemma to_integer_base : forall p s base, ~ (2 <= base <= 36) -> str_to_integer p s base = Throw BadBase.
Proof.
  intros p s base B. unfold str_to_integer. destruct (Z.ltb_spec base 2); auto. destruct (Z.ltb_spec 36 base); auto. lia.
Qed.

Lemma int_literal_unique : forall base s z z', 2 <= base <= 36 -> int_literal base s z -> int_literal base s z' -> z = z'.
Proof.
  intros base s z z' B A C. destruct (to_integer_ok Benign _ _ _ B A) as (x & X & R). destruct (to_integer_ok Benign _ _ _ B C) as (y & Y & R').
  destruct R as (_ & <-), R' as (_ & <-). congruence.
Qed.

Lemma to_integer_full : forall p base s, 2 <= base <= 36 -> len s = INT_MAX - 1 -> str_to_integer p ("!"%char :: s) base = UB SignedOverflow.
Proof.
  intros p base s B L. unfold str_to_integer. destruct (Z.ltb_spec base 2); [lia|]. destruct (Z.ltb_spec 36 base); [lia|]. cbn [orb].
  rewrite size_ok by (rewrite len_cons; lia). cbn [integer_loop].
  destruct (event_cases "!" base) as [(C & E)|[(C & E)|[(d & C & E & G)|[(C & E)|[(C & E)|E]]]]]; [lia| | | | | |].
  - exfalso. destruct C as [C|[C|[C|C]]]; discriminate.
  - exfalso. destruct C; discriminate.
  - exfalso. destruct C as (R & C). assert (byte "!" = 33) as K by reflexivity. rewrite K in C. lia.
  - discriminate.
  - destruct C; discriminate.
  - rewrite E. cbn [bind]. unfold leave_loop. rewrite chk32_ub by (rewrite len_cons; lia). auto.
Qed.
