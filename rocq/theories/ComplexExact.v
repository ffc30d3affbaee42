(** Extraction of Complex numbers: the outcome on every text. *)
From Coq Require Import String Ascii ZArith List Bool Lia.
From Flocq Require Import BinarySingleNaN.
From Verif Require Import Outcome IntModel StreamModel FloatModel FracModel FracSpec FracIO ComplexModel ComplexSpec ComplexIO.
Import ListNotations.
Open Scope Z_scope.

#[local] Opaque double_of_Z.

Lemma code_inj : forall c d, code c = code d -> c = d.
Proof.
  intros c d E. unfold code in E. apply N2Z.inj in E.
  rewrite <- (ascii_N_embedding c), <- (ascii_N_embedding d). f_equal. exact E.
Qed.
Lemma sign_is : forall c, is_sign_char c = true <-> c = "+"%char \/ c = "-"%char.
Proof.
  intros c. unfold is_sign_char. rewrite orb_true_iff, !Z.eqb_eq. split.
  - intros [H|H]; [left|right]; apply code_inj; exact H.
  - intros [->| ->]; auto.
Qed.

(** ** The collected text is the longest viable prefix *)

Definition zero_char : ascii := "0"%char.
Lemma zero_digit : digit zero_char. Proof. vm_compute. split; discriminate. Qed.
Lemma is_sign_opt : forall c, is_sign_char c = true -> sign_opt [c].
Proof. intros c H. apply sign_is in H. destruct H as [->| ->]; unfold sign_opt; auto. Qed.

(** Shapes of what is collected from each state. *)
Definition exp_part (can : bool) (e : list ascii) : Prop :=
  e = [] \/ (can = true /\ exists x sg ds, e = x :: sg ++ ds /\ (x = "e"%char \/ x = "E"%char) /\ sign_opt sg /\ digits ds).

Ltac step H IH :=
  repeat match type of H with
  | (if ?b then _ else _) = _ => let B := fresh "B" in destruct b eqn:B
  | (let (a, b) := float_text ?m ?d ?s ?g ?l in _) = _ =>
      let E := fresh "E" in destruct (float_text m d s g l) eqn:E
  end.

Lemma sci_shape : forall l m d g t r, float_text m d true g l = (t, r) ->
  exists sg ds, t = sg ++ ds /\ sign_opt sg /\ digits ds /\ (g = false -> sg = []).
Proof.
  induction l as [|c l IH]; intros m d g t r H; cbn [float_text] in H.
  - inversion H. exists [], []. repeat split; auto; [left; auto|constructor].
  - cbn [negb] in H. rewrite !andb_false_r in H. rewrite orb_false_r in H. step H IH; inversion H; subst.
    + destruct (IH _ _ _ _ _ E) as (sg & ds & -> & _ & D & G). rewrite G by auto. exists [], (c :: ds). repeat split; auto; [left; auto|].
      constructor; [apply digit_is; auto|exact D].
    + destruct (IH _ _ _ _ _ E) as (sg & ds & -> & _ & D & G). rewrite G by auto. exists [c], ds. apply andb_true_iff in B0. destruct B0 as [B0 ->].
      repeat split; auto; [apply is_sign_opt; auto|discriminate].
    + exists [], []. repeat split; auto; [left; auto|constructor].
Qed.

Definition nonnil (l : list ascii) : bool := match l with [] => false | _ => true end.

Lemma exp_is : forall c, (code c =? 101) || (code c =? 69) = true -> c = "e"%char \/ c = "E"%char.
Proof. intros c H. apply orb_true_iff in H. rewrite !Z.eqb_eq in H. destruct H; [left|right]; apply code_inj; auto. Qed.

Lemma dec_shape : forall l m t r, float_text m true false false l = (t, r) ->
  exists ds e, t = ds ++ e /\ digits ds /\ exp_part (m || nonnil ds) e.
Proof.
  induction l as [|c l IH]; intros m t r H; cbn [float_text] in H.
  - inversion H. exists [], []. repeat split; [constructor|left; auto].
  - cbn [negb] in H. rewrite ?andb_false_r in H. rewrite ?andb_true_r in H. cbn [andb] in H. cbv iota in H. step H IH; inversion H; subst.
    + destruct (IH _ _ _ E) as (ds & e & -> & D & X). exists (c :: ds), e. split; [auto|]. split; [constructor; [apply digit_is; auto|exact D]|].
      cbn [nonnil]. rewrite orb_true_r. rewrite orb_true_r in X. exact X.
    + apply andb_true_iff in B0. destruct B0 as [B0 ->]. destruct (sci_shape _ _ _ _ _ _ E) as (sg & ds & -> & SG & D & _).
      exists [], (c :: sg ++ ds). split; [auto|]. split; [constructor|]. right. split; [auto|]. exists c, sg, ds. split; auto. split; [apply exp_is; auto|auto].
    + exists [], []. repeat split; [constructor|left; auto].
Qed.

Lemma int_shape : forall l m t r, float_text m false false false l = (t, r) ->
  (exists ds e, t = ds ++ e /\ digits ds /\ exp_part (m || nonnil ds) e) \/
  (exists a b e, t = a ++ "."%char :: b ++ e /\ digits a /\ digits b /\ exp_part (m || nonnil a || nonnil b) e).
Proof.
  induction l as [|c l IH]; intros m t r H; cbn [float_text] in H.
  - inversion H. left. exists [], []. repeat split; [constructor|left; auto].
  - cbn [negb] in H. rewrite ?andb_true_r, ?andb_false_r in H. rewrite ?orb_true_r in H. step H IH; inversion H; subst.
    + assert (DC : digit c) by (apply digit_is; auto).
      destruct (IH _ _ _ E) as [(ds & e & -> & D & X)|(a & b & e & -> & A & BB & X)].
      * left. exists (c :: ds), e. split; [auto|]. split; [constructor; auto|]. cbn [nonnil]. rewrite orb_true_r. exact X.
      * right. exists (c :: a), b, e. split; [auto|]. split; [constructor; auto|]. split; [auto|]. cbn [nonnil]. rewrite orb_true_r. exact X.
    + destruct (dec_shape _ _ _ _ E) as (ds & e & -> & D & X). right. exists [], ds, e. apply Z.eqb_eq in B0.
      rewrite (code_inj c "."%char B0). split; [auto|]. split; [constructor|]. split; [auto|]. cbn [nonnil]. rewrite orb_false_r. exact X.
    + apply andb_true_iff in B1. destruct B1 as [B1 ->]. destruct (sci_shape _ _ _ _ _ _ E) as (sg & ds & -> & SG & D & _).
      left. exists [], (c :: sg ++ ds). split; [auto|]. split; [constructor|]. right. split; [auto|]. exists c, sg, ds. split; auto. split; [apply exp_is; auto|auto].
    + left. exists [], []. repeat split; [constructor|left; auto].
Qed.

Lemma digits_app : forall a b, digits a -> digits b -> digits (a ++ b).
Proof. intros a b A B. apply Forall_app. auto. Qed.
Lemma digits_zero : digits [zero_char]. Proof. constructor; [apply zero_digit|constructor]. Qed.
Lemma not_nil_app : forall a b : list ascii, nonnil a || nonnil b = true -> a ++ b <> [].
Proof. intros [|x a] [|y b]; cbn; try discriminate; auto. Qed.

Lemma exponent_done : forall x sg ds, (x = "e"%char \/ x = "E"%char) -> sign_opt sg -> digits ds -> exponent_opt ((x :: sg ++ ds) ++ [zero_char]).
Proof.
  intros x sg ds X SG D. right. exists x, sg, (ds ++ [zero_char]). split; [cbn; rewrite <- app_assoc; auto|]. split; [auto|]. split; [auto|].
  split; [apply digits_app; auto using digits_zero|]. destruct ds; discriminate.
Qed.

Lemma unsigned_viable : forall l t r sg, sign_opt sg -> float_text false false false false l = (t, r) -> number ((sg ++ t) ++ [zero_char]).
Proof.
  intros l t r sg SG H. destruct (int_shape _ _ _ _ H) as [(ds & e & -> & D & [->|(C & x & sg' & ds' & -> & X & SG' & D')])|
                                                          (a & b & e & -> & A & B & [->|(C & x & sg' & ds' & -> & X & SG' & D')])].
  - exists sg, (ds ++ [zero_char]), []. rewrite !app_nil_r, <- app_assoc. split; [auto|]. split; [auto|]. split; [|left; auto].
    left. split; [destruct ds; discriminate|apply digits_app; auto using digits_zero].
  - exists sg, ds, ((x :: sg' ++ ds') ++ [zero_char]). rewrite <- !app_assoc. split; [auto|]. split; [auto|].
    split; [left; split; [destruct ds; [discriminate|discriminate]|auto]|apply exponent_done; auto].
  - exists sg, (a ++ "."%char :: b ++ [zero_char]), []. rewrite !app_nil_r, <- !app_assoc. split; [auto|]. split; [auto|]. split; [|left; auto].
    right. exists a, (b ++ [zero_char]). split; [auto|]. split; [auto|]. split; [apply digits_app; auto using digits_zero|].
    destruct a; destruct b; discriminate.
  - exists sg, (a ++ "."%char :: b), ((x :: sg' ++ ds') ++ [zero_char]). split; [repeat (rewrite <- !app_assoc; cbn [app]); auto|]. split; [auto|].
    split; [|apply exponent_done; auto]. right. exists a, b. split; [auto|]. split; [auto|]. split; [auto|]. apply not_nil_app. exact C.
Qed.

Lemma collected_viable : forall l t r, number_text l = (t, r) -> viable t.
Proof.
  intros [|c l] t r H; unfold number_text in H.
  - inversion H. exists [zero_char]. apply (unsigned_viable [] [] [] []); [left; auto|reflexivity].
  - destruct (is_sign_char c) eqn:S.
    + destruct (float_text false false false false l) eqn:E. inversion H; subst. exists [zero_char].
      apply (unsigned_viable l l0 r [c]); [apply is_sign_opt; auto|auto].
    + exists [zero_char]. apply (unsigned_viable (c :: l) t r []); [left; auto|auto].
Qed.

(** The decision at a character depends only on what precedes it. *)
Lemma float_local : forall t m d s g c r r', float_text m d s g (t ++ c :: r) = (t, c :: r) -> float_text m d s g (t ++ c :: r') = (t, c :: r').
Proof.
  induction t as [|x t IH]; intros m d s g c r r' H.
  - cbn [app float_text] in *. step H IH; try (inversion H; fail); auto.
  - cbn [app float_text] in *. step H IH; inversion H; subst; erewrite IH by eauto; auto.
Qed.
Lemma number_local : forall t c r r', number_text (t ++ c :: r) = (t, c :: r) -> number_text (t ++ c :: r') = (t, c :: r').
Proof.
  intros [|x t] c r r' H; cbn [app] in *; unfold number_text in *.
  - destruct (is_sign_char c).
    + destruct (float_text false false false false r). inversion H.
    + apply (float_local [] _ _ _ _ c r r'); auto.
  - destruct (is_sign_char x).
    + destruct (float_text false false false false (t ++ c :: r)) eqn:E. inversion H; subst.
      erewrite float_local by eauto. auto.
    + apply (float_local (x :: t) _ _ _ _ c r r'); auto.
Qed.

Lemma collected_longest : forall l t r, number_text l = (t, r) -> l = t ++ r /\ longest t r.
Proof.
  intros l t r H. assert (A := number_text_app _ _ _ H). split; [auto|]. split; [eapply collected_viable; eauto|].
  destruct r as [|c r]; auto. intros (s & N). subst l. apply (number_local _ _ _ s) in H.
  rewrite <- app_assoc in N. cbn [app] in N. assert (K := number_text_ok _ [] N I). rewrite app_nil_r in K. rewrite K in H.
  inversion H. 
Qed.

Lemma viable_prefix : forall a b, viable (a ++ b) -> viable a.
Proof. intros a b (s & N). exists (b ++ s). rewrite app_assoc. exact N. Qed.

Lemma longest_unique : forall t r t' r', t ++ r = t' ++ r' -> longest t r -> longest t' r' -> t = t' /\ r = r'.
Proof.
  assert (HALF : forall t r a r', r = a ++ r' -> longest t r -> longest (t ++ a) r' -> a = []).
  { intros t r [|c a] r' E [_ L] [V _]; auto. exfalso. subst r. cbn in L. apply L. apply (viable_prefix _ a). rewrite <- app_assoc. exact V. }
  intros t r t' r' E L L'. apply app_eq_app in E. destruct E as (a & [[-> ->]|[-> ->]]).
  - assert (a = []) by (eapply (HALF t'); eauto). subst a. rewrite app_nil_r. auto.
  - assert (a = []) by (eapply (HALF t); eauto). subst a. rewrite app_nil_r. auto.
Qed.

Lemma longest_collected : forall t r, longest t r -> number_text (t ++ r) = (t, r).
Proof.
  intros t r L. destruct (number_text (t ++ r)) as [t' r'] eqn:E. destruct (collected_longest _ _ _ E) as [A L'].
  destruct (longest_unique _ _ _ _ A L L') as [-> ->]. auto.
Qed.

(** ** The outcome *)

Definition flawed (strtod : list ascii -> double * bool) (t : list ascii) (x : double) : Prop := strtod t = (x, true).

Lemma start_is : forall c, starts_complex (code c) = true <-> opens_number c.
Proof.
  intros c. unfold starts_complex, opens_number. rewrite !orb_true_iff, andb_true_iff, !Z.leb_le, !Z.eqb_eq. unfold digit.
  change (Z.of_N (N_of_ascii c)) with (code c). split.
  - intros [[[H|H]|H]|H]; [auto|right; right; left|right; left|right; right; right]; apply code_inj; auto.
  - intros [H|[->|[->| ->]]]; auto.
Qed.
Lemma start_above : forall c, opens_number c -> 32 < code c.
Proof.
  intros c [H|[->|[->| ->]]]; try reflexivity. unfold digit in H. change (Z.of_N (N_of_ascii c)) with (code c) in H. lia.
Qed.
Lemma white_is : forall c, isspace c = true <-> white c.
Proof.
  intros c. unfold isspace, white. rewrite orb_true_iff, andb_true_iff, !Z.leb_le, Z.eqb_eq. change (Z.of_N (N_of_ascii c)) with (code c).
  split; intros [H|H]; auto; left; [apply code_inj; exact H|subst; auto].
Qed.
Lemma finished_is : forall l, finished l <-> ends l.
Proof. intros [|c l]; cbn; [tauto|]. unfold blank. change (Z.of_N (N_of_ascii c)) with (code c). tauto. Qed.

Definition result_of (o : outcome unit * (istream * Complex)) (z : Complex) (r : reading) : Prop :=
  match r with
  | Value x y => exists s', o = (Ok tt, (s', Cx x y)) /\ (failbit s' = true -> buf s' = [])
  | Failed x => exists s', o = (Ok tt, (s', Cx x d0)) /\ failbit s' = true
  | Rejected => exists s', o = (Throw WrongComplexLiteral, (s', z))
  | Undefined => exists s', o = (UB Indeterminate, (s', z))
  end.

Lemma drop_white : forall w d r, Forall white w -> ~ white d -> drop_while isspace (w ++ d :: r) = d :: r.
Proof.
  induction w as [|c w IH]; intros d r W D; cbn [app drop_while].
  - destruct (isspace d) eqn:E; auto. apply white_is in E. contradiction.
  - inversion W; subst. destruct (isspace c) eqn:E; [apply IH; auto|]. assert (isspace c = true) by (apply white_is; auto). congruence.
Qed.
Lemma drop_white_all : forall w, Forall white w -> drop_while isspace w = [].
Proof.
  induction w as [|c w IH]; intros W; auto. inversion W; subst. cbn [drop_while].
  assert (isspace c = true) as -> by (apply white_is; auto). auto.
Qed.

Lemma first_number : forall strtod fuel c l t r x bad z, opens_number c -> c :: l = t ++ r -> longest t r -> strtod t = (x, bad) ->
  (0 < fuel)%nat ->
  cx_extract strtod fuel (IStream (c :: l) false false) z =
   (let (c1, s3) := peek (IStream r (is_nil r) bad) in
    if c1 <=? 32 then (Ok tt, (s3, cx_of x))
      else if c1 =? 106 then
        let s4 := ignore s3 in
        let (c2, s5) := peek s4 in
        if c2 <=? 32 then (Ok tt, (s5, Cx d0 x)) else (Throw WrongComplexLiteral, (s5, z))
      else
        let (imag, s4) := extract_double strtod s3 in
        let (c, s5) := extract_char_opt s4 in
        match c with
        | None => (UB Indeterminate, (s5, z))
        | Some c =>
            if negb (code c =? 106) then (Throw WrongComplexLiteral, (s5, z)) else
            let (c3, s6) := peek s5 in
            if 32 <? c3 then (Throw WrongComplexLiteral, (s6, z)) else
            match imag with
            | Some y => (Ok tt, (s6, Cx x y))
            | _ => (UB Indeterminate, (s6, z))
            end
        end).
Proof.
  intros strtod fuel c l t r x bad z S A L V F. assert (C := start_above c S). apply start_is in S. unfold cx_extract.
  assert (K := skip_ok [] c l fuel (Forall_nil _) C ltac:(cbn; lia)). cbn [app] in K. rewrite K.
  cbn [peek good eofbit failbit negb andb buf]. rewrite S. cbn [negb]. unfold extract_double at 1.
  cbn [good eofbit failbit negb andb buf drop_while]. rewrite isspace_blank by auto.
  rewrite A at 1. rewrite (longest_collected t r L). rewrite V. destruct r; reflexivity.
Qed.

Lemma second_number : forall strtod r u r' y bad, ~ finished r -> r = u ++ r' -> longest u r' -> strtod u = (y, bad) ->
  extract_double strtod (IStream r false false) = (Some y, IStream r' (is_nil r') bad).
Proof.
  intros strtod r u r' y bad F A L V. destruct r as [|c r]; [exfalso; apply F; exact I|]. unfold extract_double.
  assert (C : 32 < code c) by (cbn in F; change (Z.of_N (N_of_ascii c)) with (code c) in F; lia).
  cbn [good eofbit failbit negb andb buf drop_while]. rewrite isspace_blank by auto. rewrite A at 1. rewrite (longest_collected u r' L).
  rewrite V. destruct r'; reflexivity.
Qed.

Lemma white_j : ~ white "j"%char.
Proof. intros W. apply white_is in W. discriminate. Qed.

Lemma reads_sound : forall strtod fuel c l z res, (0 < fuel)%nat -> 32 < code c ->
  reads (gives strtod) (flawed strtod) d0 (c :: l) res -> result_of (cx_extract strtod fuel (IStream (c :: l) false false) z) z res.
Proof.
  intros strtod fuel c l z res F C H.
  assert (PK : forall r b, ~ finished r -> exists a r0, r = a :: r0 /\ peek (IStream r b false) = (if b then (-1, set_fail (IStream r true false)) else (code a, IStream r false false)) /\ 32 < code a).
  { intros [|a r] b NF; [exfalso; apply NF; exact I|]. exists a, r. split; [auto|]. split; [destruct b; reflexivity|].
    cbn in NF. change (Z.of_N (N_of_ascii a)) with (code a) in NF. lia. }
  assert (PE : forall r, finished r -> exists c1 s1, peek (IStream r false false) = (c1, s1) /\ c1 <= 32 /\ failbit s1 = false).
  { intros r FR. apply finished_is in FR. destruct (peek_end r FR) as (c1 & E & B). eauto. }
  inversion H as [c' l' NS|c' l' t r x S A L V|c' l' t r x S A L V FR|c' l' t r y S A L V FR|c' l' t r y S A L V FR
    |c' l' t r x u r' y S A L V FR HJ A2 L2 V2|c' l' t r x u w y S A L V FR HJ A2 L2 V2 W
    |c' l' t r x u w d r' y S A L V FR HJ A2 L2 V2 W ND OR|c' l' t r x u w r' y S A L V FR HJ A2 L2 V2 W FR2]; clear H; subst c' l' res.
  - exists (IStream (c :: l) false false). apply (reject_start strtod [] c l z fuel); auto.
    destruct (starts_complex (code c)) eqn:E; auto. apply start_is in E. contradiction.
  - cbn [result_of]. rewrite (first_number strtod fuel c l t r x true z S A L V F).
    replace (peek (IStream r (is_nil r) true)) with (-1, IStream r (is_nil r) true) by (destruct r; reflexivity).
    eexists. split; reflexivity.
  - cbn [result_of]. rewrite (first_number strtod fuel c l t r x false z S A L V F). destruct r as [|a r]; cbn [is_nil].
    + eexists. split; [reflexivity|]. auto.
    + cbn in FR. change (Z.of_N (N_of_ascii a)) with (code a) in FR. cbn [peek good eofbit failbit negb andb buf].
      destruct (Z.leb_spec (code a) 32); [|lia]. eexists. split; [reflexivity|]. discriminate.
  - cbn [result_of]. rewrite (first_number strtod fuel c l t ("j"%char :: r) y false z S A L V F).
    cbn [is_nil peek good eofbit failbit negb andb buf ignore]. change (code "j" <=? 32) with false. change (code "j" =? 106) with true. cbv iota zeta.
    destruct (PE r FR) as (c1 & s1 & E & B & FB). unfold peek in E. cbn [good eofbit failbit negb andb buf] in E. rewrite E.
    destruct (Z.leb_spec c1 32); [|lia]. eexists. split; [reflexivity|]. congruence.
  - cbn [result_of]. rewrite (first_number strtod fuel c l t ("j"%char :: r) y false z S A L V F).
    cbn [is_nil]. unfold peek at 1. cbn [good eofbit failbit negb andb buf ignore]. change (code "j" <=? 32) with false. change (code "j" =? 106) with true. cbv iota zeta.
    destruct (PK r false FR) as (a & r0 & E & P & B). rewrite P. destruct (Z.leb_spec (code a) 32); [lia|]. eexists. reflexivity.
  - cbn [result_of]. rewrite (first_number strtod fuel c l t r x false z S A L V F).
    destruct (PK r (is_nil r) FR) as (a & r0 & E & P & B). replace (is_nil r) with false in * by (rewrite E; auto). rewrite P.
    destruct (Z.leb_spec (code a) 32); [lia|]. destruct (Z.eqb_spec (code a) 106) as [J|J].
    { exfalso. apply code_j in J. subst a. rewrite E in HJ. apply HJ. reflexivity. }
    rewrite (second_number strtod r u r' y true FR A2 L2 V2).
    replace (extract_char_opt (IStream r' (is_nil r') true)) with (@None ascii, IStream r' (is_nil r') true) by (destruct r'; reflexivity).
    eexists. reflexivity.
  - cbn [result_of]. rewrite (first_number strtod fuel c l t r x false z S A L V F).
    destruct (PK r (is_nil r) FR) as (a & r0 & E & P & B). replace (is_nil r) with false in * by (rewrite E; auto). rewrite P.
    destruct (Z.leb_spec (code a) 32); [lia|]. destruct (Z.eqb_spec (code a) 106) as [J|J].
    { exfalso. apply code_j in J. subst a. rewrite E in HJ. apply HJ. reflexivity. }
    rewrite (second_number strtod r u w y false FR A2 L2 V2). destruct w as [|b w]; [eexists; reflexivity|].
    unfold extract_char_opt. cbn [is_nil good eofbit failbit negb andb buf]. rewrite drop_white_all by auto. eexists. reflexivity.
  - cbn [result_of]. rewrite (first_number strtod fuel c l t r x false z S A L V F).
    destruct (PK r (is_nil r) FR) as (a & r0 & E & P & B). replace (is_nil r) with false in * by (rewrite E; auto). rewrite P.
    destruct (Z.leb_spec (code a) 32); [lia|]. destruct (Z.eqb_spec (code a) 106) as [J|J].
    { exfalso. apply code_j in J. subst a. rewrite E in HJ. apply HJ. reflexivity. }
    rewrite (second_number strtod r u (w ++ d :: r') y false FR A2 L2 V2). replace (is_nil (w ++ d :: r')) with false by (destruct w; auto).
    unfold extract_char_opt. cbn [good eofbit failbit negb andb buf]. rewrite drop_white by auto.
    destruct (Z.eqb_spec (code d) 106) as [J2|J2]; cbn [negb]; [|eexists; reflexivity].
    destruct OR as [NJ|NF]; [exfalso; apply NJ; apply code_j; auto|]. destruct (PK r' false NF) as (a' & r0' & E' & P' & B'). rewrite P'.
    destruct (Z.ltb_spec 32 (code a')); [|lia]. eexists. reflexivity.
  - cbn [result_of]. rewrite (first_number strtod fuel c l t r x false z S A L V F).
    destruct (PK r (is_nil r) FR) as (a & r0 & E & P & B). replace (is_nil r) with false in * by (rewrite E; auto). rewrite P.
    destruct (Z.leb_spec (code a) 32); [lia|]. destruct (Z.eqb_spec (code a) 106) as [J|J].
    { exfalso. apply code_j in J. subst a. rewrite E in HJ. apply HJ. reflexivity. }
    rewrite (second_number strtod r u (w ++ "j"%char :: r') y false FR A2 L2 V2). replace (is_nil (w ++ "j"%char :: r')) with false by (destruct w; auto).
    unfold extract_char_opt. cbn [good eofbit failbit negb andb buf]. rewrite drop_white by (auto using white_j).
    change (code "j" =? 106) with true. cbn [negb]. destruct (PE r' FR2) as (c1 & s1 & E1 & B1 & FB). rewrite E1.
    destruct (Z.ltb_spec 32 c1); [lia|]. eexists. split; [reflexivity|]. congruence.
Qed.

Lemma white_split : forall l, Forall white l \/ exists w d r, l = w ++ d :: r /\ Forall white w /\ ~ white d.
Proof.
  induction l as [|c l IH]; [left; constructor|]. destruct (isspace c) eqn:E.
  - apply white_is in E. destruct IH as [IH|(w & d & r & -> & W & D)]; [left; constructor; auto|]. right. exists (c :: w), d, r. repeat split; auto.
  - right. exists [], c, l. repeat split; auto. intros W. apply white_is in W. congruence.
Qed.

Lemma finished_dec : forall l, finished l \/ ~ finished l.
Proof. intros [|c l]; cbn; lia. Qed.

Lemma reads_total : forall strtod c l, exists res, reads (gives strtod) (flawed strtod) d0 (c :: l) res.
Proof.
  intros strtod c l. destruct (starts_complex (code c)) eqn:S.
  2:{ exists Rejected. constructor. intros N. apply start_is in N. congruence. }
  apply start_is in S. destruct (number_text (c :: l)) as [t r] eqn:T. destruct (collected_longest _ _ _ T) as [A L].
  destruct (strtod t) as [x bad] eqn:V. destruct bad; [exists (Failed x); eapply r_flawed; eauto|].
  destruct (finished_dec r) as [FR|FR]; [exists (Value x d0); eapply r_real; eauto|].
  destruct r as [|a r]; [exfalso; apply FR; exact I|]. destruct (ascii_dec a "j"%char) as [->|NJ].
  { destruct (finished_dec r) as [FR2|FR2]; [exists (Value d0 x); eapply r_imag; eauto|exists Rejected; eapply r_after_imag; eauto]. }
  destruct (number_text (a :: r)) as [u r'] eqn:T2. destruct (collected_longest _ _ _ T2) as [A2 L2].
  destruct (strtod u) as [y bad2] eqn:V2. destruct bad2; [exists Undefined; eapply r_flawed2; eauto|].
  destruct (white_split r') as [W|(w & d & r2 & E & W & D)]; [exists Undefined; eapply r_nothing; eauto|]. subst r'.
  destruct (ascii_dec d "j"%char) as [->|ND]; [|exists Rejected; eapply r_other; eauto].
  destruct (finished_dec r2) as [FR2|FR2]; [exists (Value x y); eapply r_both; eauto|exists Rejected; eapply r_other; eauto].
Qed.

Lemma after_blanks : forall strtod ws c l fuel z, Forall blank ws -> 32 < code c -> (length ws < fuel)%nat ->
  cx_extract strtod fuel (IStream (ws ++ c :: l) false false) z = cx_extract strtod 1 (IStream (c :: l) false false) z.
Proof.
  intros strtod ws c l fuel z W C F. unfold cx_extract. rewrite skip_ok by auto.
  assert (K := skip_ok [] c l 1 (Forall_nil _) C ltac:(cbn; lia)). cbn [app] in K. rewrite K. auto.
Qed.

(** Every outcome, by the text. *)
Lemma extraction_exact : forall strtod ws c l z fuel, Forall blank ws -> 32 < code c -> (length ws < fuel)%nat ->
  let o := cx_extract strtod fuel (IStream (ws ++ c :: l) false false) z in
  let text := reads (gives strtod) (flawed strtod) d0 (c :: l) in
  (forall v, (fst o = Ok tt /\ snd (snd o) = v) <-> text (Value (re v) (im v)) \/ (text (Failed (re v)) /\ im v = d0)) /\
  (fst o = Throw WrongComplexLiteral <-> text Rejected) /\
  (fst o = UB Indeterminate <-> text Undefined) /\
  (fst o = Ok tt \/ (fst o = Throw WrongComplexLiteral \/ fst o = UB Indeterminate) /\ snd (snd o) = z).
Proof.
  intros strtod ws c l z fuel W C F o text. unfold o. rewrite after_blanks by auto. clear o.
  destruct (reads_total strtod c l) as (res & R). assert (Q := reads_sound strtod 1 c l z res ltac:(lia) C R).
  assert (SND : forall res', text res' -> result_of (cx_extract strtod 1 (IStream (c :: l) false false) z) z res')
    by (intros res' R'; apply reads_sound; auto; lia).
  set (o := cx_extract strtod 1 (IStream (c :: l) false false) z) in *. clearbody o. fold text in R.
  split; [|split; [|split]].
  - intros [vr vi]. cbn [re im]. split.
    + intros [H1 H2]. destruct res; cbn [result_of] in Q; destruct Q as (s' & Q).
      * destruct Q as [-> _]. cbn in H2. inversion H2; subst. left. exact R.
      * destruct Q as [-> _]. cbn in H2. inversion H2; subst. right. auto.
      * subst o. discriminate.
      * subst o. discriminate.
    + intros [T|[T ->]]; apply SND in T; cbn [result_of] in T; destruct T as (s' & -> & _); auto.
  - split; intros H.
    + destruct res; cbn [result_of] in Q; destruct Q as (s' & Q); try match type of Q with _ /\ _ => destruct Q as [Q _] end; subst o; try discriminate. exact R.
    + apply SND in H. cbn [result_of] in H. destruct H as (s' & ->). auto.
  - split; intros H.
    + destruct res; cbn [result_of] in Q; destruct Q as (s' & Q); try match type of Q with _ /\ _ => destruct Q as [Q _] end; subst o; try discriminate. exact R.
    + apply SND in H. cbn [result_of] in H. destruct H as (s' & ->). auto.
  - destruct res; cbn [result_of] in Q; destruct Q as (s' & Q); try match type of Q with _ /\ _ => destruct Q as [Q _] end; subst o; cbn; auto.
Qed.

(** After a failed conversion failbit is set. *)
Lemma flawed_failbit : forall strtod ws c l x z fuel, Forall blank ws -> 32 < code c -> (length ws < fuel)%nat ->
  reads (gives strtod) (flawed strtod) d0 (c :: l) (Failed x) ->
  failbit (fst (snd (cx_extract strtod fuel (IStream (ws ++ c :: l) false false) z))) = true.
Proof.
  intros strtod ws c l x z fuel W C F R. rewrite after_blanks by auto. apply (reads_sound strtod 1 c l z) in R; [|lia|auto].
  destruct R as (s' & -> & FB). exact FB.
Qed.
