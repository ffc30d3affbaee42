(** Proofs about [to_decimal]: which texts it accepts and what it computes from them. *)
From Coq Require Import String Ascii ZArith List Bool Lia.
From Flocq Require Import BinarySingleNaN.
From Verif Require Import Outcome IntModel IntSpec ListModel ListSpec ListFacts FloatModel StrModel StrSpec StrFacts StrMore StrNum.
Import ListNotations.
Open Scope Z_scope.
#[local] Opaque double_of_Z dadd dmul ddiv.

Definition vars (neg : bool) (ds : list Z) (k : Z) (eneg : bool) (e : Z) : dec_vars :=
  DecVars (pm neg) (accumulated ds) k (pm eneg) e.

Definition expc (c : ascii) : Prop := c = "e"%char \/ c = "E"%char.

(** A mantissa with a point. *)
Definition pointed (t : text) (I F : list Z) : Prop :=
  exists i f, t = i ++ "."%char :: f /\ digits_text 10 i I /\ digits_text 10 f F.

(** What the text after blanks and sign looks like when the loop is in a state. *)
Definition dec_rest (st : state) (rest : text) (I F : list Z) (eneg : bool) (E : list Z) : Prop :=
  match st with
  | S_SIGN => rest = [] /\ I = [] /\ F = [] /\ eneg = false /\ E = []
  | S_INT => digits_text 10 rest I /\ I <> [] /\ F = [] /\ eneg = false /\ E = []
  | S_POINT => rest = ["."%char] /\ I = [] /\ F = [] /\ eneg = false /\ E = []
  | S_DEC => pointed rest I F /\ (I <> [] \/ F <> []) /\ eneg = false /\ E = []
  | S_EXP => exists mt c, rest = mt ++ [c] /\ mantissa mt I F /\ expc c /\ eneg = false /\ E = []
  | S_EXP_SIGN => exists mt c sg, rest = mt ++ c :: sg /\ mantissa mt I F /\ expc c /\ sign_text sg eneg /\ E = []
  | S_EXP_NUM => exists mt c sg t, rest = mt ++ c :: sg ++ t /\ mantissa mt I F /\ expc c /\ sign_text sg eneg /\ digits_text 10 t E /\ E <> []
  | S_END => exists mt et b2, rest = mt ++ et ++ b2 /\ mantissa mt I F /\ exponent et eneg E /\ Forall blank b2
  | _ => False
  end.

Definition dec_inv (st : state) (pre : text) (v : dec_vars) : Prop :=
  match st with
  | S_START => Forall blank pre /\ v = vars false [] 0 false 0
  | S_OTHER => True
  | _ => exists b1 sg rest neg I F eneg E, pre = b1 ++ sg ++ rest /\ Forall blank b1 /\ sign_text sg neg /\
           dec_rest st rest I F eneg E /\ v = vars neg (I ++ F) (len F) eneg (positional 10 E) /\ positional 10 E <= INT_MAX
  end.

Lemma accumulated_snoc : forall ds d, push_digit (accumulated ds) d = accumulated (ds ++ [d]).
Proof. intros ds d. unfold accumulated. rewrite fold_left_app. reflexivity. Qed.

Lemma pointed_mantissa : forall t I F, pointed t I F -> I <> [] \/ F <> [] -> mantissa t I F.
Proof.
  intros t I F (i & f & -> & A & B) N. destruct I as [|d I].
  - right; right. inversion A; subst. destruct N as [N|N]; [contradiction|]. split; auto. split; auto. exists f. auto.
  - right; left. split; [discriminate|]. exists i, f. auto.
Qed.
Lemma int_mantissa : forall t I, digits_text 10 t I -> I <> [] -> mantissa t I [].
Proof. intros. left. auto. Qed.

Lemma sign_of_neg : forall c, signc c -> exists neg, sign_text [c] neg /\ sign_of c = pm neg.
Proof. intros c [->| ->]; [exists false|exists true]; split; cbn; auto. Qed.

Lemma nil_app : forall (a : text), a ++ [] = a. Proof. apply app_nil_r. Qed.

Lemma digits_len : forall base t ds, digits_text base t ds -> len t = len ds.
Proof. intros base t ds F. induction F; auto. rewrite !len_cons. lia. Qed.

Lemma decimal_loop_sound : forall n cs st pre v, 0 <= n < INT_MAX -> len pre + len cs <= n -> dec_inv st pre v -> st <> S_OTHER ->
  (exists st' v', decimal_loop n cs st v = Ok (st', v') /\ dec_inv st' (pre ++ cs) v') \/
  (decimal_loop n cs st v = UB SignedOverflow /\ huge_exponent (pre ++ cs)).
Proof.
  intros n cs. induction cs as [|c cs IH]; intros st pre v N L I O.
  { left. exists st, v. cbn [decimal_loop]. rewrite app_nil_r. auto. }
  assert (pre ++ c :: cs = (pre ++ [c]) ++ cs) as EQ by (rewrite <- app_assoc; auto). rewrite EQ. clear EQ.
  assert (len (pre ++ [c]) + len cs <= n) as L' by (rewrite len_app, !len_cons, len_nil in *; lia).
  assert (forall v, (exists st' v', (st <- leave_loop n ;; Ok (st, v)) = Ok (st', v') /\ dec_inv st' ((pre ++ [c]) ++ cs) v') \/
     ((st <- leave_loop n ;; Ok (st, v)) = UB SignedOverflow /\ huge_exponent ((pre ++ [c]) ++ cs))) as LV.
  { intros w. left. exists S_OTHER, w. unfold leave_loop. rewrite chk32_ok by (unfold INT_MIN; lia). cbn [bind]. split; auto. exact Logic.I. }
  cbn [decimal_loop].
  destruct (event_cases c 10) as [(C & E)|[(C & E)|[(d & C & E & G)|[(C & E)|[(C & E)|E]]]]]; [lia| | | | | |]; rewrite E; cbn [bind].
  - (* blank *)
    destruct st; try apply LV; try contradiction.
    + apply IH; auto. destruct I as (I1 & I2). split; auto. apply Forall_app; auto.
    + apply IH; auto; try discriminate. destruct I as (b1 & sg & rest & neg & I & F & eneg & E' & -> & I1 & I2 & (D & N1 & -> & -> & ->) & -> & B).
      exists b1, sg, (rest ++ [c]), neg, I, [], false, []. rewrite <- !app_assoc. split; auto. split; auto. split; auto. split; auto.
      exists rest, [], [c]. split; auto. split; [apply int_mantissa; auto|]. split; [left; auto|]. constructor; auto.
    + apply IH; auto; try discriminate. destruct I as (b1 & sg & rest & neg & I & F & eneg & E' & -> & I1 & I2 & (D & N1 & -> & ->) & -> & B).
      exists b1, sg, (rest ++ [c]), neg, I, F, false, []. rewrite <- !app_assoc. split; auto. split; auto. split; auto. split; auto.
      exists rest, [], [c]. split; auto. split; [apply pointed_mantissa; auto|]. split; [left; auto|]. constructor; auto.
    + apply IH; auto; try discriminate.
      destruct I as (b1 & sg & rest & neg & I & F & eneg & E' & -> & I1 & I2 & (mt & x & sg' & t & -> & M & X & S & D & N1) & -> & B).
      exists b1, sg, (mt ++ (x :: sg' ++ t) ++ [c]), neg, I, F, eneg, E'. split; [rewrite <- !app_assoc; auto|]. split; auto. split; auto. split; auto.
      exists mt, (x :: sg' ++ t), [c]. split; auto. split; auto. split; [|constructor; auto]. right. split; auto. exists x, sg', t. auto.
    + apply IH; auto; try discriminate.
      destruct I as (b1 & sg & rest & neg & I & F & eneg & E' & -> & I1 & I2 & (mt & et & b2 & -> & M & X & S) & -> & B).
      exists b1, sg, (mt ++ et ++ b2 ++ [c]), neg, I, F, eneg, E'. split; [rewrite <- !app_assoc; auto|]. split; auto. split; auto. split; auto.
      exists mt, et, (b2 ++ [c]). split; auto. split; auto. split; auto. apply Forall_app; auto.
  - (* sign *)
    destruct (sign_of_neg c C) as (neg & S1 & S2). destruct st; try apply LV; try contradiction.
    + apply IH; auto; try discriminate. destruct I as (I1 & ->). exists pre, [c], [], neg, [], [], false, []. split; [rewrite nil_app; auto|].
      split; auto. split; auto. split; [repeat split|]. split; [|cbn; unfold INT_MAX; lia]. unfold vars. rewrite S2. reflexivity.
    + apply IH; auto; try discriminate. destruct I as (b1 & sg & rest & neg' & I & F & eneg & E' & -> & I1 & I2 & (mt & x & -> & M & X & -> & ->) & -> & B).
      exists b1, sg, (mt ++ x :: [c]), neg', I, F, neg, []. split; [rewrite <- !app_assoc; auto|]. split; auto. split; auto.
      split; [exists mt, x, [c]; auto|]. split; [unfold vars; cbn [v_sign v_decimal v_count v_exp_sign v_exp]; rewrite S2; reflexivity|auto].
  - (* digit *)
    rewrite G. cbn [bind].
    assert (0 <= d < 10) as DR by apply C.
    assert (forall b1 sg mt x sg' t neg I F eneg E', pre = b1 ++ sg ++ mt ++ x :: sg' ++ t -> Forall blank b1 -> sign_text sg neg ->
      mantissa mt I F -> expc x -> sign_text sg' eneg -> digits_text 10 t E' -> positional 10 E' <= INT_MAX -> v = vars neg (I ++ F) (len F) eneg (positional 10 E') ->
      (exists st' v', (m <- chk32 (v_exp v * 10) ;; e <- chk32 (m + d) ;;
          decimal_loop n cs S_EXP_NUM (DecVars (v_sign v) (v_decimal v) (v_count v) (v_exp_sign v) e)) = Ok (st', v') /\ dec_inv st' ((pre ++ [c]) ++ cs) v') \/
      ((m <- chk32 (v_exp v * 10) ;; e <- chk32 (m + d) ;;
          decimal_loop n cs S_EXP_NUM (DecVars (v_sign v) (v_decimal v) (v_count v) (v_exp_sign v) e)) = UB SignedOverflow /\ huge_exponent ((pre ++ [c]) ++ cs))) as EX.
    { intros b1 sg mt x sg' t neg I' F eneg E' EP H1 H2 H3 H4 H5 H6 H7 EV.
      assert (0 <= positional 10 E') as P0 by (eapply positional_nonneg; eauto).
      assert (pre ++ [c] = b1 ++ sg ++ mt ++ x :: sg' ++ t ++ [c]) as EP'. { rewrite EP. rewrite <- !app_assoc. cbn [app]. rewrite <- !app_assoc. auto. }
      assert (digits_text 10 (t ++ [c]) (E' ++ [d])) as D' by (apply digits_snoc; auto).
      assert (v_exp v = positional 10 E') as VE by (rewrite EV; auto). rewrite VE.
      destruct (Z_le_dec (positional 10 (E' ++ [d])) INT_MAX) as [Q|Q]; rewrite positional_snoc in Q.
      - rewrite (chk32_ok (positional 10 E' * 10)) by (unfold INT_MIN; lia). cbn [bind]. rewrite chk32_ok by (unfold INT_MIN; lia). cbn [bind].
        apply IH; auto; try discriminate. exists b1, sg, (mt ++ x :: sg' ++ t ++ [c]), neg, I', F, eneg, (E' ++ [d]). split; [exact EP'|].
        split; auto. split; auto. split; [exists mt, x, sg', (t ++ [c]); repeat split; auto; destruct E'; discriminate|].
        split; [rewrite EV, positional_snoc; reflexivity|rewrite positional_snoc; lia].
      - right. split.
        + destruct (Z_le_dec (positional 10 E' * 10) INT_MAX).
          * rewrite chk32_ok by (unfold INT_MIN; lia). cbn [bind]. rewrite chk32_ub by lia. auto.
          * rewrite chk32_ub by lia. auto.
        + exists b1, sg, mt, (x :: sg' ++ t ++ [c]), cs, neg, I', F, eneg, (E' ++ [d]). rewrite EP'. rewrite <- !app_assoc. cbn [app]. rewrite <- !app_assoc.
          split; auto. split; auto. split; auto. split; auto. split; [|rewrite positional_snoc; lia].
          right. split; [destruct E'; discriminate|]. exists x, sg', (t ++ [c]). auto. }
    destruct st; try apply LV; try contradiction.
    + apply IH; auto; try discriminate. destruct I as (I1 & ->). exists pre, [], [c], false, [d], [], false, []. split; [reflexivity|].
      split; auto. split; [left; auto|]. split; [repeat split; try discriminate; constructor; auto; constructor|]. split; [|cbn; unfold INT_MAX; lia].
      reflexivity.
    + apply IH; auto; try discriminate. destruct I as (b1 & sg & rest & neg & I & F & eneg & E' & -> & I1 & I2 & (-> & -> & -> & -> & ->) & -> & B).
      exists b1, sg, [c], neg, [d], [], false, []. rewrite nil_app, <- app_assoc. split; auto.
      split; auto. split; auto. split; [repeat split; try discriminate; constructor; auto; constructor|]. split; auto.
    + apply IH; auto; try discriminate. destruct I as (b1 & sg & rest & neg & I & F & eneg & E' & -> & I1 & I2 & (D & N1 & -> & -> & ->) & -> & B).
      exists b1, sg, (rest ++ [c]), neg, (I ++ [d]), [], false, []. rewrite <- !app_assoc. split; auto.
      split; auto. split; auto. split; [repeat split; [apply digits_snoc; auto|destruct I; discriminate]|]. split; auto.
      unfold vars. cbn [v_sign v_decimal v_count v_exp_sign v_exp]. rewrite accumulated_snoc. rewrite !app_nil_r. auto.
    + destruct I as (b1 & sg & rest & neg & I & F & eneg & E' & -> & I1 & I2 & (-> & -> & -> & -> & ->) & -> & B).
      cbn [vars v_sign v_decimal v_count v_exp_sign v_exp]. rewrite chk32_ok by (rewrite len_nil; unfold INT_MIN; lia). cbn [bind].
      apply IH; auto; try discriminate. exists b1, sg, ["."%char; c], neg, [], [d], false, []. rewrite <- !app_assoc. split; auto.
      split; auto. split; auto. split; [|split; auto].
      split; [|split; [right; discriminate|auto]]. exists [], [c]. split; auto. split; [constructor|constructor; auto; constructor].
    + destruct I as (b1 & sg & rest & neg & I & F & eneg & E' & -> & I1 & I2 & ((i & f & -> & D1 & D2) & N1 & -> & ->) & -> & B).
      assert (len f = len F) as LF by (eapply digits_len; eauto).
      cbn [vars v_sign v_decimal v_count v_exp_sign v_exp].
      rewrite chk32_ok by (pose proof (len_nonneg _ F); pose proof (len_nonneg _ b1); pose proof (len_nonneg _ sg); pose proof (len_nonneg _ i); pose proof (len_nonneg _ cs);
        rewrite !len_app, !len_cons in L; unfold INT_MIN; lia). cbn [bind].
      apply IH; auto; try discriminate. exists b1, sg, (i ++ "."%char :: f ++ [c]), neg, I, (F ++ [d]), false, []. split; [rewrite <- !app_assoc; auto|].
      split; auto. split; auto. split; [|split; auto].
      * split; [|split; [right; destruct F; discriminate|auto]]. exists i, (f ++ [c]). split; auto. split; auto. apply digits_snoc; auto.
      * unfold vars. cbn [v_sign v_decimal v_count v_exp_sign v_exp]. rewrite accumulated_snoc, <- app_assoc, len_app. reflexivity.
    + destruct I as (b1 & sg & rest & neg & I & F & eneg & E' & -> & I1 & I2 & (mt & x & -> & M & X & -> & ->) & EV & B).
      eapply (EX b1 sg mt x [] [] neg I F false []); auto. left; auto. constructor.
    + destruct I as (b1 & sg & rest & neg & I & F & eneg & E' & -> & I1 & I2 & (mt & x & sg' & -> & M & X & S & ->) & EV & B).
      eapply (EX b1 sg mt x sg' [] neg I F eneg []); auto. rewrite nil_app; auto. constructor.
    + destruct I as (b1 & sg & rest & neg & I & F & eneg & E' & -> & I1 & I2 & (mt & x & sg' & t & -> & M & X & S & D & N1) & EV & B).
      eapply (EX b1 sg mt x sg' t neg I F eneg E'); auto.
  - (* point *)
    subst c. destruct st; try apply LV; try contradiction.
    + apply IH; auto; try discriminate. destruct I as (I1 & ->). exists pre, [], ["."%char], false, [], [], false, []. split; [reflexivity|].
      split; auto. split; [left; auto|]. split; [repeat split|]. split; [reflexivity|cbn; unfold INT_MAX; lia].
    + apply IH; auto; try discriminate. destruct I as (b1 & sg & rest & neg & I & F & eneg & E' & -> & I1 & I2 & (-> & -> & -> & -> & ->) & -> & B).
      exists b1, sg, ["."%char], neg, [], [], false, []. rewrite nil_app, <- app_assoc. split; auto.
      split; auto. split; auto. split; [repeat split|]. split; auto.
    + apply IH; auto; try discriminate. destruct I as (b1 & sg & rest & neg & I & F & eneg & E' & -> & I1 & I2 & (D & N1 & -> & -> & ->) & -> & B).
      exists b1, sg, (rest ++ ["."%char]), neg, I, [], false, []. rewrite <- !app_assoc. split; auto. split; auto. split; auto. split; auto.
      split; auto. exists rest, []. split; auto. split; auto. constructor.
  - (* exponent mark *)
    destruct st; try apply LV; try contradiction.
    + apply IH; auto; try discriminate. destruct I as (b1 & sg & rest & neg & I & F & eneg & E' & -> & I1 & I2 & (D & N1 & -> & -> & ->) & -> & B).
      exists b1, sg, (rest ++ [c]), neg, I, [], false, []. rewrite <- !app_assoc. split; auto. split; auto. split; auto. split; auto.
      exists rest, c. split; auto. split; [apply int_mantissa; auto|auto].
    + apply IH; auto; try discriminate. destruct I as (b1 & sg & rest & neg & I & F & eneg & E' & -> & I1 & I2 & (D & N1 & -> & ->) & -> & B).
      exists b1, sg, (rest ++ [c]), neg, I, F, false, []. rewrite <- !app_assoc. split; auto. split; auto. split; auto. split; auto.
      exists rest, c. split; auto. split; [apply pointed_mantissa; auto|auto].
  - destruct st; try apply LV; contradiction.
Qed.

(** ** Forward: what the loop does on each part of a literal *)

Lemma dl_blanks : forall n b cs st v, Forall blank b -> st = S_START \/ st = S_END ->
  decimal_loop n (b ++ cs) st v = decimal_loop n cs st v.
Proof.
  intros n b cs st v F S. induction F as [|c b C F IH]; auto. cbn [app decimal_loop]. rewrite event_blank by auto. cbn [bind].
  destruct S as [->| ->]; apply IH.
Qed.
Lemma dl_tail : forall n b st v, Forall blank b -> st = S_INT \/ st = S_DEC \/ st = S_EXP_NUM ->
  exists st', (st' = S_INT \/ st' = S_DEC \/ st' = S_EXP_NUM \/ st' = S_END) /\ decimal_loop n b st v = Ok (st', v).
Proof.
  intros n b st v F S. destruct F as [|c b C F]; [exists st; split; [tauto|auto]|]. exists S_END. split; auto.
  cbn [decimal_loop]. rewrite event_blank by auto. cbn [bind].
  assert (decimal_loop n b S_END v = Ok (S_END, v)) as K by (rewrite <- (app_nil_r b), dl_blanks by auto; auto).
  destruct S as [->|[->| ->]]; apply K.
Qed.

Lemma dl_int : forall n t I, digits_text 10 t I -> forall cs neg ds k eneg e,
  decimal_loop n (t ++ cs) S_INT (vars neg ds k eneg e) = decimal_loop n cs S_INT (vars neg (ds ++ I) k eneg e).
Proof.
  intros n t I F. induction F as [|c d t I D F IH]; intros cs neg ds k eneg e; [rewrite app_nil_r; auto|].
  cbn [app decimal_loop]. erewrite event_digit by (eauto; lia). cbn [bind]. rewrite (char_to_integer_digit 10 c d) by (auto; lia). cbn [bind].
  cbn [vars v_sign v_decimal v_count v_exp_sign v_exp]. rewrite accumulated_snoc. fold (vars neg (ds ++ [d]) k eneg e). rewrite IH, <- app_assoc. auto.
Qed.
Lemma dl_int_first : forall n t I st, digits_text 10 t I -> I <> [] -> st = S_START \/ st = S_SIGN -> forall cs neg k eneg e,
  decimal_loop n (t ++ cs) st (vars neg [] k eneg e) = decimal_loop n cs S_INT (vars neg I k eneg e).
Proof.
  intros n t I st F N S cs neg k eneg e. destruct F as [|c d t I D F]; [contradiction|].
  cbn [app decimal_loop]. erewrite event_digit by (eauto; lia). cbn [bind]. rewrite (char_to_integer_digit 10 c d) by (auto; lia). cbn [bind].
  cbn [vars v_sign v_decimal v_count v_exp_sign v_exp]. rewrite accumulated_snoc.
  destruct S as [->| ->]; apply (dl_int n t I F cs neg [d] k eneg e).
Qed.
Lemma dl_dec : forall n t F, digits_text 10 t F -> forall cs neg ds k eneg e, 0 <= k -> k + len F <= INT_MAX ->
  decimal_loop n (t ++ cs) S_DEC (vars neg ds k eneg e) = decimal_loop n cs S_DEC (vars neg (ds ++ F) (k + len F) eneg e).
Proof.
  intros n t F H. induction H as [|c d t F D H IH]; intros cs neg ds k eneg e K L.
  - rewrite app_nil_r, len_nil, Z.add_0_r. auto.
  - rewrite len_cons in *. pose proof (len_nonneg _ F).
    cbn [app decimal_loop]. erewrite event_digit by (eauto; lia). cbn [bind]. rewrite (char_to_integer_digit 10 c d) by (auto; lia). cbn [bind].
    cbn [vars v_sign v_decimal v_count v_exp_sign v_exp]. rewrite chk32_ok by (unfold INT_MIN; lia). cbn [bind]. rewrite accumulated_snoc.
    fold (vars neg (ds ++ [d]) (k + 1) eneg e). rewrite IH by lia. rewrite <- app_assoc. replace (k + (1 + len F)) with (k + 1 + len F) by lia. auto.
Qed.
Lemma dl_point_first : forall n t F, digits_text 10 t F -> F <> [] -> forall cs neg eneg e, len F <= INT_MAX ->
  decimal_loop n (t ++ cs) S_POINT (vars neg [] 0 eneg e) = decimal_loop n cs S_DEC (vars neg F (len F) eneg e).
Proof.
  intros n t F H N cs neg eneg e L. destruct H as [|c d t F D H]; [contradiction|]. rewrite len_cons in *. pose proof (len_nonneg _ F).
  cbn [app decimal_loop]. erewrite event_digit by (eauto; lia). cbn [bind]. rewrite (char_to_integer_digit 10 c d) by (auto; lia). cbn [bind].
  cbn [vars v_sign v_decimal v_count v_exp_sign v_exp]. rewrite chk32_ok by (unfold INT_MIN; lia). cbn [bind]. rewrite accumulated_snoc.
  apply (dl_dec n t F H cs neg [d] 1 eneg e); lia.
Qed.

Lemma positional_bound : forall t ds, digits_text 10 t ds -> 0 <= positional 10 ds < 10 ^ len ds.
Proof.
  intros t ds F. induction F as [|c d t ds (D & _) F IH].
  - change (10 ^ len []) with 1. cbn [positional]. lia.
  - rewrite len_cons. cbn [positional]. fold (len ds). pose proof (len_nonneg _ ds). rewrite Z.pow_add_r by lia. change (10 ^ 1) with 10. nia.
Qed.

Lemma dl_exp : forall n t E st, digits_text 10 t E -> E <> [] -> st = S_EXP \/ st = S_EXP_SIGN \/ st = S_EXP_NUM ->
  forall cs neg ds k eneg e, 0 <= e <= INT_MAX ->
  decimal_loop n (t ++ cs) st (vars neg ds k eneg e) =
    if e * 10 ^ len E + positional 10 E <=? INT_MAX then decimal_loop n cs S_EXP_NUM (vars neg ds k eneg (e * 10 ^ len E + positional 10 E))
    else UB SignedOverflow.
Proof.
  intros n t E st H. revert st. induction H as [|c d t E D H IH]; intros st N S cs neg ds k eneg e R; [contradiction|].
  assert (0 <= d < 10) as DR by apply D.
  assert (decimal_loop n ((c :: t) ++ cs) st (vars neg ds k eneg e) =
    (m <- chk32 (e * 10) ;; e' <- chk32 (m + d) ;; decimal_loop n (t ++ cs) S_EXP_NUM (vars neg ds k eneg e'))) as ->.
  { cbn [app decimal_loop]. erewrite event_digit by (eauto; lia). cbn [bind]. rewrite (char_to_integer_digit 10 c d) by (auto; lia). cbn [bind].
    destruct S as [->|[->| ->]]; reflexivity. }
  pose proof (positional_bound _ _ H) as PB. pose proof (len_nonneg _ E).
  assert (e * 10 ^ len (d :: E) + positional 10 (d :: E) = (e * 10 + d) * 10 ^ len E + positional 10 E) as ->.
  { rewrite len_cons, Z.pow_add_r by lia. cbn [positional]. fold (len E). change (10 ^ 1) with 10. lia. }
  assert (1 <= 10 ^ len E) as P1 by (apply (Z.pow_le_mono_r 10 0); lia).
  destruct (Z_le_dec (e * 10 + d) INT_MAX) as [Q|Q].
  - rewrite chk32_ok by (unfold INT_MIN; lia). cbn [bind]. rewrite chk32_ok by (unfold INT_MIN; lia). cbn [bind].
    destruct H as [|c' d' t E D' H].
    + change (10 ^ len []) with 1. cbn [positional app]. rewrite Z.mul_1_r, Z.add_0_r. destruct (Z.leb_spec (e * 10 + d) INT_MAX); [auto|lia].
    + apply IH; auto; [discriminate|lia].
  - destruct (Z.leb_spec ((e * 10 + d) * 10 ^ len E + positional 10 E) INT_MAX); [nia|].
    destruct (Z_le_dec (e * 10) INT_MAX).
    + rewrite chk32_ok by (unfold INT_MIN; lia). cbn [bind]. rewrite chk32_ub by lia. auto.
    + rewrite chk32_ub by lia. auto.
Qed.

Definition init : dec_vars := vars false [] 0 false 0.

Lemma dl_sign : forall n sg neg cs, sign_text sg neg -> exists st, (st = S_START \/ st = S_SIGN) /\
  decimal_loop n (sg ++ cs) S_START init = decimal_loop n cs st (vars neg [] 0 false 0).
Proof.
  intros n sg neg cs S. destruct neg; cbn in S.
  - subst sg. exists S_SIGN. split; auto.
  - destruct S as [->| ->]; [exists S_START|exists S_SIGN]; split; auto.
Qed.

Lemma dl_mantissa : forall n b1 sg mt neg I F cs, Forall blank b1 -> sign_text sg neg -> mantissa mt I F -> len F <= INT_MAX ->
  exists st, (st = S_INT \/ st = S_DEC) /\
  decimal_loop n (b1 ++ sg ++ mt ++ cs) S_START init = decimal_loop n cs st (vars neg (I ++ F) (len F) false 0).
Proof.
  intros n b1 sg mt neg I F cs B S M L. rewrite dl_blanks by auto. destruct (dl_sign n sg neg (mt ++ cs) S) as (st & ST & ->).
  destruct M as [(N & -> & D)|[(N & i & f & -> & D1 & D2)|(-> & N & f & -> & D)]].
  - exists S_INT. split; auto. rewrite app_nil_r. apply dl_int_first; auto.
  - exists S_DEC. split; auto. rewrite <- app_assoc. rewrite (dl_int_first n i I st D1 N ST). cbn [app decimal_loop].
    rewrite event_point. cbn [bind]. rewrite (dl_dec n f F D2) by (auto; lia). auto.
  - exists S_DEC. split; auto. cbn [app decimal_loop]. rewrite event_point. cbn [bind].
    destruct ST as [->| ->]; apply dl_point_first; auto.
Qed.

Lemma dl_exponent : forall n st et eneg E neg ds k cs, st = S_INT \/ st = S_DEC -> exponent et eneg E -> et <> [] ->
  decimal_loop n (et ++ cs) st (vars neg ds k false 0) =
    if positional 10 E <=? INT_MAX then decimal_loop n cs S_EXP_NUM (vars neg ds k eneg (positional 10 E)) else UB SignedOverflow.
Proof.
  intros n st et eneg E neg ds k cs S [(-> & _)|(N & c & sg & t & -> & X & SG & D)] NE; [contradiction|].
  assert (decimal_loop n ((c :: sg ++ t) ++ cs) st (vars neg ds k false 0) = decimal_loop n (sg ++ t ++ cs) S_EXP (vars neg ds k false 0)) as ->.
  { cbn [app decimal_loop]. rewrite event_exp by auto. cbn [bind]. rewrite <- app_assoc. destruct S as [->| ->]; auto. }
  assert (exists st', (st' = S_EXP \/ st' = S_EXP_SIGN) /\
    decimal_loop n (sg ++ t ++ cs) S_EXP (vars neg ds k false 0) = decimal_loop n (t ++ cs) st' (vars neg ds k eneg 0)) as (st' & S' & ->).
  { destruct eneg; cbn in SG.
    - subst sg. exists S_EXP_SIGN. auto.
    - destruct SG as [->| ->]; [exists S_EXP|exists S_EXP_SIGN]; auto. }
  rewrite (dl_exp n t E st' D N) by (try tauto; unfold INT_MAX; lia). reflexivity.
Qed.

Lemma dl_literal : forall n s neg I F eneg E, len s <= INT_MAX -> dec_literal s neg I F eneg E -> positional 10 E <= INT_MAX ->
  exists st, (st = S_INT \/ st = S_DEC \/ st = S_EXP_NUM \/ st = S_END) /\
  decimal_loop n s S_START init = Ok (st, vars neg (I ++ F) (len F) eneg (positional 10 E)).
Proof.
  intros n s neg I F eneg E L (b1 & sg & mt & et & b2 & -> & B1 & B2 & S & M & X) PE.
  assert (len F <= len mt) as LF.
  { destruct M as [(_ & -> & _)|[(_ & i & f & -> & D1 & D2)|(-> & N & f & -> & D)]].
    - apply len_nonneg.
    - rewrite len_app, len_cons, (digits_len _ _ _ D2). pose proof (len_nonneg _ i). lia.
    - rewrite len_cons, (digits_len _ _ _ D). lia. }
  rewrite !len_app in L. pose proof (len_nonneg _ b1). pose proof (len_nonneg _ sg). pose proof (len_nonneg _ et). pose proof (len_nonneg _ b2).
  destruct (dl_mantissa n b1 sg mt neg I F (et ++ b2) B1 S M) as (st & ST & ->); [lia|].
  destruct et as [|c et].
  - destruct X as [(_ & -> & ->)|(N & c & sg' & t & Q & _)]; [|discriminate]. cbn [app]. apply dl_tail; auto. tauto.
  - rewrite (dl_exponent n st (c :: et) eneg E) by (auto; discriminate). destruct (Z.leb_spec (positional 10 E) INT_MAX); [|lia].
    apply dl_tail; auto.
Qed.

Lemma dl_huge : forall n s, len s <= INT_MAX -> huge_exponent s -> decimal_loop n s S_START init = UB SignedOverflow.
Proof.
  intros n s L (b1 & sg & mt & et & rest & neg & I & F & eneg & E & -> & B1 & S & M & X & PE).
  assert (len F <= len mt) as LF.
  { destruct M as [(_ & -> & _)|[(_ & i & f & -> & D1 & D2)|(-> & N & f & -> & D)]].
    - apply len_nonneg.
    - rewrite len_app, len_cons, (digits_len _ _ _ D2). pose proof (len_nonneg _ i). lia.
    - rewrite len_cons, (digits_len _ _ _ D). lia. }
  rewrite !len_app in L. pose proof (len_nonneg _ b1). pose proof (len_nonneg _ sg). pose proof (len_nonneg _ et). pose proof (len_nonneg _ rest).
  destruct (dl_mantissa n b1 sg mt neg I F (et ++ rest) B1 S M) as (st & ST & ->); [lia|].
  rewrite (dl_exponent n st et eneg E); auto.
  - destruct (Z.leb_spec (positional 10 E) INT_MAX); [lia|auto].
  - destruct X as [(-> & -> & ->)|(N & c & sg' & t & -> & _)]; [cbn in PE; unfold INT_MAX in PE; lia|discriminate].
Qed.

(** ** Words *)

Definition word (s : text) : Prop := In s (pos_infs ++ neg_infs ++ nans).

Lemma existsb_in : forall (s : str) ws, existsb (str_eqb s) ws = true <-> In s ws.
Proof.
  intros s ws. rewrite existsb_exists. split.
  - intros (w & I & E). apply str_eqb_spec in E. subst. auto.
  - intros I. exists s. split; auto. apply str_eqb_spec. auto.
Qed.
Lemma existsb_not : forall (s : str) ws, ~ In s ws -> existsb (str_eqb s) ws = false.
Proof. intros s ws N. destruct (existsb (str_eqb s) ws) eqn:E; auto. apply existsb_in in E. contradiction. Qed.

Lemma word_loop : forall s, word s -> decimal_loop 0 s S_START init = Ok (S_OTHER, init) \/ exists neg, decimal_loop 0 s S_START init = Ok (S_OTHER, vars neg [] 0 false 0).
Proof.
  intros s W. unfold word, pos_infs, neg_infs, nans in W. cbn [map app list_ascii_of_string In] in W.
  repeat match goal with H : _ \/ _ |- _ => destruct H as [<-|H] end; try contradiction.
  all: first [left; reflexivity|right; exists false; reflexivity|right; exists true; reflexivity].
Qed.
Lemma word_len : forall s, word s -> len s < 20.
Proof.
  intros s W. unfold word, pos_infs, neg_infs, nans in W. cbn [map app list_ascii_of_string In] in W.
  repeat match goal with H : _ \/ _ |- _ => destruct H as [<-|H] end; try contradiction.
  all: reflexivity.
Qed.

Lemma literal_not_word : forall s neg I F eneg E, dec_literal s neg I F eneg E -> positional 10 E <= INT_MAX -> ~ word s.
Proof.
  intros s neg I F eneg E D P W. pose proof (word_len s W).
  destruct (dl_literal 0 s neg I F eneg E) as (st & S & X); [unfold INT_MAX; lia|auto|auto|].
  destruct (word_loop s W) as [Y|(m & Y)]; rewrite X in Y; injection Y as -> _; destruct S as [S|[S|[S|S]]]; discriminate.
Qed.
Lemma huge_not_word : forall s, huge_exponent s -> ~ word s.
Proof.
  intros s D W. pose proof (word_len s W). assert (decimal_loop 0 s S_START init = UB SignedOverflow) as X by (apply dl_huge; [unfold INT_MAX; lia|auto]).
  destruct (word_loop s W) as [Y|(m & Y)]; rewrite X in Y; discriminate.
Qed.

Lemma not_word : forall pow s, ~ word s -> str_to_decimal pow s =
  (r <- decimal_loop (size s) s S_START init ;;
    let (st, v) := r in
    match st with
    | S_INT | S_DEC | S_EXP_NUM | S_END =>
        Ok (dmul (v_sign v)
              (dmul (ddiv (v_decimal v) (pow (double_of_Z 10) (double_of_Z (v_count v))))
                    (pow (double_of_Z 10) (dmul (v_exp_sign v) (double_of_Z (v_exp v))))))
    | _ => Throw BadDecimalLiteral
    end).
Proof.
  intros pow s N. unfold str_to_decimal, word in *.
  rewrite !existsb_not by (intros I; apply N; rewrite !in_app_iff; tauto). reflexivity.
Qed.

Lemma to_decimal_value : forall pow s neg I F eneg E, len s <= INT_MAX -> dec_literal s neg I F eneg E -> positional 10 E <= INT_MAX ->
  str_to_decimal pow s = Ok (computed pow neg I F eneg E).
Proof.
  intros pow s neg I F eneg E L D P. rewrite not_word by (eapply literal_not_word; eauto).
  destruct (dl_literal (size s) s neg I F eneg E L D P) as (st & S & ->). cbn [bind].
  destruct S as [->|[->|[->| ->]]]; reflexivity.
Qed.

Lemma to_decimal_huge : forall pow s, len s <= INT_MAX -> huge_exponent s -> str_to_decimal pow s = UB SignedOverflow.
Proof.
  intros pow s L H. rewrite not_word by (apply huge_not_word; auto). rewrite dl_huge by auto. auto.
Qed.

Lemma to_decimal_bad : forall pow s, len s < INT_MAX -> ~ word s -> ~ huge_exponent s -> (forall neg I F eneg E, ~ dec_literal s neg I F eneg E) ->
  str_to_decimal pow s = Throw BadDecimalLiteral.
Proof.
  intros pow s L W H N. rewrite not_word by auto. pose proof (len_nonneg _ s).
  destruct (decimal_loop_sound (size s) s S_START [] init) as [(st & v & -> & I)|(_ & X)].
  - rewrite size_ok by lia. lia.
  - rewrite size_ok by lia. rewrite len_nil. lia.
  - split; auto.
  - discriminate.
  - cbn [bind app] in *. destruct st; auto; exfalso.
    + destruct I as (b1 & sg & rest & neg & I & F & eneg & E' & -> & I1 & I2 & (D & N1 & -> & -> & ->) & -> & B).
      eapply N. exists b1, sg, rest, [], []. rewrite !app_nil_r. split; auto. split; eauto. split; eauto. split; eauto. split; [apply int_mantissa; eauto|]. left; eauto.
    + destruct I as (b1 & sg & rest & neg & I & F & eneg & E' & -> & I1 & I2 & (D & N1 & -> & ->) & -> & B).
      eapply N. exists b1, sg, rest, [], []. rewrite !app_nil_r. split; auto. split; eauto. split; eauto. split; eauto. split; [apply pointed_mantissa; eauto|]. left; eauto.
    + destruct I as (b1 & sg & rest & neg & I & F & eneg & E' & -> & I1 & I2 & (mt & x & sg' & t & -> & M & X & S & D & N1) & -> & B).
      eapply N. exists b1, sg, mt, (x :: sg' ++ t), []. rewrite !app_nil_r. split; auto. split; eauto. split; eauto. split; eauto. split; eauto. right. split; eauto. exists x, sg', t. eauto.
    + destruct I as (b1 & sg & rest & neg & I & F & eneg & E' & -> & I1 & I2 & (mt & et & b2 & -> & M & X & S) & -> & B).
      eapply N. exists b1, sg, mt, et, b2. repeat split; eauto.
  - cbn [app] in X. contradiction.
Qed.

Lemma to_decimal_words : forall pow s,
  (In s pos_infs -> str_to_decimal pow s = Ok (B754_infinity false)) /\
  (In s neg_infs -> str_to_decimal pow s = Ok (B754_infinity true)) /\
  (In s nans -> str_to_decimal pow s = Ok B754_nan).
Proof.
  intros pow s. split; [|split]; intros I; cbn [pos_infs neg_infs nans map list_ascii_of_string In] in I;
  repeat match goal with H : _ \/ _ |- _ => destruct H as [<-|H] end; try contradiction; reflexivity.
Qed.

(** The spellings, as the specification lists them. *)
Lemma words_spec : forall s,
  (In s pos_infs <-> spelled inf_words [] s \/ spelled inf_words ["+"%char] s) /\
  (In s neg_infs <-> spelled inf_words ["-"%char] s) /\
  (In s nans <-> spelled nan_words [] s \/ spelled nan_words ["+"%char] s \/ spelled nan_words ["-"%char] s).
Proof.
  assert (forall ws sg s, spelled ws sg s <-> In s (map (fun w => sg ++ list_ascii_of_string w) ws)) as K.
  { intros ws sg s. rewrite in_map_iff. split; intros (w & A & B); exists w; auto. }
  intros s. rewrite !K. cbn [pos_infs neg_infs nans inf_words nan_words map app list_ascii_of_string In]. tauto.
Qed.
