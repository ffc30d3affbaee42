(** Str::to_decimal and Python's float(): proofs. *)
From Coq Require Import String Ascii ZArith List Bool Lia.
From Flocq Require Import BinarySingleNaN.
From Verif Require Import Outcome IntModel IntSpec ListModel ListSpec ListFacts FloatModel StrModel StrSpec StrFacts StrMore StrNum StrDec StrSum
  PySpec PyTextSpec PyFloatSpec Py.
Import ListNotations.
Open Scope Z_scope.
#[local] Opaque double_of_Z dadd dmul ddiv.

(** ** What is accepted *)

Lemma word_dec : forall s, word s \/ ~ word s.
Proof. intros s. unfold word. destruct (in_dec (list_eq_dec ascii_dec) s (pos_infs ++ neg_infs ++ nans)); auto. Qed.

Lemma accepted_literal : forall pow s x, len s < INT_MAX -> ~ word s -> str_to_decimal pow s = Ok x ->
  exists neg I F eneg E, dec_literal s neg I F eneg E /\ positional 10 E <= INT_MAX /\ x = computed pow neg I F eneg E.
Proof.
  intros pow s x L W A.
  enough (exists neg I F eneg E, dec_literal s neg I F eneg E /\ positional 10 E <= INT_MAX) as (neg & I & F & eneg & E & D & B).
  { exists neg, I, F, eneg, E. split; auto. split; auto. rewrite (to_decimal_value pow s neg I F eneg E) in A by (auto; lia). congruence. }
  rewrite not_word in A by auto. pose proof (len_nonneg _ s).
  destruct (decimal_loop_sound (size s) s S_START [] init) as [(st & v & E & I)|(X & _)].
  - rewrite size_ok by lia. lia.
  - rewrite size_ok by lia. rewrite len_nil. lia.
  - split; auto.
  - discriminate.
  - rewrite E in A. cbn [bind app] in *. destruct st; try discriminate.
    + destruct I as (b1 & sg & rest & neg & I & F & eneg & E' & -> & I1 & I2 & (D & N1 & -> & -> & ->) & -> & B).
      exists neg, I, [], false, []. split; [|exact B].
      exists b1, sg, rest, [], []. rewrite !app_nil_r. split; auto. split; eauto. split; eauto. split; eauto. split; [apply int_mantissa; eauto|]. left; eauto.
    + destruct I as (b1 & sg & rest & neg & I & F & eneg & E' & -> & I1 & I2 & (D & N1 & -> & ->) & -> & B).
      exists neg, I, F, false, []. split; [|exact B].
      exists b1, sg, rest, [], []. rewrite !app_nil_r. split; auto. split; eauto. split; eauto. split; eauto. split; [apply pointed_mantissa; eauto|]. left; eauto.
    + destruct I as (b1 & sg & rest & neg & I & F & eneg & E' & -> & I1 & I2 & (mt & y & sg' & t & -> & M & X & S & D & N1) & -> & B).
      exists neg, I, F, eneg, E'. split; [|exact B].
      exists b1, sg, mt, (y :: sg' ++ t), []. rewrite !app_nil_r. split; auto. split; eauto. split; eauto. split; eauto. split; eauto. right. split; eauto. exists y, sg', t. eauto.
    + destruct I as (b1 & sg & rest & neg & I & F & eneg & E' & -> & I1 & I2 & (mt & et & b2 & -> & M & X & S) & -> & B).
      exists neg, I, F, eneg, E'. split; [|exact B]. exists b1, sg, mt, et, b2. repeat split; eauto.
  - rewrite X in A. discriminate.
Qed.

(** ** Literals are Python's *)

Lemma trim_of_blank : forall b, Forall blank b -> Forall (fun c => py_trim c = true) b.
Proof. intros b F. eapply Forall_impl; [|exact F]. apply blank_space. Qed.

Lemma mantissa_python : forall t I F, mantissa t I F -> py_mantissa t I F.
Proof.
  intros t I F [(N & -> & D)|[(N & i & f & -> & D1 & D2)|(-> & N & f & -> & D)]].
  - left. split; auto. apply digits_python; auto.
  - destruct F as [|d F].
    + right. left. exists i. inversion D2; subst. split; auto. split; auto. apply digits_python; auto.
    + right. right. left. exists i, f. split; auto. split; apply digits_python; auto. discriminate.
  - right. right. right. exists f. split; auto. split; auto. apply digits_python; auto.
Qed.

Lemma decimal_python : forall s neg I F eneg E, dec_literal s neg I F eneg E -> py_number s neg I F eneg E.
Proof.
  intros s neg I F eneg E (b1 & sg & mt & et & b2 & -> & B1 & B2 & S & M & X).
  exists b1, sg, mt, et, b2. split; auto. split; [apply trim_of_blank; auto|]. split; [apply trim_of_blank; auto|]. split; auto.
  split; [apply mantissa_python; auto|]. destruct X as [X|(N & c & sg' & ds & -> & C & S' & D)]; [left; auto|].
  right. exists c, sg', ds. split; auto. split; auto. split; auto. apply digits_python; auto.
Qed.

Lemma spelled_python : forall ws w sg neg s, sign_text sg neg -> (forall x, In x ws -> map py_lower_char (list_ascii_of_string x) = list_ascii_of_string w) ->
  spelled ws sg s -> py_word w s neg.
Proof.
  intros ws w sg neg s S H (x & I & ->). exists [], sg, (list_ascii_of_string x), []. rewrite app_nil_r. repeat split; auto.
Qed.

Lemma inf_python : forall sg neg s, sign_text sg neg -> spelled inf_words sg s -> py_inf s neg.
Proof.
  intros sg neg s S (x & I & ->). cbn [inf_words In] in I.
  repeat (destruct I as [<-|I]; [first [left; exists [], sg; eexists; exists []; split; [rewrite app_nil_r; reflexivity|split; [constructor|split; [constructor|split; [exact S|reflexivity]]]]
    |right; exists [], sg; eexists; exists []; split; [rewrite app_nil_r; reflexivity|split; [constructor|split; [constructor|split; [exact S|reflexivity]]]]]|]).
  destruct I.
Qed.
Lemma nan_python : forall sg neg s, sign_text sg neg -> spelled nan_words sg s -> py_nan s.
Proof.
  intros sg neg s S H. exists neg. eapply (spelled_python nan_words); eauto. intros x I. cbn in I.
  repeat (destruct I as [<-|I]; [reflexivity|]). destruct I.
Qed.

Lemma decimal_accepted : forall pow s x, len s < INT_MAX -> str_to_decimal pow s = Ok x ->
  (exists neg, x = B754_infinity neg /\ py_inf s neg) \/ (x = B754_nan /\ py_nan s) \/
  (exists neg I F eneg E, py_number s neg I F eneg E /\ x = computed pow neg I F eneg E).
Proof.
  intros pow s x L A. destruct (word_dec s) as [W|W].
  - unfold word in W. rewrite !in_app_iff in W. destruct (to_decimal_words pow s) as (W1 & W2 & W3). destruct (words_spec s) as (V1 & V2 & V3).
    destruct W as [W|[W|W]].
    + left. exists false. split; [rewrite W1 in A by auto; congruence|]. apply V1 in W. destruct W as [W|W].
      * apply (inf_python [] false); [left; auto|auto].
      * apply (inf_python ["+"%char] false); [right; auto|auto].
    + left. exists true. split; [rewrite W2 in A by auto; congruence|]. apply V2 in W. apply (inf_python ["-"%char] true); [reflexivity|auto].
    + right. left. split; [rewrite W3 in A by auto; congruence|]. apply V3 in W. destruct W as [W|[W|W]].
      * apply (nan_python [] false); [left; auto|auto].
      * apply (nan_python ["+"%char] false); [right; auto|auto].
      * apply (nan_python ["-"%char] true); [reflexivity|auto].
  - right. right. destruct (accepted_literal pow s x L W A) as (neg & I & F & eneg & E & D & _ & X). exists neg, I, F, eneg, E. split; auto. apply decimal_python; auto.
Qed.

(** ** Texts that only Python takes *)

Lemma trim_char : forall c, py_trim c = true -> dec_char c -> blank c.
Proof.
  intros c S [B|[->|[->|[->|[->|[->|(d & D0 & D)]]]]]]; auto; try discriminate S. exfalso. unfold py_trim in S.
  apply orb_prop in S. destruct S as [S|S]; [apply andb_prop in S; destruct S as (A & B); apply Z.leb_le in A, B; lia|apply Z.eqb_eq in S; lia].
Qed.
Lemma trim_chars : forall b, Forall (fun c => py_trim c = true) b -> Forall dec_char b -> Forall blank b.
Proof. induction 1; intros F; auto. inversion F; subst. constructor; auto. apply trim_char; auto. Qed.

Lemma digits_chars : forall t ds, py_digits 10 t ds -> Forall dec_char t -> digits_text 10 t ds /\ ds <> [].
Proof.
  intros t ds D. induction D as [c d H|c d t ds H D IH|c d t ds H D IH]; intros F.
  - split; [constructor; auto; constructor|discriminate].
  - inversion F; subst. destruct IH; auto. split; [constructor; auto|discriminate].
  - inversion F as [|? ? _ F']; subst. inversion F' as [|? ? U _]; subst. exfalso.
    destruct U as [U|[U|[U|[U|[U|[U|(e & E & D')]]]]]]; try discriminate U.
    + destruct U as [U|[U|[U|U]]]; discriminate U.
    + change (byte "_") with 95 in D'. lia.
Qed.

Lemma number_literal : forall s neg I F eneg E, py_number s neg I F eneg E -> Forall dec_char s -> dec_literal s neg I F eneg E.
Proof.
  intros s neg I F eneg E (b1 & sg & mt & et & b2 & -> & B1 & B2 & S & M & X) C.
  rewrite !Forall_app in C. destruct C as (C1 & _ & C3 & C4 & C5).
  exists b1, sg, mt, et, b2. split; auto. split; [apply trim_chars; auto|]. split; [apply trim_chars; auto|]. split; auto. split.
  - destruct M as [(D & ->)|[(i & -> & D & ->)|[(i & f & -> & D1 & D2)|(f & -> & -> & D)]]].
    + destruct (digits_chars _ _ D C3). left. auto.
    + apply Forall_app in C3. destruct (digits_chars _ _ D (proj1 C3)). right. left. split; auto. exists i, []. split; auto. split; auto. constructor.
    + apply Forall_app in C3. destruct C3 as (C3 & C3'). inversion C3'; subst. destruct (digits_chars _ _ D1 C3). destruct (digits_chars _ _ D2); auto.
      right. left. split; auto. exists i, f. auto.
    + inversion C3; subst. destruct (digits_chars _ _ D); auto. right. right. split; auto. split; auto. exists f. auto.
  - destruct X as [X|(c & sg' & ds & -> & K & S' & D)]; [left; auto|]. inversion C4; subst.
    match goal with H : Forall dec_char (_ ++ _) |- _ => apply Forall_app in H; destruct H as (_ & H); destruct (digits_chars _ _ D H) end.
    right. split; auto. exists c, sg', ds. auto.
Qed.

Lemma sign_chars : forall sg neg, sign_text sg neg -> Forall dec_char sg.
Proof.
  intros sg neg S. assert (P: dec_char "+"%char) by (unfold dec_char; tauto). assert (Q: dec_char "-"%char) by (unfold dec_char; tauto).
  unfold sign_text in S. destruct neg; [subst; auto|]. destruct S; subst; auto.
Qed.
Lemma digit_chars : forall t ds, digits_text 10 t ds -> Forall dec_char t.
Proof. intros t ds D. induction D; constructor; auto. unfold dec_char. eauto 10. Qed.
Lemma blank_chars : forall b, Forall blank b -> Forall dec_char b.
Proof. intros b F. eapply Forall_impl; [|exact F]. intros c H. left. auto. Qed.

Lemma literal_chars : forall s neg I F eneg E, dec_literal s neg I F eneg E -> Forall dec_char s.
Proof.
  intros s neg I F eneg E (b1 & sg & mt & et & b2 & -> & B1 & B2 & S & M & X).
  rewrite !Forall_app. split; [apply blank_chars; auto|]. split; [eapply sign_chars; eauto|].
  assert (P: dec_char "."%char) by (unfold dec_char; tauto).
  split; [|split; [|apply blank_chars; auto]].
  - destruct M as [(_ & _ & D)|[(_ & i & f & -> & D1 & D2)|(_ & _ & f & -> & D)]].
    + eapply digit_chars; eauto.
    + apply Forall_app. split; [eapply digit_chars; eauto|]. constructor; auto. eapply digit_chars; eauto.
    + constructor; auto. eapply digit_chars; eauto.
  - destruct X as [(-> & _)|(_ & c & sg' & ds & -> & K & S' & D)]; [constructor|].
    constructor; [unfold dec_char; tauto|]. apply Forall_app. split; [eapply sign_chars; eauto|eapply digit_chars; eauto].
Qed.

(** A letter of the words. *)
Lemma word_n : forall w s neg, py_word w s neg -> In "n"%char (list_ascii_of_string w) -> exists c, In c s /\ ~ dec_char c /\ py_trim c = false /\ c <> "_"%char.
Proof.
  intros w s neg (b1 & sg & t & b2 & -> & _ & _ & _ & M) N. rewrite <- M in N. apply in_map_iff in N. destruct N as (c & L & I).
  exists c. split; [rewrite !in_app_iff; auto|].
  assert (c = "n"%char \/ c = "N"%char) as K.
  { clear - L. revert L. destruct c as [[] [] [] [] [] [] [] []]; vm_compute; intros L; solve [auto|discriminate]. }
  split.
  - intros [B|[H|[H|[H|[H|[H|(d & D0 & D)]]]]]]; destruct K as [-> | ->]; try discriminate.
    1,2: destruct B as [B|[B|[B|B]]]; discriminate.
    + change (byte "n") with 110 in D. lia.
    + change (byte "N") with 78 in D. lia.
  - destruct K as [-> | ->]; split; [reflexivity|discriminate|reflexivity|discriminate].
Qed.

Lemma word_spelled : forall s, word s <-> exists sg, (sg = [] \/ sg = ["+"%char] \/ sg = ["-"%char]) /\ (spelled inf_words sg s \/ spelled nan_words sg s).
Proof.
  intros s. unfold word. rewrite !in_app_iff. destruct (words_spec s) as (V1 & V2 & V3). rewrite V1, V2, V3. split.
  - intros X. decompose [or] X; eexists; (split; [|eauto]); auto.
  - intros (sg & [->|[->| ->]] & [X|X]); tauto.
Qed.

Lemma words_exact : forall pow s, len s < INT_MAX -> (exists neg, py_inf s neg) \/ py_nan s ->
  ((exists x, str_to_decimal pow s = Ok x) <->
   exists sg, (sg = [] \/ sg = ["+"%char] \/ sg = ["-"%char]) /\ (spelled inf_words sg s \/ spelled nan_words sg s)).
Proof.
  intros pow s L P. rewrite <- word_spelled. split.
  - intros (x & A). destruct (word_dec s) as [W|W]; auto. exfalso.
    destruct (accepted_literal pow s x L W A) as (neg & I & F & eneg & E & D & _). apply literal_chars in D. rewrite Forall_forall in D.
    assert (exists c, In c s /\ ~ dec_char c /\ py_trim c = false /\ c <> "_"%char) as (c & C1 & C2 & _).
    { destruct P as [(n & [P|P])|(n & P)]; (eapply word_n; [exact P|cbn; tauto]). }
    apply C2, D, C1.
  - intros W. destruct (to_decimal_words pow s) as (W1 & W2 & W3). unfold word in W. rewrite !in_app_iff in W. destruct W as [W|[W|W]]; eauto.
Qed.

Lemma numbers_exact : forall pow s neg I F eneg E, len s < INT_MAX -> py_number s neg I F eneg E ->
  ((exists x, str_to_decimal pow s = Ok x) <-> Forall dec_char s /\ positional 10 E <= INT_MAX).
Proof.
  intros pow s neg I F eneg E L P. split.
  - intros (x & A).
    assert (NW: ~ word s).
    { intros W. apply word_spelled in W. destruct W as (sg & SG & W).
      assert (H: exists n, py_word "inf" s n \/ py_word "infinity" s n \/ py_word "nan" s n).
      { assert (exists n, sign_text sg n) as (n & SN) by (destruct SG as [->|[->| ->]]; [exists false; left; auto|exists false; right; auto|exists true; reflexivity]).
        destruct W as [W|W]; [apply (inf_python sg n) in W; auto; destruct W; eauto|]. apply (nan_python sg n) in W; auto. destruct W; eauto. }
      assert (exists c, In c s /\ ~ dec_char c /\ py_trim c = false /\ c <> "_"%char) as (c & C1 & C2 & C3 & C4).
      { destruct H as (n & [H|[H|H]]); (eapply word_n; [exact H|cbn; tauto]). }
      clear - P C1 C2 C3 C4. destruct P as (b1 & sg & mt & et & b2 & -> & B1 & B2 & S & M & X).
      assert (U: c = "_"%char \/ dec_char c).
      { assert (PD: forall t ds, py_digits 10 t ds -> In c t -> c = "_"%char \/ dec_char c).
        { intros t ds D. induction D as [a d H|a d t ds H D IH|a d t ds H D IH]; cbn; intros I0.
          - destruct I0 as [<-|[]]. right. unfold dec_char. eauto 10.
          - destruct I0 as [<-|I0]; auto. right. unfold dec_char. eauto 10.
          - destruct I0 as [<-|[<-|I0]]; auto. right. unfold dec_char. eauto 10. }
        assert (SD: forall g n, sign_text g n -> In c g -> dec_char c) by (intros g n G I0; apply sign_chars in G; rewrite Forall_forall in G; auto).
        assert (PT: dec_char "."%char) by (unfold dec_char; tauto).
        rewrite !in_app_iff in C1. destruct C1 as [C1|[C1|[C1|[C1|C1]]]].
        - rewrite Forall_forall in B1. apply B1 in C1. congruence.
        - right. eauto.
        - destruct M as [(D & _)|[(i & -> & D & _)|[(i & f & -> & D1 & D2)|(f & -> & _ & D)]]]; rewrite ?in_app_iff in C1; cbn in C1.
          + eauto.
          + destruct C1 as [C1|[<-|[]]]; eauto.
          + destruct C1 as [C1|[<-|C1]]; eauto.
          + destruct C1 as [<-|C1]; eauto.
        - destruct X as [(-> & _)|(a & g & ds & -> & K & G & D)]; [destruct C1|]. cbn in C1. rewrite in_app_iff in C1.
          destruct C1 as [<-|[C1|C1]]; [right; unfold dec_char; tauto|right; eauto|eauto].
        - rewrite Forall_forall in B2. apply B2 in C1. congruence. }
      destruct U as [U|U]; auto. }
    destruct (accepted_literal pow s x L NW A) as (neg' & I' & F' & eneg' & E' & D & B & _).
    pose proof (literal_chars _ _ _ _ _ _ D) as C. split; auto. apply number_literal in P; auto.
    destruct (Z_le_dec (positional 10 E) INT_MAX) as [|G]; auto. exfalso.
    assert (H: huge_exponent s).
    { destruct P as (b1 & sg & mt & et & b2 & -> & B1 & B2 & S & M & X). exists b1, sg, mt, et, b2, neg, I, F, eneg, E. repeat split; auto. lia. }
    rewrite (to_decimal_huge pow s) in A by (auto; lia). discriminate.
  - intros (C & B). eexists. apply (to_decimal_value pow s neg I F eneg E); auto; [lia|]. apply number_literal; auto.
Qed.

(** ** Witnesses *)

Lemma digit10 c d : 0 <= d < 10 -> byte c = 48 + d -> digit_val 10 c d.
Proof. intros A B. split; [lia|]. left. split; [lia|exact B]. Qed.
Ltac digit := apply digit10; [lia|reflexivity].

Lemma underscore_refuted : (exists neg I F eneg E, py_number ["1"; "_"; "0"]%char neg I F eneg E) /\
  forall pow, str_to_decimal pow ["1"; "_"; "0"]%char = Throw BadDecimalLiteral.
Proof.
  split; [|reflexivity]. exists false, [1; 0], [], false, [], [], [], ["1"; "_"; "0"]%char, [], [].
  split; [reflexivity|]. split; [constructor|]. split; [constructor|]. split; [left; reflexivity|]. split; [left; split; auto|left; auto].
  apply digits_under; [digit|]. apply digits_one. digit.
Qed.

Lemma inf_refuted : py_inf ["i"; "N"; "f"]%char false /\ py_inf [" "; "i"; "n"; "f"]%char false /\
  forall pow, str_to_decimal pow ["i"; "N"; "f"]%char = Throw BadDecimalLiteral /\ str_to_decimal pow [" "; "i"; "n"; "f"]%char = Throw BadDecimalLiteral.
Proof.
  split; [|split; [|split; reflexivity]].
  - left. exists [], [], ["i"; "N"; "f"]%char, []. split; [reflexivity|]. split; [constructor|]. split; [constructor|]. split; [left; reflexivity|reflexivity].
  - left. exists [" "%char], [], ["i"; "n"; "f"]%char, []. split; [reflexivity|]. split; [repeat constructor|]. split; [constructor|]. split; [left; reflexivity|reflexivity].
Qed.

Lemma tab_refuted : (exists neg I F eneg E, py_number [ascii_of_nat 11; "1"%char] neg I F eneg E) /\
  forall pow, str_to_decimal pow [ascii_of_nat 11; "1"%char] = Throw BadDecimalLiteral.
Proof.
  split; [|reflexivity]. exists false, [1], [], false, [], [ascii_of_nat 11], [], ["1"]%char, [], [].
  split; [reflexivity|]. split; [repeat constructor|]. split; [constructor|]. split; [left; reflexivity|]. split; [left; split; auto|left; auto].
  apply digits_one. digit.
Qed.

Lemma exponent_refuted : (exists neg I F eneg E, py_number ["0"; "e"; "2"; "1"; "4"; "7"; "4"; "8"; "3"; "6"; "4"; "8"]%char neg I F eneg E) /\
  forall pow, str_to_decimal pow ["0"; "e"; "2"; "1"; "4"; "7"; "4"; "8"; "3"; "6"; "4"; "8"]%char = UB SignedOverflow.
Proof.
  assert (D: py_digits 10 ["2"; "1"; "4"; "7"; "4"; "8"; "3"; "6"; "4"; "8"]%char [2; 1; 4; 7; 4; 8; 3; 6; 4; 8]).
  { do 9 (apply digits_more; [digit|]). apply digits_one. digit. }
  assert (P: py_number ["0"; "e"; "2"; "1"; "4"; "7"; "4"; "8"; "3"; "6"; "4"; "8"]%char false [0] [] false [2; 1; 4; 7; 4; 8; 3; 6; 4; 8]).
  { exists [], [], ["0"]%char, ["e"; "2"; "1"; "4"; "7"; "4"; "8"; "3"; "6"; "4"; "8"]%char, [].
    split; [reflexivity|]. split; [constructor|]. split; [constructor|]. split; [left; reflexivity|]. split.
    - left. split; auto. apply digits_one. digit.
    - right. exists "e"%char, [], ["2"; "1"; "4"; "7"; "4"; "8"; "3"; "6"; "4"; "8"]%char. split; [reflexivity|]. split; [auto|]. split; [left; reflexivity|exact D]. }
  split; [eauto 10|]. intros pow. apply to_decimal_huge; [unfold INT_MAX; vm_compute; discriminate|].
  exists [], [], ["0"]%char, ["e"; "2"; "1"; "4"; "7"; "4"; "8"; "3"; "6"; "4"; "8"]%char, [], false, [0], [], false, [2; 1; 4; 7; 4; 8; 3; 6; 4; 8].
  assert (Q: Forall dec_char ["0"; "e"; "2"; "1"; "4"; "7"; "4"; "8"; "3"; "6"; "4"; "8"]%char).
  { assert (X: forall c d, digit_val 10 c d -> dec_char c) by (unfold dec_char; eauto 10).
    constructor; [eapply (X _ 0); digit|]. constructor; [unfold dec_char; tauto|]. eapply Forall_forall. intros c.
    cbn [In]. intros H. decompose [or] H; subst; try contradiction;
    first [apply (X _ 1); digit|apply (X _ 2); digit|apply (X _ 3); digit|apply (X _ 4); digit|apply (X _ 6); digit|apply (X _ 7); digit|apply (X _ 8); digit]. }
  assert (C: digits_text 10 ["2"; "1"; "4"; "7"; "4"; "8"; "3"; "6"; "4"; "8"]%char [2; 1; 4; 7; 4; 8; 3; 6; 4; 8]).
  { inversion Q as [|? ? _ Q1]; subst. inversion Q1; subst. apply digits_chars; auto. }
  split; [reflexivity|]. split; [constructor|]. split; [left; reflexivity|].
  split; [left; split; [discriminate|]; split; [reflexivity|]; constructor; [digit|constructor]|].
  split; [|reflexivity]. right. split; [discriminate|]. exists "e"%char, [], ["2"; "1"; "4"; "7"; "4"; "8"; "3"; "6"; "4"; "8"]%char.
  split; [reflexivity|]. split; [auto|]. split; [left; reflexivity|exact C].
Qed.
