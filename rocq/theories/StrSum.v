(** Combined statements and witnesses for the Str properties. *)
From Coq Require Import String Ascii ZArith List Bool Lia.
From Flocq Require Import BinarySingleNaN.
From Verif Require Import Outcome IntModel IntSpec IntBase ListModel ListSpec ListFacts ListMore StreamModel FloatModel FloatMore StrModel StrSpec StrFacts StrMore StrNum StrDec StrFloat.
Import ListNotations.
Open Scope Z_scope.

Lemma find_refuted : exists s p start stop, len s <= INT_MAX /\ INT_MIN <= start <= INT_MAX /\ INT_MIN <= stop <= INT_MAX /\
  exists u, str_find s p start stop = UB u.
Proof.
  exists ["a"%char; "b"%char], ["b"%char], (-1), INT_MAX. repeat split; try (vm_compute; discriminate).
  apply find_undefined; [vm_compute; discriminate|vm_compute; discriminate|left; lia].
Qed.

Lemma count_all : forall s p, len s <= INT_MAX -> (p <> [] -> exists n, str_count s p = Ok (Z.of_nat n) /\ (exists js, apart s p 0 js /\ length js = n) /\
    forall js, apart s p 0 js -> (length js <= n)%nat) /\
  (p = [] -> len s < INT_MAX -> str_count s p = Ok (len s + 1)) /\
  (p = [] -> len s = INT_MAX -> str_count s p = UB SignedOverflow).
Proof.
  intros s p L. split; [|split].
  - apply count_spec. auto.
  - intros ->. apply count_empty.
  - intros ->. apply count_empty_full.
Qed.

Lemma to_integer_spec : forall p base s, len s < INT_MAX ->
  (~ (2 <= base <= 36) -> str_to_integer p s base = Throw BadBase) /\
  (2 <= base <= 36 -> forall z, int_literal base s z -> returns (str_to_integer p s base) z) /\
  (2 <= base <= 36 -> (forall z, ~ int_literal base s z) -> str_to_integer p s base = Throw BadIntegerLiteral).
Proof.
  intros p base s L. split; [apply to_integer_base|]. split.
  - intros B z. apply to_integer_ok; auto.
  - intros B. apply to_integer_bad; auto.
Qed.

Lemma to_decimal_language : forall pow s, len s < INT_MAX ->
  (spelled inf_words [] s \/ spelled inf_words ["+"%char] s -> str_to_decimal pow s = Ok (B754_infinity false)) /\
  (spelled inf_words ["-"%char] s -> str_to_decimal pow s = Ok (B754_infinity true)) /\
  (spelled nan_words [] s \/ spelled nan_words ["+"%char] s \/ spelled nan_words ["-"%char] s -> str_to_decimal pow s = Ok B754_nan) /\
  (forall neg I F eneg E, dec_literal s neg I F eneg E -> positional 10 E <= INT_MAX -> exists x, str_to_decimal pow s = Ok x) /\
  ((forall neg I F eneg E, ~ dec_literal s neg I F eneg E) -> ~ huge_exponent s ->
   ~ (exists sg, (sg = [] \/ sg = ["+"%char] \/ sg = ["-"%char]) /\ (spelled inf_words sg s \/ spelled nan_words sg s)) ->
   str_to_decimal pow s = Throw BadDecimalLiteral).
Proof.
  intros pow s L. pose proof (to_decimal_words pow s) as (W1 & W2 & W3). destruct (words_spec s) as (V1 & V2 & V3).
  split; [|split; [|split; [|split]]].
  - intros H. apply W1, V1; auto.
  - intros H. apply W2, V2; auto.
  - intros H. apply W3, V3; auto.
  - intros neg I F eneg E D P. eexists. apply (to_decimal_value pow s neg I F eneg E); auto. lia.
  - intros N H W. apply to_decimal_bad; auto. intros X. unfold word in X. rewrite !in_app_iff in X. apply W.
    rewrite V1, V2, V3 in X. decompose [or] X; eexists; (split; [|eauto]); auto.
Qed.

Lemma to_decimal_undefined : forall pow s, len s < INT_MAX ->
  ((exists u, str_to_decimal pow s = UB u) <-> huge_exponent s) /\
  (huge_exponent s -> str_to_decimal pow s = UB SignedOverflow) /\ str_to_decimal pow s <> OutOfFuel.
Proof.
  intros pow s L. assert (huge_exponent s \/ ~ huge_exponent s) as HD.
  { pose proof (len_nonneg _ s). destruct (decimal_loop_sound (size s) s S_START [] init) as [(st & v & E & I)|(_ & X)].
    - rewrite size_ok by lia. lia.
    - rewrite size_ok by lia. rewrite len_nil. lia.
    - split; auto.
    - discriminate.
    - right. intros H1. apply (dl_huge (size s)) in H1; [|lia]. rewrite E in H1. discriminate.
    - left. auto. }
  assert (~ huge_exponent s -> (exists x, str_to_decimal pow s = Ok x) \/ exists e, str_to_decimal pow s = Throw e) as K.
  { intros H. unfold str_to_decimal.
    repeat match goal with |- context [if existsb ?f ?l then _ else _] => destruct (existsb f l); [eauto|] end.
    pose proof (len_nonneg _ s). destruct (decimal_loop_sound (size s) s S_START [] init) as [(st & v & E & I)|(_ & X)].
    - rewrite size_ok by lia. lia.
    - rewrite size_ok by lia. rewrite len_nil. lia.
    - split; auto.
    - discriminate.
    - change (DecVars (double_of_Z 1) (double_of_Z 0) 0 (double_of_Z 1) 0) with init. rewrite E. cbn [bind]. destruct st; eauto.
    - contradiction. }
  split; [|split].
  - split.
    + intros (u & U). destruct HD as [H|H]; auto. destruct (K H) as [(x & X)|(e & X)]; rewrite X in U; discriminate.
    + intros H. eexists. apply to_decimal_huge; auto. lia.
  - apply to_decimal_huge. lia.
  - destruct HD as [H|H].
    + rewrite to_decimal_huge by (auto; lia). discriminate.
    + destruct (K H) as [(x & X)|(e & X)]; rewrite X; discriminate.
Qed.

Lemma huge_witness : forall pow, str_to_decimal pow (list_ascii_of_string "1e9999999999") = UB SignedOverflow.
Proof. intros pow. reflexivity. Qed.

Lemma digits_exact : forall s neg I F eneg E, dec_literal s neg I F eneg E -> positional 10 (I ++ F) <= 2 ^ 53 ->
  accumulated (I ++ F) = double_of_Z (positional 10 (I ++ F)).
Proof. intros s neg I F eneg E D H. apply accumulated_exact; auto. apply (literal_digits _ _ _ _ _ _ D). Qed.

Lemma nan_refuted : exists s neg I F eneg E, dec_literal s neg I F eneg E /\
  forall pow, pow (double_of_Z 10) (double_of_Z 0) = double_of_Z 1 -> pow (double_of_Z 10) (double_of_Z 400) = B754_infinity false ->
  str_to_decimal pow s = Ok B754_nan.
Proof. exists zero_e400, false, [0], [], false, [4; 0; 0]. split; [exact zero_e400_literal|exact nan_witness]. Qed.

Lemma replace_nul_refuted : exists s new, str_replace s [] new <> Ok (new ++ concat (map (fun c => c :: new) s)).
Proof. exists ["a"%char], ["x"%char; "000"%char; "y"%char]. vm_compute. discriminate. Qed.

Lemma split_all : forall s sep keep, len s < INT_MAX -> sep <> [] ->
  exists ps, pieces sep s ps /\ glue sep ps = s /\ Forall (fun x => ~ contains x sep) ps /\
    str_split s sep keep = Ok (if keep then ps else filter (fun x => negb (str_is_empty x)) ps).
Proof.
  intros s sep keep L N. destruct (split_spec s sep keep L N) as (ps & P & E). exists ps. split; auto.
  split; [apply pieces_glue; auto|]. split; [eapply pieces_free; eauto|]. exact E.
Qed.

Lemma strip_refuted : exists s, (exists c, In c s /\ ~ byte c <= 32) /\ str_strip s (-1) = Ok [].
Proof.
  exists ["195"%char; "169"%char]. split; [|reflexivity]. exists "195"%char. split; [left; auto|]. vm_compute. intros H. apply H. reflexivity.
Qed.

Lemma case_refuted : (exists c, ~ letter c /\ str_upper [c] <> [c]) /\ (exists c, ~ letter c /\ str_lower [c] <> [c]).
Proof.
  destruct case_others_witness as (A & B & C & D). split.
  - exists "1"%char. split; auto. rewrite A. discriminate.
  - exists "["%char. split; auto. rewrite B. discriminate.
Qed.

Lemma malformed_full_refuted : exists s : list ascii, len s = INT_MAX /\ forall p base, 2 <= base <= 36 -> str_to_integer p s base = UB SignedOverflow.
Proof.
  destruct (some_list (INT_MAX - 1)) as (l & L); [unfold INT_MAX; lia|].
  exists ("!"%char :: map (fun _ => " "%char) l).
  assert (len (map (fun _ => " "%char) l) = INT_MAX - 1) as LM by (unfold len; rewrite map_length; exact L).
  split; [rewrite len_cons; lia|]. intros p base B. apply to_integer_full; auto.
Qed.

Lemma extract_all : forall is old,
  (good is = true -> str_extract ConstUB is old = UB ConstWrite) /\
  (good is = false -> str_extract ConstUB is old = Ok (set_fail is, old)).
Proof. intros is old. split; [apply extract_const|apply extract_not_good]. Qed.

Lemma lines : forall l rest old, ~ In "010"%char l ->
  str_extract ConstBenign (IStream (l ++ "010"%char :: rest) false false) old = Ok (IStream rest false false, l).
Proof. exact extract_line. Qed.

Lemma hash_eq : forall (h : list ascii -> Z) s t, str_eqb s t = true -> str_hash h s = str_hash h t.
Proof. intros h s t E. apply str_eqb_spec in E. subst. auto. Qed.

Lemma pieces_all : forall p, p <> [] -> forall s, exists ps, pieces p s ps /\ glue p ps = s /\ Forall (fun x => ~ contains x p) ps /\
  forall ps', pieces p s ps' -> ps' = ps.
Proof.
  intros p N s. destruct (pieces_exists p N s) as (ps & P). exists ps. split; auto. split; [apply pieces_glue; auto|].
  split; [eapply pieces_free; eauto|]. intros ps' P'. eapply pieces_unique; eauto.
Qed.
Lemma print_quotes : forall s, str_print s = """"%char :: s ++ [""""%char].
Proof. reflexivity. Qed.
Lemma assign_refuted : forall t, str_assign ConstUB t = UB ConstWrite /\ str_move ConstUB t = UB ConstWrite.
Proof. auto. Qed.
Lemma assign_benign : forall t, str_assign ConstBenign t = Ok t /\ str_move ConstBenign t = Ok (t, []).
Proof. auto. Qed.
