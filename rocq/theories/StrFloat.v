(** Proofs about the values [to_decimal] computes. *)
From Coq Require Import String Ascii ZArith List Bool Lia Reals Lra.
From Flocq Require Import Core BinarySingleNaN.
From Verif Require Import Outcome IntModel IntSpec ListModel ListSpec ListFacts FloatModel FloatFacts FloatMore StrModel StrSpec StrFacts StrMore StrNum StrDec.
Import ListNotations.
Open Scope Z_scope.
#[local] Opaque double_of_Z dadd dmul ddiv.

#[local] Instance dvalid'' : Valid_exp dfexp.
Proof. apply (fexp_correct 53 1024 dprec_pos). Qed.

Definition digitsb (ds : list Z) : Prop := Forall (fun d => 0 <= d < 10) ds.

Lemma positional_nn : forall ds, digitsb ds -> 0 <= positional 10 ds.
Proof.
  intros ds F. induction F as [|d ds D F IH]; cbn [positional]; [lia|].
  assert (0 <= 10 ^ Z.of_nat (length ds)) by (apply Z.pow_nonneg; lia). nia.
Qed.

Lemma accumulated_exact : forall ds, digitsb ds -> positional 10 ds <= 2 ^ 53 -> accumulated ds = double_of_Z (positional 10 ds).
Proof.
  intros ds. induction ds as [|d ds IH] using rev_ind; intros F H; [reflexivity|].
  apply Forall_app in F as (F & D). inversion D as [|? ? D1 _]; subst. rewrite positional_snoc in *. pose proof (positional_nn ds F).
  rewrite <- accumulated_snoc, IH by (auto; lia). unfold push_digit. apply push_exact; lia.
Qed.

Lemma literal_digits : forall s neg I F eneg E, dec_literal s neg I F eneg E -> digitsb (I ++ F) /\ digitsb E.
Proof.
  assert (forall t ds, digits_text 10 t ds -> digitsb ds) as K.
  { intros t ds H. induction H as [|c d t ds (D & _) H IH]; constructor; auto. }
  intros s neg I F eneg E (b1 & sg & mt & et & b2 & _ & _ & _ & _ & M & X). split.
  - unfold digitsb. rewrite Forall_app. destruct M as [(_ & -> & D)|[(_ & i & f & _ & D1 & D2)|(-> & _ & f & _ & D)]]; split; try constructor; eapply K; eauto.
  - destruct X as [(_ & _ & ->)|(_ & c & sg' & t & _ & _ & _ & D)]; [constructor|eapply K; eauto].
Qed.

Lemma pm_mul : forall neg x, dmul (pm neg) x = signed neg x.
Proof. intros [] x; [apply mul_m1_l|apply mul_1_l]. Qed.

Lemma pm_zero : dmul (pm false) (double_of_Z 0) = double_of_Z 0.
Proof. apply pm_mul. Qed.

(** No exponent: one division of the accumulated digits. *)
Lemma computed_plain : forall pow neg I F, pow (double_of_Z 10) (double_of_Z 0) = double_of_Z 1 ->
  computed pow neg I F false [] = signed neg (ddiv (accumulated (I ++ F)) (pow (double_of_Z 10) (double_of_Z (len F)))).
Proof.
  intros pow neg I F P. unfold computed. fold (len F). cbn [positional]. rewrite pm_zero, P, mul_1_r, pm_mul. auto.
Qed.

Lemma integer_exact : forall pow s neg I, len s <= INT_MAX -> pow (double_of_Z 10) (double_of_Z 0) = double_of_Z 1 ->
  dec_literal s neg I [] false [] -> positional 10 I <= 2 ^ 53 ->
  str_to_decimal pow s = Ok (signed neg (double_of_Z (positional 10 I))).
Proof.
  intros pow s neg I L P D H. rewrite (to_decimal_value pow s neg I [] false []) by (auto; cbn; unfold INT_MAX; lia). f_equal.
  rewrite computed_plain by auto. apply literal_digits in D as (DI & _). rewrite app_nil_r in *. rewrite len_nil, P, div_1_r, accumulated_exact by auto. auto.
Qed.

Lemma B2R_signed : forall neg x, B2R (signed neg x) = (if neg then - B2R x else B2R x)%R.
Proof. intros [] x; auto. apply B2R_Bopp. Qed.
Lemma finite_signed : forall neg x, is_finite (signed neg x) = is_finite x.
Proof. intros [] x; auto. apply is_finite_Bopp. Qed.

Lemma drnd_opp : forall r, drnd (- r) = (- drnd r)%R.
Proof. intros r. apply round_NE_opp. Qed.

Lemma range_mono : forall r m, (Rabs r <= IZR m)%R -> (IZR m <= bpow radix2 1000)%R -> in_range r.
Proof.
  intros r m H M. unfold in_range. apply Rle_lt_trans with (bpow radix2 1000); [|apply bpow_lt; lia].
  apply abs_round_le_generic; [apply dvalid''|apply valid_rnd_N| |eapply Rle_trans; eauto].
  apply generic_format_bpow. rewrite dfexp_FLT. unfold FLT_exp. lia.
Qed.
Lemma b1000 : forall m, Z.abs m <= 10 ^ 40 -> (IZR m <= bpow radix2 1000)%R.
Proof.
  intros m H. replace (bpow radix2 1000) with (IZR (2 ^ 1000)) by (rewrite <- IZR_Zpower by lia; reflexivity). apply IZR_le.
  apply Z.le_trans with (10 ^ 40); [lia|]. apply Z.leb_le. vm_compute. reflexivity.
Qed.

Lemma nearest_plain : forall pow s neg I F, len s <= INT_MAX ->
  (forall k, 0 <= k <= 22 -> pow (double_of_Z 10) (double_of_Z k) = double_of_Z (10 ^ k)) ->
  dec_literal s neg I F false [] -> positional 10 (I ++ F) <= 2 ^ 53 -> len F <= 22 ->
  exists x, str_to_decimal pow s = Ok x /\ nearest x (denoted neg I F false []).
Proof.
  intros pow s neg I F L P D H LF. pose proof (literal_digits _ _ _ _ _ _ D) as (DI & _).
  pose proof (positional_nn _ DI) as NN. pose proof (len_nonneg _ F) as LN.
  rewrite (to_decimal_value pow s neg I F false []) by (auto; cbn; unfold INT_MAX; lia).
  rewrite computed_plain by (apply (P 0); lia). rewrite accumulated_exact by auto. rewrite P by lia.
  destruct (of_int_exact (positional 10 (I ++ F))) as (Ra & Fa); [lia|]. destruct (ten_exact (len F)) as (Rt & Ft & _); [lia|].
  assert (1 <= 10 ^ len F) as T1 by (apply (Z.pow_le_mono_r 10 0); lia).
  eexists. split; [reflexivity|]. unfold nearest. rewrite finite_signed, B2R_signed.
  destruct (div_ok (double_of_Z (positional 10 (I ++ F))) (double_of_Z (10 ^ len F))) as (A & B & _); auto.
  - rewrite Rt. apply IZR_neq. lia.
  - rewrite Ra, Rt. apply (range_mono _ (2 ^ 53)).
    + eapply Rle_trans; [apply quot_bound; lia|]. apply IZR_le. lia.
    + apply b1000. vm_compute. discriminate.
  - split; auto. rewrite A, Ra, Rt. unfold denoted. fold (len F). cbn [positional]. change (10 ^ 0) with 1. rewrite Rmult_1_r.
    destruct neg; auto. rewrite drnd_opp. auto.
Qed.

Lemma nearest_scaled : forall pow s neg I E, len s <= INT_MAX ->
  (forall k, 0 <= k <= 22 -> pow (double_of_Z 10) (double_of_Z k) = double_of_Z (10 ^ k)) ->
  dec_literal s neg I [] false E -> positional 10 I <= 2 ^ 53 -> positional 10 E <= 22 ->
  exists x, str_to_decimal pow s = Ok x /\ nearest x (denoted neg I [] false E).
Proof.
  intros pow s neg I E L P D H LE. pose proof (literal_digits _ _ _ _ _ _ D) as (DI & DE). rewrite app_nil_r in DI.
  pose proof (positional_nn _ DI) as NN. pose proof (positional_nn _ DE) as NE.
  rewrite (to_decimal_value pow s neg I [] false E) by (auto; unfold INT_MAX; lia).
  unfold computed, denoted. fold (len (@nil Z)). rewrite app_nil_r, len_nil. rewrite accumulated_exact by auto. rewrite (P 0) by lia. change (10 ^ 0) with 1.
  rewrite div_1_r. rewrite (pm_mul false). cbn [signed]. rewrite P by lia. rewrite pm_mul.
  destruct (of_int_exact (positional 10 I)) as (Ra & Fa); [lia|]. destruct (ten_exact (positional 10 E)) as (Rt & Ft & _); [lia|].
  eexists. split; [reflexivity|]. unfold nearest. rewrite finite_signed, B2R_signed.
  assert (0 <= 10 ^ positional 10 E <= 10 ^ 22) as T2 by (split; [apply Z.pow_nonneg; lia|apply Z.pow_le_mono_r; lia]).
  destruct (mul_ok (double_of_Z (positional 10 I)) (double_of_Z (10 ^ positional 10 E))) as (A & B & _); auto.
  - rewrite Ra, Rt. rewrite <- mult_IZR. apply (range_mono _ (2 ^ 53 * 10 ^ 22)).
    + rewrite <- abs_IZR. apply IZR_le. rewrite Z.abs_eq by nia. apply Z.mul_le_mono_nonneg; lia.
    + apply b1000. vm_compute. discriminate.
  - split; auto. rewrite A, Ra, Rt. rewrite Rdiv_1_r || (unfold Rdiv; rewrite Rinv_1, Rmult_1_r).
    destruct neg; auto. rewrite drnd_opp. auto.
Qed.

(** ** NaN *)

Definition zero_e400 : text := list_ascii_of_string "0e400".
Lemma zero_e400_literal : dec_literal zero_e400 false [0] [] false [4; 0; 0].
Proof.
  exists [], [], ["0"%char], (list_ascii_of_string "e400"), []. split; auto. split; auto. split; auto. split; [left; auto|]. split.
  - left. split; [discriminate|]. split; auto. constructor; [|constructor]. split; [lia|]. left. split; [lia|reflexivity].
  - right. split; [discriminate|]. exists "e"%char, [], (list_ascii_of_string "400"). split; auto. split; auto. split; [left; auto|].
    repeat constructor; try (left; split; [lia|reflexivity]); cbn; lia.
Qed.

#[local] Transparent double_of_Z dadd dmul ddiv.
Lemma nan_witness : forall pow, pow (double_of_Z 10) (double_of_Z 0) = double_of_Z 1 ->
  pow (double_of_Z 10) (double_of_Z 400) = B754_infinity false -> str_to_decimal pow zero_e400 = Ok B754_nan.
Proof.
  intros pow P0 P4. assert (len zero_e400 <= INT_MAX) as L by (vm_compute; discriminate).
  assert (positional 10 [4; 0; 0] <= INT_MAX) as B by (vm_compute; discriminate).
  rewrite (to_decimal_value pow zero_e400 _ _ _ _ _ L zero_e400_literal B). f_equal. unfold computed. fold (len (@nil Z)). rewrite !pm_mul. cbn [signed]. change (positional 10 [4; 0; 0]) with 400. rewrite P4, len_nil, P0, div_1_r.
  vm_compute. reflexivity.
Qed.
