(** The decimal text of [z] is the unique usual notation denoting [z]. *)
From Coq Require Import ZArith List Bool Ascii String Lia DecimalString DecimalFacts DecimalPos DecimalN DecimalZ.
From Coq Require Decimal.
From Verif Require Import Outcome IntModel IntSpec IntBase IntIO Show.
Import ListNotations.
Open Scope Z_scope.

Lemma dec_of_lower : forall s acc z, 0 <= acc -> dec_of acc s = Some z ->
  acc * p10 (List.length s) <= z < (acc + 1) * p10 (List.length s).
Proof.
  induction s; intros acc z Ha H; cbn [dec_of List.length] in *.
  - inversion H; subst. rewrite p10_0. lia.
  - destruct (digit_of a) eqn:E; [|discriminate]. apply digit_of_range in E.
    apply IHs in H; [|lia]. rewrite p10_S. pose proof (p10_pos (List.length s)). nia.
Qed.

Lemma code_inj : forall a b, code a = code b -> a = b.
Proof.
  unfold code. intros a b H. apply N2Z.inj in H.
  rewrite <- (ascii_N_embedding a), H, ascii_N_embedding. auto.
Qed.

Lemma digit_of_inj : forall a b d, digit_of a = Some d -> digit_of b = Some d -> a = b.
Proof.
  intros a b d Ha Hb. rewrite digit_of_spec in *.
  destruct (is_digit_char a); [|discriminate]. destruct (is_digit_char b); [|discriminate].
  inversion Ha. inversion Hb. apply code_inj. lia.
Qed.

Lemma dec_of_inj : forall s t acc z, List.length s = List.length t -> 0 <= acc ->
  dec_of acc s = Some z -> dec_of acc t = Some z -> s = t.
Proof.
  induction s; destruct t; intros acc z L Ha Hs Ht; cbn [dec_of List.length] in *; auto; try lia.
  destruct (digit_of a) eqn:Ea; [|discriminate]. destruct (digit_of a0) eqn:Eb; [|discriminate].
  pose proof (digit_of_range _ _ Ea). pose proof (digit_of_range _ _ Eb).
  pose proof (dec_of_lower s (10 * acc + z0) _ ltac:(lia) Hs) as Bs.
  pose proof (dec_of_lower t (10 * acc + z1) _ ltac:(lia) Ht) as Bt.
  assert (L': List.length s = List.length t) by lia. rewrite L' in Bs.
  pose proof (p10_pos (List.length t)).
  assert (z0 = z1) by nia. subst z1.
  f_equal; [eapply digit_of_inj; eauto|]. eapply IHs; [..|exact Hs|exact Ht]; auto; lia.
Qed.

Lemma dec_of_len : forall c s d z, digit_of c = Some d -> d <> 0 -> dec_of 0 (c :: s) = Some z ->
  p10 (List.length s) <= z < p10 (S (List.length s)).
Proof.
  intros c s d z Hc Hd H. cbn [dec_of] in H. rewrite Hc in H. pose proof (digit_of_range _ _ Hc).
  apply dec_of_lower in H; [|lia]. rewrite p10_S. pose proof (p10_pos (List.length s)). nia.
Qed.

Lemma dec_of_usual_inj : forall c s d c' s' d' z, digit_of c = Some d -> d <> 0 ->
  digit_of c' = Some d' -> d' <> 0 ->
  dec_of 0 (c :: s) = Some z -> dec_of 0 (c' :: s') = Some z -> c :: s = c' :: s'.
Proof.
  intros c s d c' s' d' z Hc Hd Hc' Hd' H H'.
  pose proof (dec_of_len _ _ _ _ Hc Hd H) as B. pose proof (dec_of_len _ _ _ _ Hc' Hd' H') as B'.
  assert (List.length s = List.length s').
  { destruct (Nat.lt_trichotomy (List.length s) (List.length s')) as [L|[L|L]]; auto; exfalso.
    - pose proof (p10_le (S (List.length s)) (List.length s') ltac:(lia)). lia.
    - pose proof (p10_le (S (List.length s')) (List.length s) ltac:(lia)). lia. }
  eapply dec_of_inj; [..|exact H|exact H']; simpl; lia.
Qed.

Lemma literal_of_digits : forall c d s, digit_of c = Some d -> literal (c :: s) = dec_of 0 (c :: s).
Proof.
  intros c d s H. apply literal_digits. rewrite digit_of_spec in H.
  unfold is_digit_char, is_sign_char in *.
  destruct (Z.leb_spec 48 (code c)); [|discriminate].
  destruct (Z.eqb_spec (code c) 43); destruct (Z.eqb_spec (code c) 45); auto; lia.
Qed.

Lemma usual_unique : forall s t z, usual_notation s -> usual_notation t ->
  literal s = Some z -> literal t = Some z -> s = t.
Proof.
  assert (Z0: forall c s d z, digit_of c = Some d -> d <> 0 -> dec_of 0 (c :: s) = Some z -> 0 < z).
  { intros c s d z Hc Hd H. pose proof (dec_of_len _ _ _ _ Hc Hd H). pose proof (p10_pos (List.length s)). lia. }
  assert (M: forall c s z, literal ("-"%char :: c :: s) = Some z -> dec_of 0 (c :: s) = Some (- z)).
  { intros c s z H. unfold literal in H. destruct (dec_of 0 (c :: s)); inversion H. f_equal; lia. }
  intros s t z Hs Ht Ls Lt.
  destruct Hs as [->|(c & ds & [->| ->] & (d & Hc & Hd) & _)];
  destruct Ht as [->|(c' & ds' & [->| ->] & (d' & Hc' & Hd') & _)]; auto;
  try (apply M in Ls); try (apply M in Lt);
  try rewrite (literal_of_digits _ _ _ Hc) in Ls; try rewrite (literal_of_digits _ _ _ Hc') in Lt;
  try (inversion Ls; fail);
  try match goal with H : digit_of ?c = Some _, L : dec_of 0 (?c :: _) = Some _ |- _ =>
        pose proof (Z0 _ _ _ _ H ltac:(assumption) L) end;
  try match goal with H : literal ["0"%char] = Some _ |- _ => vm_compute in H; injection H as <-; simpl in *; lia end.
  - eapply dec_of_usual_inj; [exact Hc|auto|exact Hc'|auto|exact Ls|exact Lt].
  - pose proof (Z0 _ _ _ _ Hc Hd Ls). pose proof (Z0 _ _ _ _ Hc' Hd' Lt). lia.
  - pose proof (Z0 _ _ _ _ Hc Hd Ls). pose proof (Z0 _ _ _ _ Hc' Hd' Lt). lia.
  - f_equal. eapply dec_of_usual_inj; [exact Hc|auto|exact Hc'|auto|exact Ls|exact Lt].
Qed.

(** *** Coq's printer *)

Fixpoint uval (acc : Z) (u : Decimal.uint) : Z :=
  match u with
  | Decimal.Nil => acc
  | Decimal.D0 u => uval (10 * acc + 0) u | Decimal.D1 u => uval (10 * acc + 1) u
  | Decimal.D2 u => uval (10 * acc + 2) u | Decimal.D3 u => uval (10 * acc + 3) u
  | Decimal.D4 u => uval (10 * acc + 4) u | Decimal.D5 u => uval (10 * acc + 5) u
  | Decimal.D6 u => uval (10 * acc + 6) u | Decimal.D7 u => uval (10 * acc + 7) u
  | Decimal.D8 u => uval (10 * acc + 8) u | Decimal.D9 u => uval (10 * acc + 9) u
  end.

Lemma dec_of_uint : forall u acc,
  dec_of acc (list_ascii_of_string (NilEmpty.string_of_uint u)) = Some (uval acc u).
Proof.
  induction u; intros acc; cbn [NilEmpty.string_of_uint list_ascii_of_string dec_of uval]; auto;
  unfold digit_of; apply IHu.
Qed.

Lemma uval_acc : forall u p, uval (Z.pos p) u = Z.pos (Pos.of_uint_acc u p).
Proof.
  induction u; intros; cbn [uval Pos.of_uint_acc]; auto; rewrite <- IHu; f_equal; lia.
Qed.

Lemma uval_of : forall u, uval 0 u = Z.of_uint u.
Proof.
  unfold Z.of_uint. induction u; cbn [uval Pos.of_uint]; auto;
  try (simpl (10 * 0 + _); rewrite uval_acc; reflexivity).
Qed.

Lemma digits_of_uint : forall u,
  Forall (fun c => digit_of c <> None) (list_ascii_of_string (NilEmpty.string_of_uint u)).
Proof.
  induction u; cbn [NilEmpty.string_of_uint list_ascii_of_string]; constructor; auto; discriminate.
Qed.

Lemma usual_uint : forall u, u = Decimal.unorm u -> u <> Decimal.D0 Decimal.Nil ->
  exists c ds, list_ascii_of_string (NilZero.string_of_uint u) = c :: ds /\
    (exists d, digit_of c = Some d /\ d <> 0) /\ Forall (fun c => digit_of c <> None) ds /\
    dec_of 0 (c :: ds) = Some (Z.of_uint u).
Proof.
  intros u Hu H0. assert (U: u <> Decimal.Nil) by (intros ->; discriminate).
  assert (E: NilZero.string_of_uint u = NilEmpty.string_of_uint u) by (destruct u; auto; congruence).
  rewrite E. pose proof (dec_of_uint u 0) as D. rewrite uval_of in D.
  pose proof (digits_of_uint u) as F.
  destruct u; cbn [NilEmpty.string_of_uint list_ascii_of_string] in *; try congruence;
  [exfalso|..]; try (do 2 eexists; split; [reflexivity|]; split; [eexists; split; [reflexivity|discriminate]|];
    split; [inversion F; auto|exact D]).
  (* D0 u cannot be normal unless u is Nil *)
  revert Hu H0. clear. unfold Decimal.unorm. cbn [Decimal.nzhead].
  intros Hu H0. destruct (Decimal.nzhead u) eqn:N; try discriminate.
  - congruence.
  - pose proof (nzhead_nonzero u) as K. apply (K u0). auto.
Qed.

Lemma show_int_spec : forall z, literal (show_int z) = Some z /\ usual_notation (show_int z).
Proof.
  intros z. unfold show_int.
  pose proof (DecimalZ.of_to z) as OT. pose proof (DecimalZ.to_of (Z.to_int z)) as TO.
  rewrite OT in TO. destruct (Z.to_int z) as [u|u] eqn:E; cbn [NilZero.string_of_int].
  - cbn [Decimal.norm] in TO. injection TO as TO.
    destruct (Decimal.uint_eq_dec u (Decimal.D0 Decimal.Nil)) as [->|N].
    + cbn in OT. subst z. split; [reflexivity|left; reflexivity].
    + destruct (usual_uint u TO N) as (c & ds & Es & (d & Hc & Hd) & F & D).
      rewrite Es. split.
      * rewrite (literal_of_digits _ _ _ Hc), D. f_equal. exact OT.
      * right. exists c, ds. split; [auto|]. split; [exists d; auto|auto].
  - assert (U: u = Decimal.nzhead u /\ u <> Decimal.Nil).
    { cbn [Decimal.norm] in TO. destruct (Decimal.nzhead u) eqn:K; try discriminate;
        injection TO as TO; rewrite TO; split; auto; discriminate. }
    destruct U as (U & UN).
    assert (TU: u = Decimal.unorm u) by (unfold Decimal.unorm; rewrite <- U; destruct u; congruence).
    assert (N: u <> Decimal.D0 Decimal.Nil) by (intros ->; discriminate).
    destruct (usual_uint u TU N) as (c & ds & Es & (d & Hc & Hd) & F & D).
    cbn [list_ascii_of_string]. rewrite Es. split.
    + cbn [literal]. rewrite D. cbn [option_map]. f_equal. exact OT.
    + right. exists c, ds. split; [auto|]. split; [exists d; auto|auto].
Qed.

Lemma show_int_unique : forall s z, usual_notation s -> literal s = Some z -> s = show_int z.
Proof. intros s z U L. destruct (show_int_spec z). eapply usual_unique; eauto. Qed.

Lemma int_print_show : forall x z, repr x z -> int_print x = show_int z.
Proof.
  intros x z H. apply show_int_unique.
  - eapply int_print_usual; eauto.
  - apply int_print_literal; auto.
Qed.
