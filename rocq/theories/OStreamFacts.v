(** Printing to streams with formatting state. *)
From Coq Require Import String Ascii ZArith List Bool Lia.
From Verif Require Import Outcome Show ShowFacts IntModel IntSpec IntBase IntIO IntMore FracModel FracSpec ListModel ListSpec ListMore
  DequeModel SetModel DictModel StrModel TupleModel OStreamModel PrintSpec OStreamSpec PrintFacts ExTools.
Import ListNotations.
Open Scope Z_scope.

Lemma aligned_0 : forall os s, width os = 0 -> aligned os s = s.
Proof.
  intros os s W. unfold aligned. rewrite W. replace (Z.to_nat (0 - Z.of_nat (length s))) with 0%nat by lia.
  cbn [repeat app]. rewrite app_nil_r. destruct (adjust os); auto. destruct s as [|c [|d s]]; auto.
  destruct (Ascii.eqb c "-"); auto.
Qed.
Lemma appended_twice : forall s t a b os, appended s a (appended t b os) = appended (t ++ s) (b || a) os.
Proof. intros s t a b os. unfold appended. cbn. rewrite app_assoc. destruct a, b; auto. Qed.
Lemma appended_decimal : forall s b os, decimal os -> decimal (appended s b os).
Proof. intros s b os D. exact D. Qed.

Lemma put_text_0 : forall s os, width os = 0 -> put_text s os = appended s false os.
Proof.
  intros s os W. unfold put_text, filler, appended, emit. rewrite W. replace (Z.to_nat (0 - Z.of_nat (length s))) with 0%nat by lia.
  cbn [repeat app]. rewrite app_nil_r. destruct (adjust os); auto.
Qed.
Lemma put_char : forall c os, put_text [c] os = appended (aligned os [c]) false os.
Proof.
  intros c os. unfold put_text, filler, appended, emit, aligned. destruct (adjust os); auto.
Qed.

Lemma show_neg : forall z, z < 0 -> show_int z = "-"%char :: show_int (- z).
Proof. intros z H. destruct z; try lia. reflexivity. Qed.
Lemma show_nonneg : forall z, 0 <= z -> forall c r, show_int z = c :: r -> Ascii.eqb c "-"%char = false.
Proof.
  intros z H c r. unfold show_int. destruct z; [|destruct (Pos.to_uint p) eqn:E|lia].
  all: cbn [Z.to_int DecimalString.NilZero.string_of_int]; rewrite ?E; cbn; intros X; injection X as <- _; reflexivity.
Qed.
Lemma show_nonnil : forall z, show_int z <> [].
Proof. intros z. apply show_plain. Qed.

Lemma put_int_decimal : forall z os, decimal os -> put_int z os = appended (aligned os (show_int z)) false os.
Proof.
  intros z os (B & S). unfold put_int, number, filler, emit, appended, aligned. rewrite B, S.
  destruct (Z.ltb_spec z 0).
  - rewrite (show_neg z) by auto. cbn [app]. destruct (adjust os); auto. pose proof (show_nonnil (- z)).
    destruct (show_int (- z)) eqn:E; [contradiction|]. reflexivity.
  - cbn [app]. destruct (adjust os); auto. destruct (show_int z) as [|c r] eqn:E; auto.
    pose proof (show_nonneg z H c r E) as N. destruct r; auto. rewrite N. auto.
Qed.
Lemma put_int_0 : forall z os, decimal os -> width os = 0 -> put_int z os = appended (show_int z) false os.
Proof. intros z os D W. rewrite put_int_decimal, aligned_0; auto. Qed.

(** [put] writes [show x], whose first [k x] characters are padded as a unit. *)
Definition writes {T} (put : T -> ostream -> ostream) (show : T -> list ascii) (wide : T -> bool) (k : T -> nat) (P : T -> Prop) : Prop :=
  forall x os, P x -> decimal os ->
  put x os = appended (aligned os (firstn (k x) (show x)) ++ skipn (k x) (show x)) (wide x) os.

Lemma writes_0 : forall T put show wide k (P : T -> Prop), writes put show wide k P ->
  forall x os, P x -> decimal os -> width os = 0 -> put x os = appended (show x) (wide x) os.
Proof. intros T put show wide k P W x os Px D Z0. rewrite (W x os); auto. rewrite aligned_0, firstn_skipn; auto. Qed.

Lemma machine_writes : writes put_int show_int (fun _ => false) (fun z => length (show_int z)) (fun _ => True).
Proof. intros z os _ D. rewrite firstn_all, skipn_all, app_nil_r. apply put_int_decimal; auto. Qed.

Lemma fraction_writes : writes frac_put frac_print (fun _ => false) (fun f => length (show_int (num f))) (fun _ => True).
Proof.
  intros f os _ D. unfold frac_put, frac_print. destruct (den f =? 1).
  - rewrite firstn_all, skipn_all, app_nil_r. apply put_int_decimal; auto.
  - rewrite (put_int_decimal (num f) os D).
    rewrite put_text_0 by reflexivity. rewrite put_int_0; [|exact D|reflexivity]. rewrite !appended_twice. cbn [orb].
    f_equal. rewrite firstn_app, skipn_app, Nat.sub_diag, firstn_all, skipn_all. cbn [firstn skipn app].
    rewrite !app_nil_r. rewrite <- ?app_assoc. reflexivity.
Qed.

Lemma str_writes : writes str_put str_print (fun _ => false) (fun _ => 1%nat) (fun _ => True).
Proof.
  intros s os _ D. unfold str_put, str_print. rewrite (put_char _ os). cbn [firstn skipn].
  assert (F: forall s os, width os = 0 -> fold_left (fun os c => put_text [c] os) s os = OStream (written os ++ s) 0 (fill os) (adjust os) (base os) (showpos os)).
  { clear. induction s as [|c s]; intros os W; cbn [fold_left].
    - rewrite app_nil_r, <- W. destruct os; auto.
    - rewrite put_text_0 by auto. rewrite IHs by reflexivity. unfold appended. cbn. rewrite <- app_assoc. auto. }
  rewrite F by reflexivity. rewrite put_text_0 by reflexivity. unfold appended. cbn. rewrite <- !app_assoc. reflexivity.
Qed.

Lemma show_digit : forall d, digit d -> show_int d = [digit_char d].
Proof.
  intros d D. unfold digit in D. assert (H: d = 0 \/ d = 1 \/ d = 2 \/ d = 3 \/ d = 4 \/ d = 5 \/ d = 6 \/ d = 7 \/ d = 8 \/ d = 9) by lia.
  repeat (destruct H as [-> |H]; [reflexivity|]). subst. reflexivity.
Qed.

Lemma digits_written : forall cs os, Forall digit cs -> width os = 0 ->
  fold_left (fun os c => put_text (show_int c) (setfill "0"%char (setw DIGITS_PER_CHUNK os))) cs os =
  appended (map digit_char cs) (negb (match cs with [] => true | _ => false end)) os.
Proof.
  induction cs as [|c cs]; intros os F W.
  - cbn. unfold appended. rewrite app_nil_r, <- W. destruct os; auto.
  - inversion F; subst. cbn [fold_left]. rewrite show_digit by auto. rewrite put_char. unfold aligned. cbn [setfill setw width fill adjust].
    change (Z.to_nat (DIGITS_PER_CHUNK - Z.of_nat (length [digit_char c]))) with 0%nat. cbn [repeat app].
    rewrite IHcs; auto. unfold appended. cbn. rewrite <- app_assoc. cbn. 
    destruct (adjust os), cs; reflexivity.
Qed.

Lemma wide_length : forall x, canonical x -> (10 <=? Z.abs (value x)) = (1 <? Z.of_nat (length (chunks x))).
Proof.
  intros x C. rewrite <- canonical_abs by auto. destruct C as (F & L & _ & _). set (l := chunks x) in *.
  destruct (Nat.le_gt_cases (length l) 1) as [H|H].
  - pose proof (val_lt l F). assert (p10 (length l) <= p10 1) by (apply p10_le; auto). change (p10 1) with 10 in *.
    destruct (Z.leb_spec 10 (val l)); destruct (Z.ltb_spec 1 (Z.of_nat (length l))); lia.
  - assert (N: l <> []) by (destruct l; [cbn in H; lia|discriminate]). pose proof (val_ge l F N L).
    assert (p10 1 <= p10 (length l - 1)) by (apply p10_le; lia). change (p10 1) with 10 in *.
    destruct (Z.leb_spec 10 (val l)); destruct (Z.ltb_spec 1 (Z.of_nat (length l))); lia.
Qed.

Lemma int_writes : writes int_put int_print (wide TInt) (fun _ => 1%nat) canonical.
Proof.
  intros x os C D. cbn [wide]. rewrite wide_length by auto. unfold int_put, int_print.
  destruct C as (F & L & SG & Z0). destruct (Z.eqb_spec (sign x) 0) as [E|E].
  - cbn [firstn skipn]. rewrite put_char, app_nil_r. apply Z0 in E. rewrite E. reflexivity.
  - assert (N: chunks x <> []) by tauto. destruct (rev (chunks x)) as [|c cs] eqn:R.
    { apply (f_equal (@rev Z)) in R. rewrite rev_involutive in R. contradiction. }
    assert (FR: Forall digit (c :: cs)) by (rewrite <- R; apply Forall_rev; auto). inversion FR; subst.
    assert (LN: length (chunks x) = S (length cs)) by (rewrite <- rev_length, R; reflexivity).
    assert (W: negb (match cs with [] => true | _ => false end) = (1 <? Z.of_nat (length (chunks x)))).
    { rewrite LN. destruct cs; [reflexivity|]. symmetry. apply Z.ltb_lt. cbn [length]. lia. }
    rewrite <- W. cbn [map]. destruct (Z.eqb_spec (sign x) (-1)).
    + rewrite put_char. rewrite put_int_0; [|exact D|reflexivity]. rewrite digits_written by auto.
      rewrite !appended_twice. rewrite show_digit by auto. cbn [firstn skipn app orb]. rewrite <- ?app_assoc. reflexivity.
    + rewrite put_int_decimal by auto. rewrite digits_written by auto. rewrite appended_twice, show_digit by auto.
      reflexivity.
Qed.

Lemma pair_writes : forall K V (pk : K -> ostream -> ostream) (pv : V -> ostream -> ostream) sk sv wk wv kk kv P Q,
  writes pk sk wk kk P -> writes pv sv wv kv Q ->
  forall p os, P (fst p) /\ Q (snd p) -> decimal os -> width os = 0 ->
  put_pair pk pv p os = appended (show_pair sk sv p) (wk (fst p) || wv (snd p)) os.
Proof.
  intros K V pk pv sk sv wk wv kk kv P Q W1 W2 p os (H1 & H2) D Z0. unfold put_pair, show_pair.
  rewrite (writes_0 _ _ _ _ _ _ W1); auto. rewrite put_text_0 by reflexivity.
  rewrite (writes_0 _ _ _ _ _ _ W2); [|auto|exact D|reflexivity]. rewrite !appended_twice. f_equal.
  all: rewrite <- ?app_assoc; reflexivity.
Qed.

Lemma range_writes : forall T (put : T -> ostream -> ostream) show wide (P : T -> Prop) open close,
  (forall x os, P x -> decimal os -> width os = 0 -> put x os = appended (show x) (wide x) os) ->
  writes (fun l => put_range put l open close) (fun l => print_range show l open close) (existsb wide) (fun _ => 1%nat) (Forall P).
Proof.
  intros T put show wide P open close H l os F D. rewrite print_spec. cbn [firstn skipn].
  assert (G: forall rest it os, Forall P (it :: rest) -> decimal os -> width os = 0 ->
    put_loop put it rest close os = appended (commas (map show (it :: rest)) ++ [close]) (existsb wide (it :: rest)) os).
  { induction rest as [|x rest]; intros it os' F' D' Z0; inversion F'; subst.
    - cbn [put_loop]. rewrite H by auto. rewrite put_text_0 by reflexivity. rewrite appended_twice. cbn [map commas existsb]. reflexivity.
    - cbn [put_loop]. rewrite H by auto. rewrite put_text_0 by reflexivity. rewrite IHrest; [|auto|exact D'|reflexivity].
      rewrite !appended_twice.
      change (map show (it :: x :: rest)) with (show it :: map show (x :: rest)). cbn [commas existsb orb]. cbn [map]. rewrite <- ?app_assoc, ?orb_false_r. reflexivity. }
  destruct l as [|x l]; cbn [put_range].
  - rewrite (put_char open os), put_text_0 by reflexivity. rewrite appended_twice. reflexivity.
  - rewrite put_char. rewrite G; [|auto|exact D|reflexivity]. rewrite appended_twice. reflexivity.
Qed.

Lemma writes_weaken : forall T put show wide k (P Q : T -> Prop), (forall x, Q x -> P x) -> writes put show wide k P -> writes put show wide k Q.
Proof. intros T put show wide k P Q W H x os Qx. apply H. auto. Qed.

Lemma put_writes : forall t, writes (put t) (text t) (wide t) (lead_length t) (held t).
Proof.
  induction t; cbn [put text held lead_length].
  - apply machine_writes.
  - apply int_writes.
  - intros f os _. apply fraction_writes. exact I.
  - apply str_writes.
  - apply range_writes. apply (writes_0 _ _ _ _ _ _ IHt).
  - apply range_writes. apply (writes_0 _ _ _ _ _ _ IHt).
  - apply range_writes. apply (writes_0 _ _ _ _ _ _ IHt).
  - apply (range_writes _ _ (show_pair (text t1) (text t2)) (fun p => wide t1 (fst p) || wide t2 (snd p)) (fun p => held t1 (fst p) /\ held t2 (snd p))).
    eapply pair_writes; eauto.
Qed.

Lemma put_padded : forall t x os, held t x -> decimal os ->
  put t x os = appended (aligned os (firstn (lead_length t x) (text t x)) ++ skipn (lead_length t x) (text t x)) (wide t x) os.
Proof. intros t x os. apply put_writes. Qed.

Lemma put_default : forall t x os, held t x -> decimal os -> width os = 0 -> put t x os = appended (text t x) (wide t x) os.
Proof. intros t. apply (writes_0 _ _ _ _ _ _ (put_writes t)). Qed.

Lemma put_many : forall l os, Forall (fun a => held (projT1 a) (projT2 a)) l -> decimal os -> width os = 0 ->
  put_all l os = appended (flat_map (fun a => text (projT1 a) (projT2 a)) l) (existsb (fun a => wide (projT1 a) (projT2 a)) l) os.
Proof.
  induction l as [|[t x] l]; intros os F D W.
  - cbn. unfold appended. rewrite app_nil_r, <- W. destruct os; auto.
  - inversion F; subst. cbn [put_all flat_map existsb projT1 projT2] in *. rewrite put_default by auto.
    rewrite IHl; [|auto|exact D|reflexivity]. rewrite appended_twice. auto.
Qed.

Lemma put_tuple : forall us (t : tuple thing us) os, each held t -> decimal os -> width os = 0 ->
  tuple_put put t os = appended (tuple_print text t) (any wide t) os.
Proof.
  assert (G: forall us (t : tuple thing us) os, each held t -> decimal os -> width os = 0 ->
    put_rest put t os = appended (print_rest text t) (any wide t) os).
  { intros us t. induction t as [|u us x t]; intros os H D W; cbn [put_rest print_rest any].
    - unfold appended. rewrite app_nil_r, <- W. destruct os; auto.
    - cbn [each] in H. destruct H. rewrite put_default by auto. rewrite put_text_0 by reflexivity.
      rewrite IHt; [|auto|exact D|reflexivity]. rewrite !appended_twice. rewrite <- ?app_assoc, ?orb_false_r. cbn [orb].
      destruct (tuple_size (TCons x t) =? 1); reflexivity. }
  intros [|u us] t os H D W.
  - rewrite (nil_inv _ _ t) in *. cbn. rewrite (put_text_0 _ os) by auto. rewrite put_text_0 by reflexivity. rewrite appended_twice. reflexivity.
  - destruct (cons_inv _ _ _ _ t) as (x & t' & ->). destruct us as [|v us].
    + rewrite (nil_inv _ _ t') in *. cbn [each] in H. destruct H. cbn [tuple_put any]. rewrite (put_text_0 ["("%char]) by auto.
      rewrite put_default; [|auto|exact D|reflexivity]. rewrite put_text_0 by reflexivity. rewrite !appended_twice. cbn [orb]. rewrite <- ?app_assoc, ?orb_false_r. auto.
    + destruct (cons_inv _ _ _ _ t') as (y & t'' & ->).
      change (tuple_put put (TCons x (TCons y t'')) os) with (put_text [")"%char] (put_rest put (TCons x (TCons y t'')) (put_text ["("%char] os))).
      change (tuple_print text (TCons x (TCons y t''))) with ("("%char :: print_rest text (TCons x (TCons y t'')) ++ [")"%char]).
      rewrite (put_text_0 ["("%char]) by auto. rewrite G; [|auto|exact D|reflexivity]. rewrite put_text_0 by reflexivity.
      rewrite !appended_twice. cbn [orb]. rewrite <- ?app_assoc, ?orb_false_r. auto.
Qed.

(** ** Witnesses *)
Definition plain : ostream := OStream [] 0 " "%char SRight Dec false.

Lemma fill_kept : forall t x os, held t x -> decimal os -> (fill (put t x os) = fill os <-> wide t x = false \/ fill os = "0"%char).
Proof.
  intros t x os H D. rewrite put_padded by auto. cbn. destruct (wide t x); split; auto; intros [E|E]; try discriminate; auto.
Qed.
Lemma canonical_check : forall x, canonicalb x = true -> canonical x.
Proof. intros x C. apply (repr_canonical _ (value x)). apply repr_check; auto. Qed.
Lemma fill_leaks : exists x os, held TInt x /\ decimal os /\ width os = 0 /\ fill (put TInt x os) <> fill os /\
  written (put TMachine 7 (setw 3 os)) = chars "  7" /\
  written (put TMachine 7 (setw 3 (put TInt x os))) = chars "12007".
Proof.
  exists (MkInt 1 [2; 1]), plain. split; [apply canonical_check; reflexivity|]. split; [split; reflexivity|]. split; [reflexivity|].
  split; [discriminate|]. split; vm_compute; reflexivity.
Qed.
Lemma rest_kept : forall t x os, held t x -> decimal os ->
  width (put t x os) = 0 /\ adjust (put t x os) = adjust os /\ base (put t x os) = base os /\ showpos (put t x os) = showpos os.
Proof. intros t x os H D. rewrite put_padded by auto. auto. Qed.

Lemma width_partial : exists x os, held TInt x /\ decimal os /\
  written (put TInt x os) <> written os ++ aligned os (text TInt x) /\ written (put TInt x os) = chars "   -5" /\ width os = 4 /\ written os = [] /\
  written (put (TList TMachine) [1; 2] os) = chars "   [1, 2]".
Proof.
  exists (MkInt (-1) [5]), (setw 4 plain). split; [apply canonical_check; reflexivity|]. split; [split; reflexivity|]. split; [discriminate|].
  vm_compute. auto.
Qed.
Lemma width_whole : forall t x os, held t x -> decimal os -> (lead_length t x >= length (text t x))%nat ->
  put t x os = appended (aligned os (text t x)) (wide t x) os.
Proof. intros t x os H D L. rewrite put_padded by auto. rewrite firstn_all2, skipn_all2, app_nil_r by lia. auto. Qed.

Lemma int_base : forall x os, canonical x -> width os = 0 -> base os <> Dec ->
  exists sg d r, int_print x = sg ++ d :: r /\ (sg = [] \/ sg = ["-"%char]) /\ digit_of d <> None /\
  written (int_put x os) = written os ++ sg ++
    (match base os, d with Oct, "8"%char => chars "10" | Oct, "9"%char => chars "11" | _, _ => [d] end) ++ r.
Proof.
  intros x os C W B. unfold int_put, int_print. destruct C as (F & L & SG & Z0). destruct (Z.eqb_spec (sign x) 0) as [E|E].
  - exists [], "0"%char, []. split; auto. split; auto. split; [discriminate|]. rewrite put_text_0 by auto. cbn. destruct (base os); auto.
  - assert (N: chunks x <> []) by tauto. destruct (rev (chunks x)) as [|c cs] eqn:R.
    { apply (f_equal (@rev Z)) in R. rewrite rev_involutive in R. contradiction. }
    assert (FR: Forall digit (c :: cs)) by (rewrite <- R; apply Forall_rev; auto). inversion FR; subst.
    exists (if sign x =? -1 then ["-"%char] else []), (digit_char c), (map digit_char cs). split; [reflexivity|].
    split; [destruct (sign x =? -1); auto|].
    assert (H: c = 0 \/ c = 1 \/ c = 2 \/ c = 3 \/ c = 4 \/ c = 5 \/ c = 6 \/ c = 7 \/ c = 8 \/ c = 9) by (unfold digit in *; lia).
    split. { repeat (destruct H as [-> |H]; [discriminate|]). subst. discriminate. }
    assert (G: forall os, width os = 0 -> base os <> Dec -> put_int c os = emit (match base os, digit_char c with Oct, "8"%char => chars "10" | Oct, "9"%char => chars "11" | _, _ => [digit_char c] end) os).
    { clear - H. intros os W B. unfold put_int, number, filler. rewrite W. destruct (base os); [contradiction| |];
      (repeat (destruct H as [-> |H]; [destruct (adjust os); reflexivity|])); subst; destruct (adjust os); reflexivity. }
    destruct (Z.eqb_spec (sign x) (-1)).
    + rewrite (put_text_0 _ os) by auto. rewrite G; [|reflexivity|exact B]. rewrite digits_written; [|auto|reflexivity].
      cbn [appended emit written base]. rewrite <- !app_assoc. reflexivity.
    + rewrite G by auto. rewrite digits_written; [|auto|reflexivity].
      cbn [appended emit written base app]. rewrite <- !app_assoc. reflexivity.
Qed.
Lemma base_ignored : exists x os y, repr x 10 /\ base os = Hex /\ width os = 0 /\
  written (put TMachine 10 os) = chars "a" /\ written (put TInt x os) = chars "10" /\
  repr y 80 /\ written (put TMachine 80 (OStream [] 0 " "%char SRight Oct false)) = chars "120" /\
  written (put TInt y (OStream [] 0 " "%char SRight Oct false)) = chars "100" /\
  written (put TFraction (Frac (-1) 2) os) = chars "ffffffff/2".
Proof.
  exists (MkInt 1 [0; 1]), (OStream [] 0 " "%char SRight Hex false), (MkInt 1 [0; 8]).
  split; [apply repr_check; reflexivity|]. repeat (split; [reflexivity|]). split; [apply repr_check; reflexivity|]. vm_compute. auto.
Qed.

(** ** showpos *)
Lemma put_int_plus : forall z os, plussed os -> width os = 0 -> put_int z os = appended (plus_int z) false os.
Proof.
  intros z os (B & S) W. unfold put_int, number, filler, emit, appended, plus_int. rewrite B, S, W.
  destruct (Z.ltb_spec z 0).
  - rewrite (show_neg z) by auto. replace (Z.to_nat (0 - _)) with 0%nat by lia. cbn [app repeat]. rewrite ?app_nil_r. destruct (adjust os); auto.
  - replace (Z.to_nat (0 - _)) with 0%nat by lia. cbn [app repeat]. rewrite ?app_nil_r. destruct (adjust os); auto.
Qed.
Lemma int_plus : forall x os, canonical x -> plussed os -> width os = 0 -> int_put x os = appended (plus_text TInt x) (wide TInt x) os.
Proof.
  intros x os C D W. cbn [wide plus_text]. pose proof (int_print_show (MkInt (Z.abs (sign x)) (chunks x)) (Z.abs (value x))) as T.
  rewrite wide_length by auto. unfold int_put. pose proof C as (F & L & SG & Z0).
  assert (AB : Z.abs (value x) = val (chunks x)) by (symmetry; apply canonical_abs; auto).
  destruct (Z.eqb_spec (sign x) 0) as [E|E].
  - rewrite put_text_0 by auto. pose proof (proj1 Z0 E) as E'. assert (V : value x = 0) by (unfold value; rewrite E; lia). rewrite V, E'. reflexivity.
  - assert (N: chunks x <> []) by tauto.
    assert (P : 0 < val (chunks x)) by (pose proof (val_ge _ F N L); pose proof (p10_pos (length (chunks x) - 1)); lia).
    assert (VV : value x = sign x * val (chunks x)) by reflexivity.
    destruct (Z.eqb_spec (value x) 0) as [V|V]; [nia|].
    assert (SH : show_int (Z.abs (value x)) = map digit_char (rev (chunks x))).
    { rewrite <- T; [unfold int_print; cbn [sign chunks]; destruct SG as [G|[G|G]]; try contradiction; rewrite ?G in *; reflexivity|].
      split; [|rewrite AB; unfold value; cbn [sign chunks]; destruct SG as [G|[G|G]]; try contradiction; rewrite ?G in *; lia].
      split; [exact F|]. split; [exact L|]. cbn [sign chunks]. split; [destruct SG as [G|[G|G]]; rewrite G; cbn; auto|]. split; intros X; [|contradiction].
      destruct SG as [G|[G|G]]; try contradiction; rewrite ?G in *; discriminate X. }
    rewrite SH. destruct (rev (chunks x)) as [|c cs] eqn:R.
    { apply (f_equal (@rev Z)) in R. rewrite rev_involutive in R. contradiction. }
    assert (FR: Forall digit (c :: cs)) by (rewrite <- R; apply Forall_rev; auto). inversion FR; subst.
    assert (LN: length (chunks x) = S (length cs)) by (rewrite <- rev_length, R; reflexivity).
    assert (WD: negb (match cs with [] => true | _ => false end) = (1 <? Z.of_nat (length (chunks x)))).
    { rewrite LN. destruct cs; [reflexivity|]. symmetry. apply Z.ltb_lt. cbn [length]. lia. }
    assert (PC : plus_int c = ["+"%char; digit_char c]).
    { unfold plus_int. destruct (Z.ltb_spec c 0); [unfold digit in *; lia|]. rewrite show_digit by auto. reflexivity. }
    rewrite <- WD. cbn [map]. destruct (Z.eqb_spec (sign x) (-1)) as [M|M].
    + destruct (Z.ltb_spec (value x) 0); [|nia].
      rewrite put_text_0 by auto. rewrite put_int_plus; [|exact D|reflexivity]. rewrite digits_written by auto. rewrite PC.
      rewrite !appended_twice. reflexivity.
    + destruct (Z.ltb_spec (value x) 0); [destruct SG as [G|[G|G]]; try contradiction; rewrite ?G in *; lia|].
      rewrite put_int_plus by auto. rewrite digits_written by auto. rewrite PC, appended_twice. reflexivity.
Qed.
Lemma frac_plus : forall f os, plussed os -> width os = 0 -> frac_put f os = appended (plus_text TFraction f) false os.
Proof.
  intros f os D W. unfold frac_put. cbn [plus_text]. destruct (den f =? 1).
  - apply put_int_plus; auto.
  - rewrite (put_int_plus (num f) os D W). rewrite put_text_0 by reflexivity. rewrite put_int_plus; [|exact D|reflexivity]. rewrite !appended_twice. cbn [orb].
    f_equal.
Qed.
Lemma str_plus : forall s os, width os = 0 -> str_put s os = appended (str_print s) false os.
Proof.
  intros s os W. unfold str_put, str_print.
  assert (F: forall s os, width os = 0 -> fold_left (fun os c => put_text [c] os) s os = OStream (written os ++ s) 0 (fill os) (adjust os) (base os) (showpos os)).
  { clear. induction s as [|c s]; intros os W; cbn [fold_left].
    - rewrite app_nil_r, <- W. destruct os; auto.
    - rewrite put_text_0 by auto. rewrite IHs by reflexivity. unfold appended. cbn. rewrite <- app_assoc. auto. }
  rewrite (put_text_0 _ os) by auto. rewrite F by reflexivity. rewrite put_text_0 by reflexivity. unfold appended. cbn. rewrite <- !app_assoc. reflexivity.
Qed.
Lemma range_plus : forall T (put : T -> ostream -> ostream) show wide (P : T -> Prop) open close,
  (forall x os, P x -> plussed os -> width os = 0 -> put x os = appended (show x) (wide x) os) ->
  forall l os, Forall P l -> plussed os -> width os = 0 -> put_range put l open close os = appended (print_range show l open close) (existsb wide l) os.
Proof.
  intros T put show wide P open close H l os F D W. rewrite print_spec.
  assert (G: forall rest it os, Forall P (it :: rest) -> plussed os -> width os = 0 ->
    put_loop put it rest close os = appended (commas (map show (it :: rest)) ++ [close]) (existsb wide (it :: rest)) os).
  { induction rest as [|x rest]; intros it os' F' D' Z0; inversion F'; subst.
    - cbn [put_loop]. rewrite H by auto. rewrite put_text_0 by reflexivity. rewrite appended_twice. cbn [map commas existsb]. reflexivity.
    - cbn [put_loop]. rewrite H by auto. rewrite put_text_0 by reflexivity. rewrite IHrest; [|auto|exact D'|reflexivity].
      rewrite !appended_twice.
      change (map show (it :: x :: rest)) with (show it :: map show (x :: rest)). cbn [commas existsb orb]. cbn [map]. rewrite <- ?app_assoc, ?orb_false_r. reflexivity. }
  destruct l as [|x l]; cbn [put_range].
  - rewrite (put_text_0 _ os), put_text_0 by auto. rewrite appended_twice. reflexivity.
  - rewrite put_text_0 by auto. rewrite G; [|auto|exact D|reflexivity]. rewrite appended_twice. reflexivity.
Qed.
Lemma put_plus : forall t x os, held t x -> plussed os -> width os = 0 -> put t x os = appended (plus_text t x) (wide t x) os.
Proof.
  induction t; cbn [put held].
  - intros z os _. apply put_int_plus.
  - apply int_plus.
  - intros f os _. apply frac_plus.
  - intros s os _ _. apply str_plus.
  - apply range_plus. exact IHt.
  - apply range_plus. exact IHt.
  - apply range_plus. exact IHt.
  - apply (range_plus _ _ (show_pair (plus_text t1) (plus_text t2)) (fun p => wide t1 (fst p) || wide t2 (snd p)) (fun p => held t1 (fst p) /\ held t2 (snd p))).
    intros p os (H1 & H2) D W. unfold put_pair, show_pair. rewrite IHt1 by auto. rewrite put_text_0 by reflexivity.
    rewrite IHt2; [|auto|exact D|reflexivity]. rewrite !appended_twice. f_equal; rewrite <- ?app_assoc; reflexivity.
Qed.
Lemma plus_positive : forall x z os, repr x z -> plussed os -> width os = 0 ->
  (written (put TInt x os) = written (put TMachine z os) <-> 0 < z).
Proof.
  intros x z os R D W. pose proof (repr_canonical x z R) as C. rewrite put_plus by auto. rewrite (put_plus TMachine z) by (auto; exact I).
  assert (V : value x = z) by (destruct R; auto). cbn [plus_text appended written]. rewrite V. unfold plus_int.
  split; intros H.
  - apply app_inv_head in H. destruct (Z.eqb_spec z 0) as [->|]; [discriminate H|]. destruct (Z.ltb_spec z 0); [|lia].
    rewrite (show_neg z) in H by auto. injection H as H. pose proof (show_nonneg (- z)) as S. destruct (show_int (- z)) as [|c r] eqn:E; [discriminate H|].
    injection H as H _. subst c. exfalso. unfold show_int in E. destruct z; try lia. cbn [Z.opp Z.to_int] in E.
    destruct (Pos.to_uint p) eqn:U; cbn in E; discriminate E.
  - destruct (Z.eqb_spec z 0); [lia|]. destruct (Z.ltb_spec z 0); [lia|]. rewrite Z.abs_eq by lia. reflexivity.
Qed.
Lemma plus_minus : exists x y os, repr x (-12) /\ repr y 0 /\ plussed os /\ width os = 0 /\ written os = [] /\
  written (put TMachine (-12) os) = chars "-12" /\ written (put TInt x os) = chars "-+12" /\
  written (put TMachine 0 os) = chars "+0" /\ written (put TInt y os) = chars "0".
Proof.
  exists (MkInt (-1) [2; 1]), (MkInt 0 []), (OStream [] 0 " "%char SRight Dec true).
  split; [apply repr_check; reflexivity|]. split; [apply repr_check; reflexivity|]. vm_compute. auto 10.
Qed.
