(** Printing to a stream that takes only so many characters: what arrives, when an exception is thrown. *)
From Coq Require Import String Ascii ZArith List Bool Lia.
From Verif Require Import Outcome Show IntModel IntSpec FracModel ListModel DequeModel SetModel DictModel StrModel TupleModel FloatModel ComplexModel
  OStreamModel SinkModel PrintSpec OStreamSpec SinkSpec PrintFacts OStreamFacts ExTools SinkFacts.
Import ListNotations.
Open Scope Z_scope.

Lemma sound_shape : forall s, sound s -> s = Sink (front s) (room s) false false.
Proof. intros [os r b f] (B & F). cbn in *. subst. reflexivity. Qed.

Section Masked.
Variable m : omask.

Lemma agrees_use : forall p q, agrees m p q -> forall s, sound s ->
  exists w, written (p (front s)) = written (front s) ++ w /\ as_far_as_possible m s w (p (front s)) (q s).
Proof. intros p q A s S. destruct (A (front s)) as (_ & w & W & R). exists w. split; auto. rewrite (sound_shape s S). cbn [front]. apply R. Qed.
Lemma agrees_known : forall p q, agrees m p q -> forall s w os, sound s -> p (front s) = os -> written os = written (front s) ++ w -> as_far_as_possible m s w os (q s).
Proof. intros p q A s w os S P W. subst os. destruct (agrees_use p q A s S) as (w' & W' & R). rewrite W in W'. apply app_inv_head in W'. subst. auto. Qed.

Lemma printed_so_far : forall t x s, sound s ->
  exists w, written (put t x (front s)) = written (front s) ++ w /\ as_far_as_possible m s w (put t x (front s)) (sput m t x s).
Proof. intros t x. apply agrees_use, sput_agrees. Qed.
Lemma printed_text : forall t x s, held t x -> decimal (front s) -> width (front s) = 0 -> sound s ->
  as_far_as_possible m s (text t x) (appended (text t x) (wide t x) (front s)) (sput m t x s).
Proof. intros t x s H D W S. apply (agrees_known _ _ (proj1 (sput_agrees m t x))); auto. apply put_default; auto. Qed.
Lemma printed_many : forall l s, Forall (fun a => held (projT1 a) (projT2 a)) l -> decimal (front s) -> width (front s) = 0 -> sound s ->
  let w := flat_map (fun a => text (projT1 a) (projT2 a)) l in
  as_far_as_possible m s w (appended w (existsb (fun a => wide (projT1 a) (projT2 a)) l) (front s)) (sput_all m l s).
Proof. intros l s H D W S w. apply (agrees_known _ _ (proj1 (all_agrees m l))); auto. apply put_many; auto. Qed.
Lemma printed_tuple : forall us (t : tuple thing us) s, each held t -> decimal (front s) -> width (front s) = 0 -> sound s ->
  as_far_as_possible m s (tuple_print text t) (appended (tuple_print text t) (any wide t) (front s)) (tuple_sput m (sput m) t s).
Proof. intros us t s H D W S. apply (agrees_known _ _ (tuple_agrees m us t)); auto. apply put_tuple; auto. Qed.
Lemma printed_complex : forall show z s, width (front s) = 0 -> sound s ->
  as_far_as_possible m s (cx_print show z) (appended (cx_print show z) false (front s)) (cx_sput m show z s).
Proof.
  intros show z s W S. set (sg := if dltb (im z) d0 then "-"%char else "+"%char).
  apply (agrees_known _ _ (agrees_seq m _ _ _ _ (agrees_seq m _ _ _ _ (agrees_seq m _ _ _ _ (agrees_seq m _ _ _ _
    (text_agrees m ["("%char]) (number_agrees m (show (re z))) (number_silent m _)) (text_agrees m [sg]) (text_silent m _))
    (number_agrees m (show (dabs (im z)))) (number_silent m _)) (text_agrees m ["j"%char; ")"%char]) (text_silent m _))); auto.
  assert (E: forall w os, emit w os = appended w false os) by reflexivity.
  assert (P: forall w u b os, put_text w (appended u b os) = appended w false (appended u b os)) by (intros; apply put_text_0; reflexivity).
  rewrite (put_text_0 ["("%char] (front s)) by auto. rewrite !E, !P, !appended_twice. unfold cx_print. fold sg. cbn [orb]. reflexivity.
Qed.

(** Exceptions. *)
Lemma far_bad : forall s w os r, as_far_as_possible m s w os r -> on_bad m = true -> (is_refused r <-> ~ takes (length w) (room s)).
Proof.
  intros s w os r (T & C) B. destruct (room s) as [n|] eqn:E.
  - cbn [takes] in *. destruct (Compare_dec.le_lt_dec (length w) n) as [L|L].
    + rewrite T by auto. cbn. split; [contradiction|lia].
    + destruct (C n eq_refl L) as (_ & _ & A3 & _ & _ & _ & A7). split; [lia|]. intros _. apply A7. left. auto.
  - cbn [takes] in *. rewrite T by auto. cbn. tauto.
Qed.
Lemma far_none : forall s w os r, as_far_as_possible m s w os r -> on_bad m = false -> on_failed m = false -> ~ is_refused r /\ (bad (left_by r) = true <-> ~ takes (length w) (room s)).
Proof.
  intros s w os r (T & C) B F. destruct (room s) as [n|] eqn:E.
  - cbn [takes] in *. destruct (Compare_dec.le_lt_dec (length w) n) as [L|L].
    + rewrite T by auto. cbn. split; auto. split; [discriminate|lia].
    + destruct (C n eq_refl L) as (_ & _ & A3 & _ & _ & _ & A7). split; [|split; [lia|auto]]. rewrite A7. unfold wanted. rewrite B, F. intuition discriminate.
  - cbn [takes] in *. rewrite T by auto. cbn. intuition discriminate.
Qed.

(** The last character, with exceptions for failbit only. *)
Lemma last_char : forall p q c s w n, agrees m p q -> width (p (front s)) = 0 -> sound s -> on_bad m = false -> on_failed m = true ->
  written (put_text [c] (p (front s))) = written (front s) ++ w -> room s = Some n -> (n < length w)%nat ->
  (is_refused (q s >> s_text m [c]) <-> (S n < length w)%nat).
Proof.
  intros p q c s w n A Z S B F W R L. destruct (agrees_use p q A s S) as (w1 & W1 & (T & C)). rewrite R in T.
  rewrite put_text_0 in W by auto. cbn [appended written] in W. rewrite W1, <- app_assoc in W. apply app_inv_head in W. subst w. rewrite app_length in *. cbn [length] in *.
  destruct (Compare_dec.le_lt_dec (length w1) n) as [K|K].
  - rewrite T by exact K. cbn [then_]. unfold took. rewrite R. assert (n = length w1) by lia. subst n. rewrite Nat.sub_diag.
    split; [|lia]. unfold s_text, sentry. cbn [bad failed front room]. unfold filler. rewrite Z. change (Z.to_nat (0 - Z.of_nat (length [c]))) with 0%nat. cbn [repeat app].
    replace (match adjust (p (front s)) with SLeft => [c] | _ => [c] end) with [c] by (destruct (adjust (p (front s))); reflexivity). cbn [refuses length Nat.ltb Nat.leb].
    unfold report, hot_out. cbn [bad failed]. rewrite B, F. cbn. contradiction.
  - destruct (C n R K) as (_ & _ & A3 & _ & _ & _ & A7). split; [lia|]. intros _. destruct (q s) as [s1|s1]; [|exact I]. cbn [then_ left_by] in *.
    unfold s_text, sentry. rewrite A3. unfold report, hot_out. cbn [bad failed]. rewrite F, orb_true_r. exact I.
Qed.
Definition levels (p : ostream -> ostream) : Prop := forall os, width os = 0 -> width (p os) = 0.
Lemma text_levels : forall t, levels (put_text t).
Proof. intros t os _. reflexivity. Qed.
Lemma int_levels : forall z, levels (put_int z).
Proof. intros z os _. unfold put_int. destruct (number os z). reflexivity. Qed.
Lemma inner_levels : forall T (pt : T -> ostream -> ostream), (forall x, levels (pt x)) -> forall rest it, levels (inner pt it rest).
Proof. intros T pt H. induction rest as [|x rest I]; intros it os W; cbn [inner]; [apply H; auto|]. apply I. reflexivity. Qed.
Lemma before_width : forall T (pt : T -> ostream -> ostream), (forall x, levels (pt x)) -> forall v open os, width (before pt v open os) = 0.
Proof. intros T pt H [|x v] open os; cbn [before]; [reflexivity|]. apply inner_levels; auto. Qed.
Lemma range_levels : forall T (pt : T -> ostream -> ostream) v open close, levels (put_range pt v open close).
Proof. intros T pt v open close os _. rewrite range_before. reflexivity. Qed.
Lemma put_levels : forall t x, levels (put t x).
Proof.
  destruct t; intros x; cbn [put].
  - apply int_levels.
  - intros os W. unfold int_put. destruct (sign x =? 0); [reflexivity|]. assert (W1: width (if sign x =? -1 then put_text ["-"%char] os else os) = 0) by (destruct (sign x =? -1); auto).
    destruct (rev (chunks x)) as [|c cs]; auto. assert (W2: width (put_int c (if sign x =? -1 then put_text ["-"%char] os else os)) = 0) by (apply int_levels; auto).
    revert W2. generalize (put_int c (if sign x =? -1 then put_text ["-"%char] os else os)). induction cs; intros o W2; cbn [fold_left]; auto.
  - intros os W. unfold frac_put. destruct (den x =? 1); apply int_levels; auto.
  - intros os W. reflexivity.
  - apply range_levels.
  - apply range_levels.
  - apply range_levels.
  - apply range_levels.
Qed.
Lemma pair_levels : forall k v (x : thing k * thing v), levels (put_pair (put k) (put v) x).
Proof. intros k v (a, b) os W. unfold put_pair. cbn [fst snd]. apply put_levels. reflexivity. Qed.
Lemma range_last : forall T (pt : T -> ostream -> ostream) (sp : T -> sink -> writing), (forall x, agrees m (pt x) (sp x) /\ silent m (sp x)) -> (forall x, levels (pt x)) ->
  forall v open close s w n, sound s -> on_bad m = false -> on_failed m = true ->
  written (put_range pt v open close (front s)) = written (front s) ++ w -> room s = Some n -> (n < length w)%nat ->
  (is_refused (sput_range m sp v open close s) <-> (S n < length w)%nat).
Proof.
  intros T pt sp H Lv v open close s w n S B F W R L. rewrite s_range_before. rewrite range_before in W.
  apply (last_char (before pt v open)); auto; [apply before_agrees; auto|apply before_width; auto].
Qed.
Lemma bracket_last : forall t x s w n, bracketed t -> sound s -> on_bad m = false -> on_failed m = true ->
  written (put t x (front s)) = written (front s) ++ w -> room s = Some n -> (n < length w)%nat ->
  (is_refused (sput m t x s) <-> (S n < length w)%nat).
Proof.
  intros t x s w n Br S B F W R L. destruct t; try contradiction; cbn [put sput] in *.
  - unfold str_put in W. unfold str_sput. destruct (each_agrees m x) as (E1 & E2).
    apply (last_char (fun os => fold_left (fun os c => put_text [c] os) x (put_text [""""%char] os)) (fun s => s_text m [""""%char] s >> s_each m x)); auto.
    + exact (agrees_seq m (put_text [""""%char]) _ (s_text m [""""%char]) _ (text_agrees m _) E1 E2).
    + assert (Hf: forall l o, width o = 0 -> width (fold_left (fun os c => put_text [c] os) l o) = 0) by (induction l; cbn; auto). apply Hf. reflexivity.
  - revert W R L. apply range_last; auto using sput_agrees, put_levels.
  - revert W R L. apply range_last; auto using sput_agrees, put_levels.
  - revert W R L. apply range_last; auto using sput_agrees, put_levels.
  - revert W R L. apply range_last; auto. intros p. apply pair_agrees; intros; apply sput_agrees. intros p. apply pair_levels.
Qed.

(** A stream that is not good. *)
Definition masked_any : Prop := on_bad m = true \/ on_failed m = true.
Definition wcalm (q : sink -> writing) : Prop := forall s, ~ sound s ->
  let s' := left_by (q s) in written (front s') = written (front s) /\ room s' = room s /\ same_format (front s') (front s) /\ bad s' = bad s /\
  (failed s = true -> failed s' = true) /\ (is_refused (q s) -> bad s = true /\ masked_any).
Definition firm (q : sink -> writing) : Prop := forall s, bad s = true -> masked_any -> is_refused (q s).
Lemma unsound_kept : forall s s', ~ sound s -> bad s' = bad s -> (failed s = true -> failed s' = true) -> ~ sound s'.
Proof. intros s s' N B F (B' & F'). apply N. split; [congruence|]. destruct (failed s); auto. rewrite F in F'; auto. Qed.
Lemma wcalm_seq : forall q1 q2, wcalm q1 -> wcalm q2 -> wcalm (fun s => q1 s >> q2).
Proof.
  intros q1 q2 C1 C2 s N. destruct (C1 s N) as (A1 & A2 & A3 & A4 & A5 & A6). destruct (q1 s) as [s1|s1]; cbn [left_by is_refused then_] in *; [|cbn; tauto].
  destruct (C2 s1 (unsound_kept s s1 N A4 A5)) as (B1 & B2 & B3 & B4 & B5 & B6). split; [congruence|]. split; [congruence|]. split; [eauto using same_trans|]. split; [congruence|].
  split; auto. intros R. destruct (B6 R). split; auto. congruence.
Qed.
Lemma firm_seq : forall q1 q2, firm q1 -> firm (fun s => q1 s >> q2).
Proof. intros q1 q2 F s B M. specialize (F s B M). destruct (q1 s); cbn in *; auto; contradiction. Qed.
Lemma wcalm_id : wcalm Done.
Proof. intros s N. cbn. repeat split; auto; contradiction. Qed.
Lemma sentry_calm : forall f, wcalm (fun s => sentry m s (f s)) /\ firm (fun s => sentry m s (f s)).
Proof.
  intros f. split.
  - intros s N. unfold sentry. destruct (bad s) eqn:B.
    + destruct (report_spec m (Sink (front s) (room s) true true)) as (E & R). cbv zeta. rewrite E. cbn. repeat split; auto. unfold masked_any. apply R in H. destruct H as [(H & _)|(H & _)]; auto.
    + destruct (failed s) eqn:F; [|exfalso; apply N; split; auto]. cbn. repeat split; auto; contradiction.
  - intros s B M. unfold sentry. rewrite B. destruct (report_spec m (Sink (front s) (room s) true true)) as (_ & R). apply R. unfold wanted. cbn. destruct M; auto.
Qed.
Lemma text_calm : forall t, wcalm (s_text m t).
Proof. intros t. apply sentry_calm. Qed.
Lemma text_firm : forall t, firm (s_text m t).
Proof. intros t. unfold s_text. apply sentry_calm. Qed.
Lemma number_calm : forall t, wcalm (s_number m t) /\ firm (s_number m t).
Proof. intros t. unfold s_number. apply sentry_calm. Qed.
Lemma int_calm : forall z, wcalm (s_int m z).
Proof. intros z s. unfold s_int. destruct (number (front s) z) as (g, d). exact (proj1 (number_calm _) s). Qed.
Lemma int_firm : forall z, firm (s_int m z).
Proof. intros z s. unfold s_int. destruct (number (front s) z) as (g, d). exact (proj2 (number_calm _) s). Qed.
Lemma digits_calm : forall cs, wcalm (s_digits m cs).
Proof.
  induction cs as [|c cs I]; cbn [s_digits]; [apply wcalm_id|].
  apply (wcalm_seq (fun s => s_text m (show_int c) (s_setfill "0"%char (s_setw DIGITS_PER_CHUNK s)))); auto.
  intros s N. exact (text_calm (show_int c) (s_setfill "0"%char (s_setw DIGITS_PER_CHUNK s)) N).
Qed.
Lemma canonical_chunks : forall x, canonical x -> (sign x =? 0) = false -> rev (chunks x) <> [].
Proof.
  intros x (_ & _ & _ & C) S E. apply (f_equal (@rev Z)) in E. rewrite rev_involutive in E. cbn in E. apply C in E. apply Z.eqb_neq in S. auto.
Qed.
Lemma int_sput_calm : forall x, wcalm (int_sput m x) /\ (canonical x -> firm (int_sput m x)).
Proof.
  intros x. unfold int_sput. destruct (sign x =? 0) eqn:Z0; [split; [apply text_calm|intros _; apply text_firm]|].
  assert (K: forall c cs, wcalm (fun s => s_int m c s >> s_digits m cs) /\ firm (fun s => s_int m c s >> s_digits m cs)).
  { intros c cs. split; [apply wcalm_seq; auto using int_calm, digits_calm|apply firm_seq, int_firm]. }
  split.
  - apply (wcalm_seq (fun s => if sign x =? -1 then s_text m ["-"%char] s else Done s)).
    + destruct (sign x =? -1); [apply text_calm|apply wcalm_id].
    + destruct (rev (chunks x)); [apply wcalm_id|apply K].
  - intros C. pose proof (canonical_chunks x C Z0) as N. destruct (sign x =? -1).
    + apply firm_seq, text_firm.
    + intros s. cbn [then_]. destruct (rev (chunks x)) as [|c cs]; [congruence|]. apply K.
Qed.
Lemma each_calm : forall t, wcalm (s_each m t).
Proof. induction t as [|c t I]; cbn [s_each]; [apply wcalm_id|apply wcalm_seq; auto using text_calm]. Qed.
Lemma loop_calm : forall T (sp : T -> sink -> writing) close rest it, wcalm (sp it) -> Forall (fun x => wcalm (sp x)) rest -> wcalm (sput_loop m sp it rest close).
Proof.
  intros T sp close. induction rest as [|x rest I]; intros it A B; cbn [sput_loop]; [apply wcalm_seq; auto using text_calm|].
  inversion B; subst. apply (wcalm_seq (sp it)); auto. apply (wcalm_seq (s_text m [","%char; " "%char])); auto using text_calm.
Qed.
Lemma range_calm : forall T (sp : T -> sink -> writing) v open close, Forall (fun x => wcalm (sp x)) v ->
  wcalm (sput_range m sp v open close) /\ firm (sput_range m sp v open close).
Proof.
  intros T sp v open close H. split; [|apply (firm_seq (s_text m [open])), text_firm]. apply (wcalm_seq (s_text m [open])); [apply text_calm|].
  destruct H; auto using text_calm, loop_calm.
Qed.
Lemma sput_calm : forall t x, wcalm (sput m t x) /\ (held t x -> firm (sput m t x)).
Proof.
  induction t; intros x; cbn [sput held].
  - split; [apply int_calm|intros _; apply int_firm].
  - apply int_sput_calm.
  - unfold frac_sput. destruct (den x =? 1); [split; [apply int_calm|intros _; apply int_firm]|]. split.
    + apply (wcalm_seq (fun s => s_int m (num x) s >> s_text m [slash])); auto using int_calm, text_calm, wcalm_seq.
    + intros _. apply (firm_seq (fun s => s_int m (num x) s >> s_text m [slash])). apply firm_seq, int_firm.
  - split.
    + apply (wcalm_seq (fun s => s_text m [""""%char] s >> s_each m x)); auto using each_calm, text_calm, wcalm_seq.
    + intros _. apply (firm_seq (fun s => s_text m [""""%char] s >> s_each m x)). apply firm_seq, text_firm.
  - destruct (range_calm _ (sput m t) x "["%char "]"%char) as (A & B); auto. apply Forall_forall. intros y _. apply IHt.
  - destruct (range_calm _ (sput m t) x "<"%char ">"%char) as (A & B); auto. apply Forall_forall. intros y _. apply IHt.
  - destruct (range_calm _ (sput m t) x "{"%char "}"%char) as (A & B); auto. apply Forall_forall. intros y _. apply IHt.
  - destruct (range_calm _ (sput_pair m (sput m t1) (sput m t2)) x "{"%char "}"%char) as (A & B); auto. apply Forall_forall. intros (k, v) _.
    unfold sput_pair. cbn [fst snd]. apply (wcalm_seq (fun s => sput m t1 k s >> s_text m [":"%char; " "%char])); [|apply IHt2]. apply wcalm_seq; [apply IHt1|apply text_calm].
Qed.
Lemma nothing_written : forall t x s, held t x -> ~ sound s ->
  let r := sput m t x s in written (front (left_by r)) = written (front s) /\ room (left_by r) = room s /\ bad (left_by r) = bad s /\
  (is_refused r <-> bad s = true /\ (on_bad m = true \/ on_failed m = true)).
Proof.
  intros t x s H N. destruct (sput_calm t x) as (A & B). destruct (A s N) as (A1 & A2 & _ & A4 & _ & A6). cbv zeta. split; [exact A1|]. split; [exact A2|]. split; [exact A4|].
  split; [exact A6|]. intros (B1 & B2). apply B; auto.
Qed.

(** Without an Int of two digits or more, nothing else changes either. *)
Definition mute (q : sink -> writing) : Prop := forall s, bad s || failed s = true -> q s = if bad s then report m (Sink (front s) (room s) true true) else Done s.
Definition stable (q : sink -> writing) : Prop := forall s, failed s = true -> (bad s = true -> hot_out m s = false) -> q s = Done s.
Lemma mute_stable : forall q, mute q -> stable q.
Proof.
  intros q H s F K. rewrite H by (rewrite F; apply orb_true_r). destruct s as [os r b f]. cbn in *. subst f. destruct b; auto. unfold report. rewrite K; auto.
Qed.
Lemma stable_id : stable Done.
Proof. intros s _ _. reflexivity. Qed.
Lemma mute_seq : forall q1 q2, mute q1 -> stable q2 -> mute (fun s => q1 s >> q2).
Proof.
  intros q1 q2 H1 H2 s B. rewrite H1 by auto. destruct (bad s) eqn:E.
  - unfold report. destruct (hot_out m (Sink (front s) (room s) true true)) eqn:K; [reflexivity|]. cbn [then_]. apply H2; auto.
  - cbn [then_]. apply H2; [destruct (failed s); auto|rewrite E; discriminate].
Qed.
Lemma stable_seq : forall q1 q2, stable q1 -> stable q2 -> stable (fun s => q1 s >> q2).
Proof. intros q1 q2 H1 H2 s F K. rewrite H1 by auto. cbn [then_]. auto. Qed.
Lemma sentry_mute : forall f, mute (fun s => sentry m s (f s)).
Proof. intros f s B. unfold sentry. destruct (bad s); auto. cbn in B. rewrite B. auto. Qed.
Lemma text_mute : forall t, mute (s_text m t).
Proof. intros t. apply sentry_mute. Qed.
Lemma number_mute : forall t, mute (s_number m t).
Proof. intros t. apply sentry_mute. Qed.
Lemma int_mute : forall z, mute (s_int m z).
Proof. intros z s. unfold s_int. destruct (number (front s) z). apply number_mute. Qed.
Lemma text_stable : forall t, stable (s_text m t).
Proof. intros t. apply mute_stable, text_mute. Qed.
Lemma each_stable : forall t, stable (s_each m t).
Proof. induction t as [|c t I]; cbn [s_each]; [apply stable_id|apply stable_seq; auto using text_stable]. Qed.
Lemma loop_stable : forall T (sp : T -> sink -> writing) close rest it, stable (sp it) -> Forall (fun x => stable (sp x)) rest -> stable (sput_loop m sp it rest close).
Proof.
  intros T sp close. induction rest as [|x rest I]; intros it A B; cbn [sput_loop]; [apply stable_seq; auto using text_stable|].
  inversion B; subst. apply (stable_seq (sp it)); auto. apply (stable_seq (s_text m [","%char; " "%char])); auto using text_stable.
Qed.
Lemma range_mute : forall T (sp : T -> sink -> writing) v open close, Forall (fun x => mute (sp x)) v -> mute (sput_range m sp v open close).
Proof.
  intros T sp v open close H. apply (mute_seq (s_text m [open])); [apply text_mute|].
  destruct H as [|x v H1 H2]; [apply text_stable|]. apply loop_stable; [apply mute_stable; auto|]. eapply Forall_impl; [|exact H2]. intros y. apply mute_stable.
Qed.
Lemma narrow_chunks : forall x, canonical x -> wide TInt x = false -> (sign x =? 0) = false -> exists c, rev (chunks x) = [c].
Proof.
  intros x C W Z0. cbn [wide] in W. rewrite wide_length in W by auto. pose proof (canonical_chunks x C Z0) as N. apply Z.ltb_ge in W.
  rewrite <- rev_length in W. destruct (rev (chunks x)) as [|c [|d cs]]; [congruence|eauto|cbn [length] in W; lia].
Qed.
Lemma forall_narrow : forall T (P Q : T -> Prop) (w : T -> bool) v, Forall P v -> existsb w v = false -> (forall x, P x -> w x = false -> Q x) -> Forall Q v.
Proof. intros T P Q w v H E I. induction H; cbn in *; constructor; apply orb_false_iff in E; destruct E; auto. Qed.
Lemma sput_mute : forall t x, held t x -> wide t x = false -> mute (sput m t x).
Proof.
  induction t; intros x H W; cbn [sput held wide] in *.
  - apply int_mute.
  - unfold int_sput. destruct (sign x =? 0) eqn:Z0; [apply text_mute|]. destruct (narrow_chunks x H W Z0) as (c & ->). cbn [s_digits].
    assert (K: mute (fun s => s_int m c s >> Done)) by (apply mute_seq; auto using int_mute, stable_id). destruct (sign x =? -1).
    + apply (mute_seq (s_text m ["-"%char]) (fun s => s_int m c s >> Done)); auto using text_mute, mute_stable.
    + exact K.
  - unfold frac_sput. destruct (den x =? 1); [apply int_mute|].
    apply (mute_seq (fun s => s_int m (num x) s >> s_text m [slash])); [apply mute_seq; auto using int_mute, text_stable|apply mute_stable, int_mute].
  - apply (mute_seq (fun s => s_text m [""""%char] s >> s_each m x)); [apply mute_seq; auto using each_stable, text_mute|apply text_stable].
  - apply range_mute. eapply forall_narrow; eauto.
  - apply range_mute. eapply forall_narrow; eauto.
  - apply range_mute. eapply forall_narrow; eauto.
  - apply range_mute. eapply forall_narrow; eauto. intros (k, v) (H1 & H2) E. cbn [fst snd] in *. apply orb_false_iff in E. destruct E.
    unfold sput_pair. cbn [fst snd]. apply (mute_seq (fun s => sput m t1 k s >> s_text m [":"%char; " "%char])); [|apply mute_stable; auto].
    apply mute_seq; auto using text_stable.
Qed.
Lemma untouched : forall t x s, held t x -> wide t x = false -> ~ sound s -> left_by (sput m t x s) = if bad s then Sink (front s) (room s) true true else s.
Proof.
  intros t x s H W N. rewrite (sput_mute t x H W s).
  - destruct (bad s); auto. apply report_spec.
  - destruct (bad s) eqn:B; auto. destruct (failed s) eqn:F; auto. exfalso. apply N. split; auto.
Qed.

(** The width at the end. *)
Definition level (q : sink -> writing) : Prop := forall s, width (front s) = 0 -> width (front (left_by (q s))) = 0.
Definition lowers (q : sink -> writing) : Prop := forall s, (on_bad m = false /\ sound s) \/ width (front s) = 0 -> width (front (left_by (q s))) = 0.
Lemma lowers_level : forall q, lowers q -> level q.
Proof. intros q H s W. apply H. auto. Qed.
Lemma lowers_seq : forall q1 q2, lowers q1 -> level q2 -> lowers (fun s => q1 s >> q2).
Proof. intros q1 q2 H1 H2 s W. specialize (H1 s W). destruct (q1 s) as [s1|s1]; cbn [then_ left_by] in *; auto. Qed.
Lemma level_seq : forall q1 q2, level q1 -> level q2 -> level (fun s => q1 s >> q2).
Proof. intros q1 q2 H1 H2 s W. specialize (H1 s W). destruct (q1 s) as [s1|s1]; cbn [then_ left_by] in *; auto. Qed.
Lemma level_id : level Done.
Proof. intros s W. exact W. Qed.
Lemma left_report : forall s, left_by (report m s) = s.
Proof. intros s. apply report_spec. Qed.
Lemma text_lowers : forall t, lowers (s_text m t).
Proof.
  intros t s W. unfold s_text, sentry. destruct (bad s) eqn:B.
  - rewrite left_report. cbn. destruct W as [(_ & S)|W]; auto. destruct S. congruence.
  - destruct (failed s) eqn:F.
    + cbn. destruct W as [(_ & S)|W]; auto. destruct S. congruence.
    + match goal with |- context [refuses ?r ?w] => destruct (refuses r w) end; [|reflexivity]. rewrite left_report. cbn. destruct W as [(W & _)|W]; rewrite W; auto. destruct (on_bad m); auto.
Qed.
Lemma number_lowers : forall t, lowers (s_number m t).
Proof.
  intros t s W. unfold s_number, sentry. destruct (bad s) eqn:B.
  - rewrite left_report. cbn. destruct W as [(_ & S)|W]; auto. destruct S. congruence.
  - destruct (failed s) eqn:F; [|rewrite left_report; reflexivity]. cbn. destruct W as [(_ & S)|W]; auto. destruct S. congruence.
Qed.
Lemma s_int_lowers : forall z, lowers (s_int m z).
Proof. intros z s. unfold s_int. destruct (number (front s) z). apply number_lowers. Qed.
Lemma text_level : forall t, level (s_text m t).
Proof. intros. apply lowers_level, text_lowers. Qed.
Lemma each_level : forall t, level (s_each m t).
Proof. induction t as [|c t I]; cbn [s_each]; [apply level_id|apply level_seq; auto using text_level]. Qed.
Lemma loop_level : forall T (sp : T -> sink -> writing) close rest it, level (sp it) -> Forall (fun x => level (sp x)) rest -> level (sput_loop m sp it rest close).
Proof.
  intros T sp close. induction rest as [|x rest I]; intros it A B; cbn [sput_loop]; [apply level_seq; auto using text_level|].
  inversion B; subst. apply (level_seq (sp it)); auto. apply (level_seq (s_text m [","%char; " "%char])); auto using text_level.
Qed.
Lemma range_lowers : forall T (sp : T -> sink -> writing) v open close, Forall (fun x => lowers (sp x)) v -> lowers (sput_range m sp v open close).
Proof.
  intros T sp v open close H. apply (lowers_seq (s_text m [open])); [apply text_lowers|].
  destruct H as [|x v H1 H2]; [apply text_level|]. apply loop_level; [apply lowers_level; auto|]. eapply Forall_impl; [|exact H2]. intros y. apply lowers_level.
Qed.
Lemma sput_lowers : forall t x, held t x -> wide t x = false -> lowers (sput m t x).
Proof.
  induction t; intros x H W; cbn [sput held wide] in *.
  - apply s_int_lowers.
  - unfold int_sput. destruct (sign x =? 0) eqn:Z0; [apply text_lowers|]. destruct (narrow_chunks x H W Z0) as (c & ->). cbn [s_digits].
    assert (K: lowers (fun s => s_int m c s >> Done)) by (apply lowers_seq; auto using s_int_lowers, level_id). destruct (sign x =? -1).
    + apply (lowers_seq (s_text m ["-"%char]) (fun s => s_int m c s >> Done)); auto using text_lowers, lowers_level.
    + exact K.
  - unfold frac_sput. destruct (den x =? 1); [apply s_int_lowers|].
    apply (lowers_seq (fun s => s_int m (num x) s >> s_text m [slash])); [apply lowers_seq; auto using s_int_lowers, text_level|apply lowers_level, s_int_lowers].
  - apply (lowers_seq (fun s => s_text m [""""%char] s >> s_each m x)); [apply lowers_seq; auto using each_level, text_lowers|apply text_level].
  - apply range_lowers. eapply forall_narrow; eauto.
  - apply range_lowers. eapply forall_narrow; eauto.
  - apply range_lowers. eapply forall_narrow; eauto.
  - apply range_lowers. eapply forall_narrow; eauto. intros (k, v) (H1 & H2) E. cbn [fst snd] in *. apply orb_false_iff in E. destruct E.
    unfold sput_pair. cbn [fst snd]. apply (lowers_seq (fun s => sput m t1 k s >> s_text m [":"%char; " "%char])); [|apply lowers_level; auto].
    apply lowers_seq; auto using text_level.
Qed.
Lemma width_reset : forall t x s, held t x -> wide t x = false -> sound s -> on_bad m = false \/ width (front s) = 0 ->
  width (front (left_by (sput m t x s))) = 0.
Proof. intros t x s H W S O. apply sput_lowers; auto. tauto. Qed.
End Masked.

(** As properties of [sput]. *)
Lemma known_far : forall m t x s w, sound s -> written (put t x (front s)) = written (front s) ++ w -> as_far_as_possible m s w (put t x (front s)) (sput m t x s).
Proof. intros m t x s w S W. apply (agrees_known m _ _ (proj1 (sput_agrees m t x))); auto. Qed.
Lemma refused_bad : forall m t x s w, sound s -> written (put t x (front s)) = written (front s) ++ w -> on_bad m = true ->
  (is_refused (sput m t x s) <-> ~ takes (length w) (room s)).
Proof. intros m t x s w S W. eapply far_bad, known_far; auto. Qed.
Lemma refused_none : forall m t x s w, sound s -> written (put t x (front s)) = written (front s) ++ w -> on_bad m = false -> on_failed m = false ->
  ~ is_refused (sput m t x s) /\ (bad (left_by (sput m t x s)) = true <-> ~ takes (length w) (room s)).
Proof. intros m t x s w S W. eapply far_none, known_far; auto. Qed.

Lemma failed_fill : exists x s, held TInt x /\ bad s = true /\ front s = plain /\
  let s' := left_by (sput (OMask false false) TInt x s) in
  fill (front s') = "0"%char /\ width (front s') = 1 /\
  s_text (OMask false false) [] (cleared None s) = Done (cleared None s) /\
  written (front (left_by (s_text (OMask false false) [] (cleared None s')))) = chars "0" /\
  written (front (left_by (s_int (OMask false false) 7 (s_setw 3 (cleared None s))))) = chars "  7" /\
  written (front (left_by (s_int (OMask false false) 7 (s_setw 3 (cleared None s'))))) = chars "007".
Proof.
  exists (MkInt 1 [2; 1]), (Sink plain None true false). split; [apply canonical_check; reflexivity|]. vm_compute. auto 10.
Qed.
Lemma width_left : exists x s, held TInt x /\ sound s /\ front s = plain /\ room s = Some 1%nat /\
  width (front (left_by (sput (OMask false false) TInt x s))) = 1.
Proof.
  exists (MkInt 1 [3; 2; 1]), (Sink plain (Some 1%nat) false false). split; [apply canonical_check; reflexivity|]. vm_compute. auto 10.
Qed.
Lemma width_thrown : exists s, sound s /\ room s = Some 0%nat /\
  is_refused (sput (OMask true false) (TList TMachine) [1] s) /\ width (front (left_by (sput (OMask true false) (TList TMachine) [1] s))) = 3 /\
  width (front (left_by (sput (OMask false false) (TList TMachine) [1] s))) = 0.
Proof. exists (Sink (setw 3 plain) (Some 0%nat) false false). vm_compute. auto 10. Qed.
