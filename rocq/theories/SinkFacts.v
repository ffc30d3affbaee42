(** Printing to a stream that takes only so many characters. *)
From Coq Require Import String Ascii ZArith List Bool Lia.
From Verif Require Import Outcome Show IntModel IntSpec FracModel ListModel DequeModel SetModel DictModel StrModel TupleModel FloatModel ComplexModel
  OStreamModel SinkModel PrintSpec OStreamSpec SinkSpec PrintFacts OStreamFacts.
Import ListNotations.
Open Scope Z_scope.

Section Masked.
Variable m : omask.

Lemma hot_wanted : forall s, hot_out m s = true <-> wanted m s.
Proof. intros s. unfold hot_out, wanted. rewrite orb_true_iff, !andb_true_iff. tauto. Qed.
Lemma report_spec : forall s, left_by (report m s) = s /\ (is_refused (report m s) <-> wanted m s).
Proof.
  intros s. unfold report. rewrite <- hot_wanted. destruct (hot_out m s); cbn; split; auto; split; auto; intros; try contradiction; discriminate.
Qed.
Lemma refused_dec : forall r, is_refused r \/ r = Done (left_by r).
Proof. intros [s|s]; cbn; auto. Qed.

Definition same_format (a b : ostream) : Prop := adjust a = adjust b /\ base a = base b /\ showpos a = showpos b.
Lemma same_trans : forall a b c, same_format a b -> same_format b c -> same_format a c.
Proof. intros a b c (A & B & C) (A' & B' & C'). repeat split; congruence. Qed.

Definition agrees (p : ostream -> ostream) (q : sink -> writing) : Prop := forall os, same_format (p os) os /\
  exists w, written (p os) = written os ++ w /\ forall r, as_far_as_possible m (Sink os r false false) w (p os) (q (Sink os r false false)).
Definition silent (q : sink -> writing) : Prop := forall s, bad s = true -> ~ wanted m s ->
  let s' := left_by (q s) in written (front s') = written (front s) /\ room s' = room s /\ bad s' = true /\ same_format (front s') (front s) /\
  (is_refused (q s) <-> wanted m s').

Lemma silent_seq : forall q1 q2, silent q1 -> silent q2 -> silent (fun s => q1 s >> q2).
Proof.
  intros q1 q2 S1 S2 s B W. destruct (S1 s B W) as (A1 & A2 & A3 & A4 & A5). destruct (q1 s) as [s1|s1]; cbn [left_by is_refused then_] in *; auto.
  destruct (S2 s1 A3 ltac:(tauto)) as (B1 & B2 & B3 & B4 & B5). split; [congruence|]. split; [congruence|]. split; auto. split; eauto using same_trans.
Qed.

Lemma agrees_seq : forall p1 p2 q1 q2, agrees p1 q1 -> agrees p2 q2 -> silent q2 -> agrees (fun os => p2 (p1 os)) (fun s => q1 s >> q2).
Proof.
  intros p1 p2 q1 q2 H1 H2 Q2 os. destruct (H1 os) as (F1 & w1 & W1 & R1). destruct (H2 (p1 os)) as (F2 & w2 & W2 & R2).
  split; [eauto using same_trans|]. exists (w1 ++ w2). split; [rewrite W2, W1, app_assoc; reflexivity|].
  intros r. destruct (R1 r) as (T1 & C1). unfold took in T1. cbn [room front] in *. split.
  - cbn [room]. rewrite app_length. intros T.
    assert (q1 (Sink os r false false) = Done (Sink (p1 os) (spare r w1) false false)) as -> by (rewrite T1; [reflexivity|]; destruct r; cbn in *; auto; lia).
    cbn [then_]. destruct (R2 (spare r w1)) as (T2 & _). unfold took in *. cbn [room] in *. rewrite T2.
    + f_equal. f_equal. destruct r; cbn; auto. rewrite app_length. f_equal. lia.
    + destruct r; cbn in *; auto. lia.
  - intros n E L. cbn [room] in E. subst r. rewrite app_length in L. destruct (Nat.ltb n (length w1)) eqn:K; [apply Nat.ltb_lt in K|apply Nat.ltb_ge in K].
    + specialize (C1 n eq_refl K). unfold cut_off in *. cbn [front] in *. destruct C1 as (A1 & A2 & A3 & A4 & A5 & A6 & A7).
      rewrite firstn_app. replace (n - length w1)%nat with 0%nat by lia. cbn [firstn]. rewrite app_nil_r.
      destruct (q1 (Sink os (Some n) false false)) as [s1|s1] eqn:E1; cbn [left_by is_refused then_] in *.
      * destruct (Q2 s1 A3 ltac:(tauto)) as (B1 & B2 & B3 & (B4 & B5 & B6) & B7).
        split; [congruence|]. split; [congruence|]. split; auto. split; [congruence|]. split; [congruence|]. split; [congruence|]. exact B7.
      * repeat split; auto; tauto.
    + assert (q1 (Sink os (Some n) false false) = Done (Sink (p1 os) (Some (n - length w1)%nat) false false)) as -> by (rewrite T1; [reflexivity|cbn; lia]).
      cbn [then_]. destruct (R2 (Some (n - length w1)%nat)) as (_ & C2). destruct (C2 (n - length w1)%nat eq_refl ltac:(lia)) as (A1 & A2 & A3 & A4 & A5 & A6 & A7).
      cbn [front] in *. destruct F1 as (F11 & F12 & F13). unfold cut_off. cbn [front].
      split; [|repeat split; auto; try congruence; tauto].
      rewrite A1, W1, <- app_assoc. f_equal. rewrite firstn_app, (firstn_all2 w1) by lia. reflexivity.
Qed.
Lemma agrees_id : agrees (fun os => os) Done.
Proof.
  intros os. split; [repeat split|]. exists []. split; [rewrite app_nil_r; auto|]. intros r. split.
  - intros _. unfold took. cbn. destruct r; auto. rewrite Nat.sub_0_r. auto.
  - intros n E L. cbn in L. lia.
Qed.
Lemma silent_id : silent Done.
Proof. intros s B W. cbn. repeat split; auto; tauto. Qed.
(** Manipulators. *)
Definition on_front (g : ostream -> ostream) (s : sink) : sink := Sink (g (front s)) (room s) (bad s) (failed s).
Lemma agrees_front : forall g, (forall os, written (g os) = written os /\ same_format (g os) os) -> agrees g (fun s => Done (on_front g s)).
Proof.
  intros g G os. destruct (G os) as (G1 & G2). split; auto. exists []. split; [rewrite app_nil_r; auto|]. intros r. split.
  - intros _. unfold took, on_front. cbn. destruct r; auto. rewrite Nat.sub_0_r. auto.
  - intros n E L. cbn in L. lia.
Qed.
Lemma silent_front : forall g, (forall os, written (g os) = written os /\ same_format (g os) os) -> silent (fun s => Done (on_front g s)).
Proof.
  intros g G s B W. destruct (G (front s)) as (G1 & G2). cbn. destruct G2 as (G2 & G3 & G4). repeat split; auto; unfold wanted in *; cbn in *; tauto.
Qed.

Lemma sentry_silent : forall f, silent (fun s => sentry m s (f s)).
Proof.
  intros f s B W. cbv zeta. unfold sentry. rewrite B. destruct (report_spec (Sink (front s) (room s) true true)) as (E & R). rewrite E. cbn. repeat split; tauto.
Qed.
Lemma text_silent : forall t, silent (s_text m t).
Proof. intros t. apply sentry_silent. Qed.
Lemma number_silent : forall t, silent (s_number m t).
Proof. intros t. apply sentry_silent. Qed.
Lemma int_silent : forall z, silent (s_int m z).
Proof. intros z s. unfold s_int. destruct (number (front s) z). apply number_silent. Qed.

Lemma taken_all : forall r w, takes (length w) r -> taken r w = w /\ refuses r w = false.
Proof. intros [n|] w T; cbn in *; auto. split; [apply firstn_all2; auto|apply Nat.ltb_ge; auto]. Qed.

Lemma text_agrees : forall t, agrees (put_text t) (s_text m t).
Proof.
  intros t os. split; [repeat split|]. eexists. split; [reflexivity|]. set (w := match adjust os with SLeft => _ | _ => _ end).
  intros r. unfold s_text. cbn [front room]. fold w. cbn [sentry bad failed]. split.
  - intros T. cbn [room] in T. destruct (taken_all r w T) as (_ & ->). unfold took. cbn. f_equal.
  - intros n E L. cbn [room] in E. subst r. cbn [refuses]. destruct (Nat.ltb_spec n (length w)); [|lia]. unfold cut_off.
    match goal with |- context [report m ?s] => destruct (report_spec s) as (E & R); rewrite E end.
    cbn. repeat split; auto; try tauto. f_equal. lia.
Qed.
Lemma number_agrees : forall w, agrees (emit w) (s_number m w).
Proof.
  intros w os. split; [repeat split|]. exists w. split; [reflexivity|]. intros r. unfold s_number. cbn [front room sentry bad failed]. split.
  - intros T. cbn [room] in T. destruct (taken_all r w T) as (-> & ->). unfold report, hot_out, took. cbn. rewrite !andb_false_r. reflexivity.
  - intros n E L. cbn [room] in E. subst r. cbn [refuses]. destruct (Nat.ltb_spec n (length w)); [|lia]. unfold cut_off.
    match goal with |- context [report m ?s] => destruct (report_spec s) as (E & R); rewrite E end.
    cbn. repeat split; auto; try tauto. f_equal. lia.
Qed.
Lemma int_agrees : forall z, agrees (put_int z) (s_int m z).
Proof.
  intros z os. unfold put_int, s_int. cbn [front]. destruct (number os z) as (g, d). apply number_agrees.
Qed.

Lemma digits_agrees : forall cs, agrees (fun os => fold_left (fun os c => put_text (show_int c) (setfill "0"%char (setw DIGITS_PER_CHUNK os))) cs os) (s_digits m cs)
  /\ silent (s_digits m cs).
Proof.
  assert (G: forall os, written (setfill "0"%char (setw DIGITS_PER_CHUNK os)) = written os /\ same_format (setfill "0"%char (setw DIGITS_PER_CHUNK os)) os) by (intros; repeat split).
  induction cs as [|c cs (I & J)]; cbn [fold_left s_digits]; [auto using agrees_id, silent_id|]. split.
  - apply (agrees_seq (fun os => put_text (show_int c) (setfill "0"%char (setw DIGITS_PER_CHUNK os))) _
      (fun s => s_text m (show_int c) (s_setfill "0"%char (s_setw DIGITS_PER_CHUNK s))) _); auto.
    apply (agrees_seq _ (put_text (show_int c)) _ (s_text m (show_int c)) (agrees_front _ G) (text_agrees _) (text_silent _)).
  - apply (silent_seq (fun s => s_text m (show_int c) (s_setfill "0"%char (s_setw DIGITS_PER_CHUNK s))) _); auto.
    apply (silent_seq _ (s_text m (show_int c)) (silent_front _ G) (text_silent _)).
Qed.
Lemma int_sput_agrees : forall x, agrees (int_put x) (int_sput m x) /\ silent (int_sput m x).
Proof.
  intros x. unfold int_put, int_sput. destruct (sign x =? 0); [auto using text_agrees, text_silent|].
  assert (H: agrees (fun os => if sign x =? -1 then put_text ["-"%char] os else os) (fun s => if sign x =? -1 then s_text m ["-"%char] s else Done s) /\
    silent (fun s => if sign x =? -1 then s_text m ["-"%char] s else Done s)) by (destruct (sign x =? -1); auto using text_agrees, text_silent, agrees_id, silent_id).
  destruct H as (H1 & H2).
  assert (K: forall c cs, agrees (fun os => fold_left (fun os c => put_text (show_int c) (setfill "0"%char (setw DIGITS_PER_CHUNK os))) cs (put_int c os))
    (fun s => s_int m c s >> s_digits m cs) /\ silent (fun s => s_int m c s >> s_digits m cs)).
  { intros c cs. destruct (digits_agrees cs) as (D1 & D2). split; [|apply silent_seq; auto using int_silent].
    apply (agrees_seq (put_int c) _ (s_int m c) _ (int_agrees c) D1 D2). }
  destruct (rev (chunks x)) as [|c cs].
  - split; [|apply silent_seq; auto using silent_id]. apply (agrees_seq _ (fun os => os) _ Done H1 agrees_id silent_id).
  - destruct (K c cs) as (K1 & K2). split; [|apply silent_seq; auto]. apply (agrees_seq _ _ _ _ H1 K1 K2).
Qed.
Lemma frac_sput_agrees : forall f, agrees (frac_put f) (frac_sput m f) /\ silent (frac_sput m f).
Proof.
  intros f. unfold frac_put, frac_sput. destruct (den f =? 1); [auto using int_agrees, int_silent|]. split.
  - apply (agrees_seq _ (put_int (den f)) _ (s_int m (den f))); auto using int_agrees, int_silent.
    apply (agrees_seq _ (put_text [slash]) _ (s_text m [slash])); auto using int_agrees, int_silent, text_agrees, text_silent.
  - apply (silent_seq (fun s => s_int m (num f) s >> s_text m [slash])); auto using silent_seq, int_silent, text_silent.
Qed.
Lemma each_agrees : forall t, agrees (fold_left (fun os c => put_text [c] os) t) (s_each m t) /\ silent (s_each m t).
Proof.
  induction t as [|c t (I & J)]; cbn [s_each]; [auto using agrees_id, silent_id|]. split.
  - apply (agrees_seq (put_text [c]) _ (s_text m [c]) _ (text_agrees _) I J).
  - apply silent_seq; auto using text_silent.
Qed.
Lemma str_sput_agrees : forall t, agrees (str_put t) (str_sput m t) /\ silent (str_sput m t).
Proof.
  intros t. destruct (each_agrees t) as (E1 & E2). unfold str_put, str_sput. split.
  - apply (agrees_seq _ (put_text [""""%char]) _ (s_text m [""""%char])); auto using text_agrees, text_silent.
    apply (agrees_seq (put_text [""""%char]) _ (s_text m [""""%char]) _ (text_agrees _) E1 E2).
  - apply (silent_seq (fun s => s_text m [""""%char] s >> s_each m t)); auto using silent_seq, text_silent.
Qed.

(** Containers. The text before the closing bracket is followed separately. *)
Fixpoint inner {T} (put : T -> ostream -> ostream) (it : T) (rest : list T) (os : ostream) : ostream :=
  match rest with
  | [] => put it os
  | x :: rest' => inner put x rest' (put_text [","%char; " "%char] (put it os))
  end.
Fixpoint s_inner {T} (put : T -> sink -> writing) (it : T) (rest : list T) (s : sink) : writing :=
  match rest with
  | [] => put it s
  | x :: rest' => put it s >> s_text m [","%char; " "%char] >> s_inner put x rest'
  end.
Definition before {T} (put : T -> ostream -> ostream) (v : list T) (open : ascii) (os : ostream) : ostream :=
  match v with [] => put_text [open] os | x :: rest => inner put x rest (put_text [open] os) end.
Definition s_before {T} (put : T -> sink -> writing) (v : list T) (open : ascii) (s : sink) : writing :=
  match v with [] => s_text m [open] s | x :: rest => s_text m [open] s >> s_inner put x rest end.
Lemma loop_before : forall T (put : T -> ostream -> ostream) rest it close os, put_loop put it rest close os = put_text [close] (inner put it rest os).
Proof. intros T put. induction rest as [|x rest I]; intros; cbn; auto. Qed.
Lemma then_assoc : forall r f g, r >> f >> g = r >> (fun s => f s >> g).
Proof. intros [s|s] f g; reflexivity. Qed.
Lemma then_ext : forall r f g, (forall s, f s = g s) -> r >> f = r >> g.
Proof. intros [s|s] f g E; cbn; auto. Qed.
Lemma s_loop_before : forall T (put : T -> sink -> writing) rest it close s, sput_loop m put it rest close s = s_inner put it rest s >> s_text m [close].
Proof.
  intros T put. induction rest as [|x rest I]; intros; cbn [sput_loop s_inner]; auto.
  rewrite (then_assoc _ _ (s_text m [close])), then_assoc. apply then_ext. intros s'. apply then_ext. intros s2. apply I.
Qed.
Lemma range_before : forall T (put : T -> ostream -> ostream) v open close os, put_range put v open close os = put_text [close] (before put v open os).
Proof. intros T put [|x v] open close os; cbn; auto. apply loop_before. Qed.
Lemma s_range_before : forall T (put : T -> sink -> writing) v open close s, sput_range m put v open close s = s_before put v open s >> s_text m [close].
Proof. intros T put [|x v] open close s; cbn; auto. rewrite then_assoc. apply then_ext. intros. apply s_loop_before. Qed.

Section Container.
Variables (T : Type) (put : T -> ostream -> ostream) (sp : T -> sink -> writing).
Hypothesis H : forall x, agrees (put x) (sp x) /\ silent (sp x).
Lemma inner_agrees : forall rest it, agrees (inner put it rest) (s_inner sp it rest) /\ silent (s_inner sp it rest).
Proof.
  induction rest as [|x rest I]; intros it; [apply H|]. cbn [inner s_inner]. destruct (H it) as (H1 & H2). destruct (I x) as (I1 & I2). split.
  - apply (agrees_seq (fun os => put_text [","%char; " "%char] (put it os)) _ (fun s => sp it s >> s_text m [","%char; " "%char]) _); auto.
    apply agrees_seq; auto using text_agrees, text_silent.
  - apply (silent_seq (fun s => sp it s >> s_text m [","%char; " "%char])); auto using silent_seq, text_silent.
Qed.
Lemma before_agrees : forall v open, agrees (before put v open) (s_before sp v open) /\ silent (s_before sp v open).
Proof.
  intros [|x v] open; [split; [apply text_agrees|apply text_silent]|]. destruct (inner_agrees v x) as (I1 & I2). split.
  - apply (agrees_seq (put_text [open]) _ (s_text m [open]) _ (text_agrees _) I1 I2).
  - apply silent_seq; auto using text_silent.
Qed.
Lemma range_agrees : forall v open close, agrees (put_range put v open close) (sput_range m sp v open close) /\ silent (sput_range m sp v open close).
Proof.
  intros v open close. destruct (before_agrees v open) as (B1 & B2). split.
  - intros os. destruct (agrees_seq _ _ _ _ B1 (text_agrees [close]) (text_silent _) os) as (A & w & W & R). rewrite range_before. split; auto.
    exists w. split; auto. intros r. rewrite s_range_before. apply R.
  - intros s. rewrite s_range_before. apply (silent_seq _ _ B2 (text_silent [close])).
Qed.
End Container.
Lemma pair_agrees : forall K V pk pv sk sv, (forall x : K, agrees (pk x) (sk x) /\ silent (sk x)) -> (forall x : V, agrees (pv x) (sv x) /\ silent (sv x)) ->
  forall p, agrees (put_pair pk pv p) (sput_pair m sk sv p) /\ silent (sput_pair m sk sv p).
Proof.
  intros K V pk pv sk sv HK HV (k, v). destruct (HK k) as (K1 & K2). destruct (HV v) as (V1 & V2). unfold put_pair, sput_pair. cbn [fst snd]. split.
  - apply (agrees_seq (fun os => put_text [":"%char; " "%char] (pk k os)) _ (fun s => sk k s >> s_text m [":"%char; " "%char]) _); auto.
    apply agrees_seq; auto using text_agrees, text_silent.
  - apply (silent_seq (fun s => sk k s >> s_text m [":"%char; " "%char])); auto using silent_seq, text_silent.
Qed.
Lemma sput_agrees : forall t x, agrees (put t x) (sput m t x) /\ silent (sput m t x).
Proof.
  induction t; intros x; cbn [put sput].
  - split; [apply int_agrees|apply int_silent].
  - apply int_sput_agrees.
  - apply frac_sput_agrees.
  - apply str_sput_agrees.
  - apply range_agrees; auto.
  - apply range_agrees; auto.
  - apply range_agrees; auto.
  - apply range_agrees. apply pair_agrees; auto.
Qed.
Lemma all_agrees : forall l, agrees (put_all l) (sput_all m l) /\ silent (sput_all m l).
Proof.
  induction l as [|(t, x) l (I & J)]; cbn [put_all sput_all]; [auto using agrees_id, silent_id|]. destruct (sput_agrees t x) as (A & B). split.
  - apply (agrees_seq (put t x) _ (sput m t x) _ A I J).
  - apply silent_seq; auto.
Qed.
Lemma rest_agrees : forall us (t : tuple thing us), agrees (put_rest put t) (sput_rest m (sput m) t) /\ silent (sput_rest m (sput m) t).
Proof.
  intros us t. induction t as [|u us x t (I & J)]; cbn [put_rest sput_rest]; [auto using agrees_id, silent_id|]. destruct (sput_agrees u x) as (A & B).
  set (sep := if tuple_size (TCons x t) =? 1 then [] else [","%char; " "%char]). split.
  - apply (agrees_seq (fun os => put_text sep (put u x os)) _ (fun s => sput m u x s >> s_text m sep) _); auto. apply agrees_seq; auto using text_agrees, text_silent.
  - apply (silent_seq (fun s => sput m u x s >> s_text m sep)); auto using silent_seq, text_silent.
Qed.
Lemma tuple_agrees : forall us (t : tuple thing us), agrees (tuple_put put t) (tuple_sput m (sput m) t).
Proof.
  intros us t. assert (G: agrees (fun os => put_text [")"%char] (put_rest put t (put_text ["("%char] os)))
    (fun s => s_text m ["("%char] s >> sput_rest m (sput m) t >> s_text m [")"%char])).
  { destruct (rest_agrees us t) as (R1 & R2). apply agrees_seq; auto using text_agrees, text_silent. apply agrees_seq; auto using text_agrees. }
  destruct t as [|u us x t]; [exact G|]. destruct t as [|u2 us x2 t]; [|exact G]. cbn [tuple_put tuple_sput]. destruct (sput_agrees u x) as (A & B).
  exact (agrees_seq _ _ _ _ (agrees_seq _ _ _ _ (text_agrees ["("%char]) A B) (text_agrees _) (text_silent _)).
Qed.
End Masked.
