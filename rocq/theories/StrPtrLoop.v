(** Ranges, null-terminated texts and loops with pointers and iterators into Strs. *)
From Coq Require Import ZArith List Bool Ascii Lia.
From Verif Require Import Outcome IntModel StreamModel ListModel ListSpec ListFacts ListMore StrModel StrSpec StrFacts StrMore StrProgModel StrProgSpec StrProg
  StrPtrModel StrPtrSpec StrPtr.
Import ListNotations.
Open Scope Z_scope.

Section Loops.
Variable q : policy.
Implicit Types (t : kstate) (s : xstore) (I : kcurs).
Notation run := (k_run ConstBenign q).
Notation step := (k_step ConstBenign q).

Lemma kput_same : forall I k i x I', kput I k i x I' -> I' k i = x.
Proof. intros I k i x I' (E & _). auto. Qed.
Lemma kput_other : forall I k i x I' k' j, kput I k i x I' -> k' <> k \/ j <> i -> I' k' j = I k' j.
Proof. intros I k i x I' k' j (_ & F). auto. Qed.
Lemma kept_var_ex : forall u I, exists I', kept (eq u) I I'.
Proof. intros u I. apply (kept_ex (Nat.eqb u)). intros w. apply Nat.eqb_eq. Qed.

Lemma run_one : forall c t s I s' I' ev, kstands t s I -> short s -> kint c -> kastep c s I s' I' ev -> exists t', run [c] t = Ok (t', ev) /\ kstands t' s' I'.
Proof.
  intros c t s I s' I' ev St Sh A H. destruct (kstep_ok q _ _ _ _ _ _ _ St Sh A H) as (t' & E & St'). exists t'. cbn [k_run]. rewrite E. cbn [bind fst snd].
  rewrite app_nil_r. auto.
Qed.

Lemma k_run_app : forall p a b t, k_run p q (a ++ b) t = (r <- k_run p q a t ;; r' <- k_run p q b (fst r) ;; Ok (fst r', snd r ++ snd r')).
Proof.
  induction a as [|c a IH]; intros b t; cbn [k_run app bind fst snd].
  - destruct (k_run p q b t) as [(t', ev)|?|?|]; auto.
  - destruct (k_step p q c t) as [(t1, ev1)|?|?|]; cbn [bind fst snd]; auto. rewrite IH.
    destruct (k_run p q a t1) as [(t2, ev2)|?|?|]; cbn [bind fst snd]; auto.
    destruct (k_run p q b t2) as [(t3, ev3)|?|?|]; cbn [bind fst snd]; auto. rewrite app_assoc. auto.
Qed.

(** ** Null-terminated texts *)
(** [i = v.data(); i += n; Str u(i);] *)
Theorem data_text : forall t s I i u v a b r, kstands t s I -> short s -> strs s v = a ++ b -> until_null b r ->
  exists t' I', run [KData i v; KAdd Ptr i (num a); KText u i] t = Ok (t', []) /\ kstands t' (set_str s u r) I'.
Proof.
  intros t s I i u v a b r St Sh E U.
  destruct (kput_ex I Ptr i (PAt v 0)) as (I1 & P1). destruct (kput_ex I1 Ptr i (PAt v (length a))) as (I2 & P2). destruct (kept_var_ex u I2) as (I3 & K3).
  destruct (krun_complete q [KData i v; KAdd Ptr i (num a); KText u i] t s I (set_str s u r) I3 []) as (t' & R & St'); eauto.
  - repeat constructor.
  - change (@nil xevent) with (@nil xevent ++ [] ++ [] ++ []).
    econstructor; [auto|apply k_data; eauto|]. econstructor; [auto| |].
    + eapply (k_add Ptr i _ v 0 (length a)); [apply (kput_same _ _ _ _ _ P1)|lia|cbn [last]; rewrite E, app_length; lia|eauto].
    + econstructor; [auto| |constructor]. eapply (k_text u i v a b); eauto. apply (kput_same _ _ _ _ _ P2).
Qed.

Lemma no_null : forall b r, until_null b r -> (r = b <-> Forall (fun c => byte c <> 0) b).
Proof.
  intros b r (F & H). split; [intros <-; auto|]. intros N. destruct H as [->|(c & rest & B & ->)]; auto. exfalso.
  apply Forall_app in N. destruct N as (_ & N). inversion N; subst. auto.
Qed.

(** [i = v.data(); Str u(i);]: equal exactly without null characters. *)
Theorem data_round : forall t s I i u v, kstands t s I -> short s ->
  exists t' s' I', run [KData i v; KText u i] t = Ok (t', []) /\ kstands t' s' I' /\ until_null (strs s v) (strs s' u) /\
    (strs s' u = strs s v <-> Forall (fun c => byte c <> 0) (strs s v)) /\ forall w, w <> u -> strs s' w = strs s w.
Proof.
  intros t s I i u v St Sh. pose proof (until_null_c_str (strs s v)) as U.
  destruct (kput_ex I Ptr i (PAt v 0)) as (I1 & P1). destruct (kept_var_ex u I1) as (I3 & K3).
  destruct (krun_complete q [KData i v; KText u i] t s I (set_str s u (c_str (strs s v))) I3 []) as (t' & R & St'); eauto.
  - repeat constructor.
  - change (@nil xevent) with (@nil xevent ++ [] ++ []).
    econstructor; [auto|apply k_data; eauto|]. econstructor; [auto| |constructor]. eapply (k_text u i v [] (strs s v)); eauto. apply (kput_same _ _ _ _ _ P1).
  - exists t', (set_str s u (c_str (strs s v))), I3. split; auto. split; auto. cbn [set_str strs]. rewrite Nat.eqb_refl. split; auto. split; [apply no_null; auto|].
    intros w N. destruct (Nat.eqb_spec w u); [contradiction|auto].
Qed.

(** [i = v.data(); i += n; v = i;]: the beginning of a Str is cut off; the pointer is lost. *)
Theorem data_tail : forall t s I i v a b r, kstands t s I -> short s -> strs s v = a ++ b -> until_null b r ->
  exists t' I', run [KData i v; KAdd Ptr i (num a); KAssign v i] t = Ok (t', []) /\ kstands t' (set_str s v r) I' /\ I' Ptr i = PDead /\
    (exists x, step (KRead Ptr i) t' = UB x) /\ exists x, k_run ConstUB q [KData i v; KAdd Ptr i (num a); KAssign v i] t = UB x.
Proof.
  intros t s I i v a b r St Sh E U.
  destruct (kput_ex I Ptr i (PAt v 0)) as (I1 & P1). destruct (kput_ex I1 Ptr i (PAt v (length a))) as (I2 & P2). destruct (kept_var_ex v I2) as (I3 & K3).
  pose proof (kput_same _ _ _ _ _ P1) as E1. pose proof (kput_same _ _ _ _ _ P2) as E2.
  assert (kastep (KData i v) s I s I1 []) as S1 by (apply k_data; eauto).
  assert (kastep (KAdd Ptr i (num a)) s I1 s I2 []) as S2.
  { eapply (k_add Ptr i _ v 0 (length a)); [auto|lia|cbn [last]; rewrite E, app_length; lia|eauto]. }
  assert (karun [KData i v; KAdd Ptr i (num a)] s I s I2 []) as R12.
  { change (@nil xevent) with (@nil xevent ++ [] ++ []). econstructor; eauto. econstructor; eauto. constructor. }
  destruct (krun_complete q [KData i v; KAdd Ptr i (num a)] t s I s I2 []) as (t2 & R2 & St2); eauto; [repeat constructor|].
  destruct (krun_complete q [KData i v; KAdd Ptr i (num a); KAssign v i] t s I (set_str s v r) I3 []) as (t' & R & St'); eauto.
  - repeat constructor.
  - change (@nil xevent) with (@nil xevent ++ [] ++ [] ++ []).
    econstructor; [auto|eauto|]. econstructor; [auto|eauto|]. econstructor; [auto| |constructor]. eapply (k_assign v i v a b); eauto.
  - exists t', I3. split; auto. split; auto.
    assert (I3 Ptr i = PDead) as D.
    { specialize (K3 Ptr i). rewrite E2 in K3. destruct K3 as [(_ & K)|(N & _)]; [auto|destruct N; auto]. }
    split; auto. split.
    + cbn [k_step]. rewrite (klost _ _ _ _ _ St'); [cbn [bind]; eauto|]. intros w n. rewrite D. discriminate.
    + destruct (kwrite_undefined q (KAssign v i) t2 s I2 St2 Sh Logic.I Logic.I) as (x & W). exists x.
      change [KData i v; KAdd Ptr i (num a); KAssign v i] with ([KData i v; KAdd Ptr i (num a)] ++ [KAssign v i]).
      rewrite k_run_app, krun_const, R2 by (repeat constructor; cbn; tauto). cbn [bind fst snd k_run]. rewrite W. reflexivity.
Qed.

(** ** Ranges *)
(** [Str u(std::string(v.begin(), v.end()))] and the same from [rbegin] to [rend]. *)
Theorem iter_range : forall t s I i j u v (back : bool), kstands t s I -> short s -> i <> j ->
  exists t' I', run [KBegin i v; KEnd j v; if back then KRevRange Itr u j i else KRange Itr u i j] t = Ok (t', []) /\
    kstands t' (set_str s u (if back then rev (strs s v) else strs s v)) I'.
Proof.
  intros t s I i j u v back St Sh D.
  destruct (kput_ex I Itr i (PAt v 0)) as (I1 & P1). destruct (kput_ex I1 Itr j (PAt v (length (strs s v)))) as (I2 & P2). destruct (kept_var_ex u I2) as (I3 & K3).
  assert (I2 Itr i = PAt v 0) as E1 by (rewrite (kput_other _ _ _ _ _ Itr i P2); auto; apply (kput_same _ _ _ _ _ P1)).
  pose proof (kput_same _ _ _ _ _ P2) as E2.
  assert (stretch Itr (strs s v) 0 (length (strs s v)) (strs s v)) as X.
  { left. exists [], []. rewrite app_nil_r. auto. }
  destruct (krun_complete q [KBegin i v; KEnd j v; if back then KRevRange Itr u j i else KRange Itr u i j] t s I (set_str s u (if back then rev (strs s v) else strs s v)) I3 [])
    as (t' & R & St'); eauto.
  - destruct back; repeat constructor.
  - change (@nil xevent) with (@nil xevent ++ [] ++ [] ++ []).
    econstructor; [auto|apply k_begin; eauto|]. econstructor; [auto|apply StrPtrSpec.k_end; eauto|]. econstructor; [auto| |constructor].
    destruct back; [eapply k_rev_range|eapply k_range]; eauto.
Qed.

(** [i = v.data(); j = i; i += |a|; j += |a| + |m|; Str u(std::string(i, j));]: the part [m]. *)
Theorem ptr_range : forall t s I i j u v a m b, kstands t s I -> short s -> i <> j -> strs s v = a ++ m ++ b ->
  exists t' I', run [KData i v; KCopy Ptr j i; KAdd Ptr i (num a); KAdd Ptr j (num a + num m); KRange Ptr u i j] t = Ok (t', []) /\
    kstands t' (set_str s u m) I'.
Proof.
  intros t s I i j u v a m b St Sh D E.
  destruct (kput_ex I Ptr i (PAt v 0)) as (I1 & P1). destruct (kput_ex I1 Ptr j (PAt v 0)) as (I2 & P2).
  destruct (kput_ex I2 Ptr i (PAt v (length a))) as (I3 & P3). destruct (kput_ex I3 Ptr j (PAt v (length a + length m))) as (I4 & P4). destruct (kept_var_ex u I4) as (I5 & K5).
  assert (I1 Ptr i = PAt v 0) as E1 by apply (kput_same _ _ _ _ _ P1).
  assert (I2 Ptr i = PAt v 0) as E2 by (rewrite (kput_other _ _ _ _ _ Ptr i P2); auto).
  assert (I3 Ptr j = PAt v 0) as E3 by (rewrite (kput_other _ _ _ _ _ Ptr j P3); auto; apply (kput_same _ _ _ _ _ P2)).
  assert (I4 Ptr i = PAt v (length a)) as E4 by (rewrite (kput_other _ _ _ _ _ Ptr i P4); auto; apply (kput_same _ _ _ _ _ P3)).
  pose proof (kput_same _ _ _ _ _ P4) as E5.
  assert (length (strs s v) = length a + length m + length b)%nat as L by (rewrite E, !app_length; lia).
  destruct (krun_complete q [KData i v; KCopy Ptr j i; KAdd Ptr i (num a); KAdd Ptr j (num a + num m); KRange Ptr u i j] t s I (set_str s u m) I5 []) as (t' & R & St'); eauto.
  - repeat constructor.
  - change (@nil xevent) with (@nil xevent ++ [] ++ [] ++ [] ++ [] ++ []).
    econstructor; [auto|apply k_data; eauto|]. econstructor; [auto|eapply k_copy; eauto|].
    econstructor; [auto|eapply (k_add Ptr i _ v 0 (length a)); [auto|lia|cbn [last]; lia|eauto]|].
    econstructor; [auto|eapply (k_add Ptr j _ v 0 (length a + length m)); [auto|lia|cbn [last]; lia|eauto]|].
    econstructor; [auto| |constructor]. eapply k_range; eauto. left. exists a, b. auto.
Qed.

(** [v.data()[v.size()]] *)
Theorem data_end : forall t s I i v, kstands t s I -> short s ->
  exists t' I', run [KData i v; KAdd Ptr i (num (strs s v)); KRead Ptr i] t = Ok (t', [XChar (ascii_of_nat 0)]) /\ kstands t' s I'.
Proof.
  intros t s I i v St Sh.
  destruct (kput_ex I Ptr i (PAt v 0)) as (I1 & P1). destruct (kput_ex I1 Ptr i (PAt v (length (strs s v)))) as (I2 & P2).
  destruct (krun_complete q [KData i v; KAdd Ptr i (num (strs s v)); KRead Ptr i] t s I s I2 [XChar (ascii_of_nat 0)]) as (t' & R & St'); eauto.
  - repeat constructor.
  - change [XChar (ascii_of_nat 0)] with (@nil xevent ++ [] ++ [XChar (ascii_of_nat 0)] ++ []).
    econstructor; [auto|apply k_data; eauto|]. econstructor; [auto|eapply (k_add Ptr i _ v 0 (length (strs s v))); [apply (kput_same _ _ _ _ _ P1)|lia|cbn [last]; lia|eauto]|].
    econstructor; [auto| |constructor]. eapply k_read; [apply (kput_same _ _ _ _ _ P2)|]. right. auto.
Qed.

(** [&v[z]] reads what [v[z]] reads. *)
Theorem addr_read : forall t s I i v z n c, kstands t s I -> short s -> INT_MIN <= z <= INT_MAX ->
  position (num (strs s v)) z = Some n -> nth_error (strs s v) n = Some c ->
  exists t' I', run [KAddr i v z; KRead Ptr i] t = Ok (t', [XChar c]) /\ kstands t' s I' /\ I' Ptr i = PAt v n.
Proof.
  intros t s I i v z n c St Sh A P N. destruct (kput_ex I Ptr i (PAt v n)) as (I1 & P1).
  destruct (krun_complete q [KAddr i v z; KRead Ptr i] t s I s I1 [XChar c]) as (t' & R & St'); eauto.
  - repeat constructor; auto; cbn [kint]; lia.
  - change [XChar c] with (@nil xevent ++ [XChar c] ++ []).
    econstructor; [auto|eapply k_addr; eauto|]. econstructor; [auto| |constructor]. eapply k_read; [apply (kput_same _ _ _ _ _ P1)|]. left. auto.
  - exists t', I1. split; auto. split; auto. apply (kput_same _ _ _ _ _ P1).
Qed.

(** ** How long a pointer lives *)
Lemma step_spares : forall c s I s' I' ev k i v n, kastep c s I s' I' ev -> spares k i v c -> I k i = PAt v n ->
  I' k i = PAt v n /\ strs s' v = strs s v.
Proof.
  intros c s I s' I' ev k i v n H S E.
  assert (PUT : forall k' j x I', kput I k' j x I' -> (k' = k -> j <> i) -> I' k i = PAt v n).
  { intros k' j x J (_ & F) N. rewrite F; auto. destruct k, k'; auto; try (left; discriminate); right; intros ->; apply N; auto. }
  assert (KEPT : forall L I', kept L I I' -> ~ L v -> I' k i = PAt v n).
  { intros L J K N. specialize (K k i). rewrite E in K. destruct K as [(X & _)|(_ & X)]; [contradiction|auto]. }
  assert (SET : forall u r, u <> v -> strs (set_str s u r) v = strs s v).
  { intros u r N. cbn [set_str strs]. destruct (Nat.eqb_spec v u); [congruence|auto]. }
  destruct H; cbn [spares] in S; try (split; [|auto]; eauto).
  - eapply KEPT; eauto. tauto.
  - eapply text_changed; eauto. tauto.
Qed.

Theorem run_spares : forall prog s I s' I' ev k i v n, karun prog s I s' I' ev -> Forall (spares k i v) prog -> I k i = PAt v n ->
  I' k i = PAt v n /\ strs s' v = strs s v.
Proof.
  intros prog s I s' I' ev k i v n R. induction R as [s I|c rest s I s1 I1 s2 I2 ev1 ev2 Sh H R IH]; intros F E; auto.
  inversion F; subst. destruct (step_spares _ _ _ _ _ _ _ _ _ _ H H2 E) as (E1 & T1). destruct (IH H3 E1) as (E2 & T2). split; auto. congruence.
Qed.

Theorem read_later : forall prog t s I t' s' I' ev k i v n c, kstands t s I -> Forall kint prog -> karun prog s I s' I' ev ->
  Forall (spares k i v) prog -> I k i = PAt v n -> reads k (strs s v) n c -> run prog t = Ok (t', ev) ->
  step (KRead k i) t' = Ok (t', [XChar c]).
Proof.
  intros prog t s I t' s' I' ev k i v n c St A R F E X RR. destruct (krun_complete q _ _ _ _ _ _ _ St A R) as (t2 & R2 & St2).
  rewrite RR in R2. injection R2 as <-. destruct (run_spares _ _ _ _ _ _ _ _ _ _ R F E) as (E' & T').
  cbn [k_step]. destruct (kat _ _ _ _ _ _ _ St2 E') as (-> & _). cbn [bind fst snd]. erewrite k_char_ok; eauto; [reflexivity|]. rewrite T'. auto.
Qed.

(** After a statement that replaces the characters the pointer is lost. *)
Theorem read_lost : forall c t s I t' s' I' ev k i v n, kstands t s I -> short s -> xint c -> kastep (KDo c) s I s' I' ev -> loses c v -> quiet ev ->
  I k i = PAt v n -> step (KDo c) t = Ok (t', ev) -> exists u, step (KRead k i) t' = UB u.
Proof.
  intros c t s I t' s' I' ev k i v n St Sh A H L Q E RR. destruct (kstep_ok q (KDo c) _ _ _ _ _ _ St Sh A H) as (t2 & R2 & St2).
  rewrite RR in R2. injection R2 as <-. inversion H; subst.
  match goal with K : kept _ _ _ |- _ => specialize (K k i); rewrite E in K; destruct K as [(_ & D)|(N & _)]; [|destruct N; auto] end.
  cbn [k_step]. rewrite (klost _ _ _ _ _ St2); [cbn [bind]; eauto|]. intros w m. rewrite D. discriminate.
Qed.

(** ** Loops *)
Lemma kadd_ok : forall t s I k i v n, kstands t s I -> I k i = PAt v n -> (n < last k (strs s v))%nat ->
  exists t' I', step (KAdd k i 1) t = Ok (t', []) /\ kstands t' s I' /\ kput I k i (PAt v (S n)) I'.
Proof.
  intros t s I k i v n St E L. destruct (kput_ex I k i (PAt v (S n))) as (I' & P).
  pose proof St as (X & _). cbn [k_step]. destruct (kat _ _ _ _ _ _ _ St E) as (-> & _). cbn [bind fst snd]. unfold len, k_spots. rewrite spots_len, X.
  destruct (Z.leb_spec 0 (Z.of_nat n + 1)); [|lia]. destruct (Z.leb_spec (Z.of_nat n + 1) (Z.of_nat (last k (strs s v)))); [|lia]. cbn [andb].
  replace (Z.to_nat (Z.of_nat n + 1)) with (S n) by lia. eexists. exists I'. split; [reflexivity|]. split; auto. eapply kput_stands; eauto.
Qed.

Lemma until_null_app : forall (txt r : text), until_null txt r -> exists b, txt = r ++ b /\ (b = [] \/ exists c b', b = c :: b' /\ byte c = 0).
Proof. intros txt r (F & [->|(c & b & B & ->)]); [exists []; rewrite app_nil_r; auto|]. exists (c :: b). split; auto. right. eauto. Qed.

(** The loop over null-terminated characters, with any body that keeps the text and the pointer. *)
Theorem c_for_rule : forall (Inv : text -> list xevent -> xstore -> Prop) i v txt r body, until_null txt r ->
  (forall d x e ev t s I, r = d ++ x :: e -> Inv d ev s -> kstands t s I -> strs s v = txt -> I Ptr i = PAt v (length d) ->
    exists t' s' I' ev', run body t = Ok (t', ev') /\ kstands t' s' I' /\ Inv (d ++ [x]) (ev ++ ev') s' /\ strs s' v = txt /\
      I' Ptr i = PAt v (length d)) ->
  forall fuel t s I, kstands t s I -> Inv [] [] s -> strs s v = txt -> (length r < fuel)%nat ->
  exists t' s' I' ev, c_for ConstBenign q fuel i v body t = Ok (t', ev) /\ kstands t' s' I' /\ Inv r ev s' /\ strs s' v = txt /\
    I' Ptr i = PAt v (length r).
Proof.
  intros Inv i v txt r body U B. destruct (until_null_app _ _ U) as (b & Et & Eb).
  assert (G : forall e d ev fuel t s I, r = d ++ e -> Inv d ev s -> kstands t s I -> strs s v = txt -> I Ptr i = PAt v (length d) -> (length e < fuel)%nat ->
    exists t' s' I' ev', k_while ConstBenign q fuel i body t = Ok (t', ev') /\ kstands t' s' I' /\ Inv r (ev ++ ev') s' /\ strs s' v = txt /\ I' Ptr i = PAt v (length r)).
  { induction e as [|x e IH]; intros d ev fuel t s I Er Iv St Es Ei L; (destruct fuel as [|fuel]; [cbn [length] in L; lia|]); cbn [k_while];
      destruct (kat _ _ _ _ _ _ _ St Ei) as (-> & _); cbn [bind fst snd].
    - rewrite app_nil_r in Er. subst d. rewrite (k_char_ok t s I Ptr v (length r) knull St).
      + cbn [bind]. rewrite Ascii.eqb_refl. exists t, s, I, []. rewrite app_nil_r. auto.
      + unfold reads. rewrite Es, Et. destruct Eb as [->|(c & b' & -> & Bc)]; [right; rewrite app_nil_r; auto|].
        left. rewrite nth_error_app2, Nat.sub_diag by lia. cbn. rewrite (byte_null c); auto.
    - assert (byte x <> 0) as Nx.
      { destruct U as (F & _). rewrite Er in F. apply Forall_app in F. destruct F as (_ & F). inversion F; auto. }
      rewrite (k_char_ok t s I Ptr v (length d) x St).
      2: { left. rewrite Es, Et, Er, <- app_assoc. rewrite nth_error_app2, Nat.sub_diag by lia. reflexivity. }
      cbn [bind]. destruct (Ascii.eqb_spec x knull) as [->|_]; [exfalso; apply Nx; reflexivity|].
      destruct (B d x e ev t s I Er Iv St Es Ei) as (t1 & s1 & I1 & ev1 & -> & St1 & Iv1 & Es1 & Ei1). cbn [bind fst snd].
      destruct (kadd_ok t1 s1 I1 Ptr i v (length d) St1 Ei1) as (t2 & I2 & R2 & St2 & P2).
      { cbn [last]. rewrite Es1, Et, Er, !app_length. lia. }
      rewrite R2. cbn [bind fst snd app].
      destruct (IH (d ++ [x]) (ev ++ ev1) fuel t2 s1 I2) as (t3 & s3 & I3 & ev3 & R3 & St3 & Iv3 & Es3 & Ei3); auto.
      + rewrite <- app_assoc. auto.
      + rewrite app_length. cbn [length]. rewrite Nat.add_1_r. apply (kput_same _ _ _ _ _ P2).
      + cbn [length] in L. lia.
      + rewrite R3. cbn [bind fst snd]. exists t3, s3, I3, (ev1 ++ ev3). rewrite app_assoc. auto. }
  intros fuel t s I St Iv Es L. unfold c_for. cbn [k_step bind fst snd].
  destruct (kput_ex I Ptr i (PAt v 0)) as (I1 & P1).
  destruct (G r [] [] fuel (k_put Ptr i v 0 t) s I1) as (t3 & s3 & I3 & ev3 & R3 & X); eauto.
  - eapply kput_stands; eauto; cbn [last]; lia.
  - apply (kput_same _ _ _ _ _ P1).
  - exists t3, s3, I3, ev3. auto.
Qed.

(** [for (i = v.data(); *i; ++i) emit( *i);] *)
Theorem c_for_reads : forall fuel t s I i v r, kstands t s I -> short s -> until_null (strs s v) r -> (length r < fuel)%nat ->
  exists t' I', c_for ConstBenign q fuel i v [KRead Ptr i] t = Ok (t', map XChar r) /\ kstands t' s I'.
Proof.
  intros fuel t s I i v r St Sh U L.
  destruct (c_for_rule (fun d ev s' => ev = map XChar d /\ s' = s) i v (strs s v) r [KRead Ptr i] U) with (fuel := fuel) (t := t) (s := s) (I := I)
    as (t' & s' & I' & ev & R & St' & (-> & ->) & _); auto.
  - intros d x e ev t1 s1 I1 Er (-> & ->) St1 Es Ei.
    destruct (run_one (KRead Ptr i) t1 s I1 s I1 [XChar x] St1 Sh Logic.I) as (t2 & R2 & St2).
    { eapply k_read; eauto. left. destruct (until_null_app _ _ U) as (b & Et & _). rewrite Et, Er, <- app_assoc.
      rewrite nth_error_app2, Nat.sub_diag by lia. reflexivity. }
    exists t2, s, I1, [XChar x]. rewrite map_app. auto.
  - exists t', I'. auto.
Qed.

(** The length that a C function would find: [for (i = v.data(); *i; ++i); emit(i - v.data());] *)
Theorem c_length : forall fuel t s I i j v r, kstands t s I -> short s -> i <> j -> until_null (strs s v) r -> (length r < fuel)%nat ->
  exists t' I', (t1 <- c_for ConstBenign q fuel i v [] t ;; run [KData j v; KDiff Ptr i j] (fst t1)) = Ok (t', [XNum (num r)]) /\ kstands t' s I'.
Proof.
  intros fuel t s I i j v r St Sh D U L.
  destruct (c_for_rule (fun d ev s' => s' = s) i v (strs s v) r [] U) with (fuel := fuel) (t := t) (s := s) (I := I)
    as (t' & s' & I' & ev & R & St' & -> & _ & Ei); auto.
  - intros d x e ev t1 s1 I1 Er -> St1 Es Ei. exists t1, s, I1, []. auto.
  - rewrite R. cbn [bind fst snd].
    destruct (kput_ex I' Ptr j (PAt v 0)) as (I2 & P2).
    destruct (krun_complete q [KData j v; KDiff Ptr i j] t' s I' s I2 [XNum (num r)]) as (t2 & R2 & St2); eauto.
    + repeat constructor.
    + replace [XNum (num r)] with (@nil xevent ++ [XNum (num r - Z.of_nat 0)] ++ []) by (cbn; do 2 f_equal; lia).
      econstructor; [auto|apply k_data; eauto|]. econstructor; [auto| |constructor]. eapply k_diff; [|apply (kput_same _ _ _ _ _ P2)].
      rewrite (kput_other _ _ _ _ _ Ptr i P2); auto.
Qed.

(** The range-for, with any body that keeps the text and the iterators. *)
Theorem range_for_rule : forall (Inv : text -> list xevent -> xstore -> Prop) i j v txt body, i <> j ->
  (forall d x e ev t s I, txt = d ++ x :: e -> Inv d ev s -> kstands t s I -> strs s v = txt -> I Itr i = PAt v (length d) -> I Itr j = PAt v (length txt) ->
    exists t' s' I' ev', run body t = Ok (t', ev') /\ kstands t' s' I' /\ Inv (d ++ [x]) (ev ++ ev') s' /\ strs s' v = txt /\
      I' Itr i = PAt v (length d) /\ I' Itr j = PAt v (length txt)) ->
  forall fuel t s I, kstands t s I -> Inv [] [] s -> strs s v = txt -> (length txt < fuel)%nat ->
  exists t' s' I' ev, range_for ConstBenign q fuel i j v body t = Ok (t', ev) /\ kstands t' s' I' /\ Inv txt ev s' /\ strs s' v = txt.
Proof.
  intros Inv i j v txt body D B.
  assert (G : forall e d ev fuel t s I, txt = d ++ e -> Inv d ev s -> kstands t s I -> strs s v = txt -> I Itr i = PAt v (length d) -> I Itr j = PAt v (length txt) ->
    (length e < fuel)%nat ->
    exists t' s' I' ev', k_until ConstBenign q fuel i j body t = Ok (t', ev') /\ kstands t' s' I' /\ Inv txt (ev ++ ev') s' /\ strs s' v = txt).
  { induction e as [|x e IH]; intros d ev fuel t s I Er Iv St Es Ei Ej L; (destruct fuel as [|fuel]; [cbn [length] in L; lia|]); cbn [k_until];
      destruct (kat _ _ _ _ _ _ _ St Ei) as (-> & _); destruct (kat _ _ _ _ _ _ _ St Ej) as (-> & _); cbn [bind fst snd]; rewrite Nat.eqb_refl; cbn [negb].
    - rewrite app_nil_r in Er. subst d. rewrite Nat.eqb_refl. exists t, s, I, []. rewrite app_nil_r. auto.
    - destruct (Nat.eqb_spec (length d) (length txt)) as [X|_]; [rewrite Er, app_length in X; cbn [length] in X; lia|].
      destruct (B d x e ev t s I Er Iv St Es Ei Ej) as (t1 & s1 & I1 & ev1 & -> & St1 & Iv1 & Es1 & Ei1 & Ej1). cbn [bind fst snd].
      destruct (kadd_ok t1 s1 I1 Itr i v (length d) St1 Ei1) as (t2 & I2 & R2 & St2 & P2).
      { cbn [last]. rewrite Es1, Er, !app_length. cbn [length]. lia. }
      rewrite R2. cbn [bind fst snd app].
      destruct (IH (d ++ [x]) (ev ++ ev1) fuel t2 s1 I2) as (t3 & s3 & I3 & ev3 & R3 & St3 & Iv3 & Es3); auto.
      + rewrite <- app_assoc. auto.
      + rewrite app_length. cbn [length]. rewrite Nat.add_1_r. apply (kput_same _ _ _ _ _ P2).
      + rewrite (kput_other _ _ _ _ _ Itr j P2); auto.
      + cbn [length] in L. lia.
      + rewrite R3. cbn [bind fst snd]. exists t3, s3, I3, (ev1 ++ ev3). rewrite app_assoc. auto. }
  intros fuel t s I St Iv Es L. unfold range_for. pose proof St as (X & _). cbn [k_run k_step bind fst snd]. 
  destruct (kput_ex I Itr i (PAt v 0)) as (I1 & P1). destruct (kput_ex I1 Itr j (PAt v (length txt))) as (I2 & P2).
  destruct (G txt [] [] fuel (k_put Itr j v (length (strs (kx (k_put Itr i v 0 t)) v)) (k_put Itr i v 0 t)) s I2) as (t3 & s3 & I3 & ev3 & R3 & Y); eauto.
  - cbn [k_put kx]. rewrite X, Es. eapply kput_stands; [eapply kput_stands; eauto; cbn [last]; lia|rewrite Es; cbn [last]; lia|auto].
  - rewrite (kput_other _ _ _ _ _ Itr i P2); auto. apply (kput_same _ _ _ _ _ P1).
  - apply (kput_same _ _ _ _ _ P2).
  - exists t3, s3, I3, ev3. auto.
Qed.

(** [for (char c : v) emit(c);] *)
Theorem range_for_reads : forall fuel t s I i j v, kstands t s I -> short s -> i <> j -> (length (strs s v) < fuel)%nat ->
  exists t' I', range_for ConstBenign q fuel i j v [KRead Itr i] t = Ok (t', map XChar (strs s v)) /\ kstands t' s I'.
Proof.
  intros fuel t s I i j v St Sh D L.
  destruct (range_for_rule (fun d ev s' => ev = map XChar d /\ s' = s) i j v (strs s v) [KRead Itr i] D) with (fuel := fuel) (t := t) (s := s) (I := I)
    as (t' & s' & I' & ev & R & St' & (-> & ->) & _); auto.
  - intros d x e ev t1 s1 I1 Er (-> & ->) St1 Es Ei Ej.
    destruct (run_one (KRead Itr i) t1 s I1 s I1 [XChar x] St1 Sh Logic.I) as (t2 & R2 & St2).
    { eapply k_read; eauto. left. rewrite Er, nth_error_app2, Nat.sub_diag by lia. reflexivity. }
    exists t2, s, I1, [XChar x]. rewrite map_app. auto 10.
  - exists t', I'. auto.
Qed.
End Loops.

(** A Str with a null character is not the Str made of its data. *)
Theorem data_refuted : exists t s I i u v, kstands t s I /\ short s /\
  forall q t' s' I', k_run ConstBenign q [KData i v; KText u i] t = Ok (t', []) -> kstands t' s' I' -> strs s' u <> strs s v.
Proof.
  exists (KState (XStore (fun _ => ["a"%char; knull; "b"%char]) (fun _ => [])) (fun _ => O) (fun _ _ => None)).
  exists (XStore (fun _ => ["a"%char; knull; "b"%char]) (fun _ => [])), (fun _ _ => PNone), 0%nat, 1%nat, 0%nat.
  split; [split; auto|]. split.
  - split; cbn; [intros; vm_compute; reflexivity|]. intros. split; [vm_compute; discriminate|constructor].
  - intros q t' s' I' R (X & _). vm_compute in R. injection R as <-. subst s'. cbn. discriminate.
Qed.

Lemma kstands0 : kstands kstate0 (XStore (fun _ => []) (fun _ => [])) (fun _ _ => PNone).
Proof. split; auto. Qed.
Lemma short0 : short (XStore (fun _ => []) (fun _ => [])).
Proof. split; cbn; [intros; vm_compute; reflexivity|]. intros. split; [vm_compute; discriminate|constructor]. Qed.
