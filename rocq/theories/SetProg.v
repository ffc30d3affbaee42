(** Set programs on the code and on mathematical sets. *)
From Coq Require Import ZArith List Bool Ascii Lia Sorted.
From Verif Require Import Outcome ListModel ListSpec ListFacts ListMore SetModel SetSpec SetFacts.
Import ListNotations.
Open Scope Z_scope.

Section Prog.
Context {T : Type} (lt eqb : T -> T -> bool) (show : T -> list ascii).
Hypothesis O : strict_total lt.
Hypothesis D : decides eqb.
Notation step := (tstep lt eqb show).
Notation spec := (zstep lt show).

Lemma stands_set : forall s e v l P, stands lt s e -> enumerates lt l P -> len l <= INT_MAX -> stands lt (tset s v l) (zset e v P).
Proof. intros s e v l P S E L w. unfold tset, zset. destruct (Nat.eqb w v); auto. Qed.
(** A variable assigned its own value. *)
Lemma stands_same : forall s e v l, stands lt s e -> l = s v -> stands lt (tset s v l) e.
Proof. intros s e v l S -> w. unfold tset. destruct (Nat.eqb_spec w v); [subst|]; auto. Qed.

Lemma tells_eq : forall b c P, tells b P -> tells c P -> b = c.
Proof. unfold tells. intros b c P A B. destruct b, c; auto; [symmetry|]; tauto. Qed.

Lemma fit_ok : forall s e v w, stands lt s e -> (fit (e v) (e w) <-> len (s v) + len (s w) <= INT_MAX).
Proof.
  intros s e v w S. destruct (S v) as (A & _), (S w) as (B & _). split.
  - intros (m & n & M & N & L). rewrite (enum_len lt O _ _ _ A M), (enum_len lt O _ _ _ B N) in L. auto.
  - intros L. exists (len (s v)), (len (s w)). split; [apply (enum_card lt O); auto|]. split; [apply (enum_card lt O); auto|auto].
Qed.

Lemma guard_in : forall (s : tstore T) n a k, len a <= INT_MAX -> len a + n <= INT_MAX -> tguard s n a k = k.
Proof. intros s n a k L M. unfold tguard. rewrite size_ok by auto. destruct (Z.leb_spec n (INT_MAX - len a)); [auto|lia]. Qed.
Lemma guard_out : forall (s : tstore T) n a k, len a <= INT_MAX -> INT_MAX < len a + n -> tguard s n a k = Ok (s, []).
Proof. intros s n a k L M. unfold tguard. rewrite size_ok by auto. destruct (Z.leb_spec n (INT_MAX - len a)); [lia|auto]. Qed.

Lemma nil_enum : enumerates lt [] (@empty T).
Proof. split; [constructor|]. intros x. cbn. unfold empty. tauto. Qed.
Lemma nil_small : len (@nil T) <= INT_MAX.
Proof. rewrite len_nil. unfold INT_MAX. lia. Qed.

Lemma insert_len : forall x l, increasing lt l -> len (snd (std_insert lt x l)) <= len l + 1.
Proof. intros x l I. destruct (insert_range_ok lt O [x] l I) as (_ & _ & H). cbn in H. unfold len in *. cbn [length] in H. lia. Qed.

Ltac fin := do 1 eexists; split; [reflexivity|].

Lemma zcomplete : forall c s e e' ev, stands lt s e -> tint_stmt c -> spec c e e' ev ->
  exists s', step c s = Ok (s', ev) /\ stands lt s' e'.
Proof.
  intros c s e e' ev S A H. pose proof nil_enum as NE. pose proof nil_small as NS.
  assert (SZ: forall v, size (s v) = len (s v)) by (intros; apply size_ok, S).
  assert (SL: forall v, len (s v) <= INT_MAX) by (intros v; apply S).
  assert (SE: forall v, enumerates lt (s v) (e v)) by (intros v; apply S).
  assert (SI: forall v, increasing lt (s v)) by (intros v; apply S).
  destruct H; cbn [tint_stmt] in A; cbn [tstep].
  - fin. apply stands_set; auto; [apply (of_enum lt O)|]. pose proof (made_len lt O xs). unfold set_of, len in *. lia.
  - fin. apply stands_set; auto.
  - destruct (Nat.eqb_spec v w); [contradiction|]. fin. apply stands_set; auto. apply stands_set; auto.
  - rewrite (enum_len lt O _ _ _ (SE v) H) in *. unfold tcall, set_add. rewrite SZ, full_ok by lia.
    destruct (insert_enum lt O x _ _ (SE v)) as (B & C). destruct (std_insert lt x (s v)) as (b', l') eqn:Q. cbn [fst snd] in *.
    rewrite (tells_eq _ _ _ H1 C). fin. apply stands_set; auto. pose proof (insert_len x _ (SI v)) as X. rewrite Q in X. cbn in X. lia.
  - pose proof (enum_len lt O _ _ _ (SE v) H) as L. unfold tcall, set_add. rewrite SZ, full_throw by lia. fin. apply stands_same; auto.
  - unfold tcall, set_remove. destruct (erase_enum lt O x _ _ (SE v)) as (B & C). destruct (erase_ok lt O x _ (SI v)) as (_ & _ & _ & L).
    destruct (std_erase lt x (s v)) as (n, l') eqn:Q. cbn [fst snd] in *. rewrite (tells_eq _ _ _ H C). fin. apply stands_set; auto. pose proof (SL v). lia.
  - unfold tcall, set_pop. rewrite SZ. destruct (s v) as [|y l] eqn:Q.
    + exfalso. assert (N: nothing (e v)) by (apply (enum_nil lt _ _ (SE v)); auto). destruct H as (H & _). apply (N x H).
    + pose proof (SE v) as E. rewrite Q in E. assert (y = x) as -> by (eapply (least_unique lt O); [apply (head_least lt _ _ _ E)|auto]).
      pose proof (len_nonneg _ l). pose proof (SL v) as L. rewrite Q, len_cons in L.
      unfold check_empty. rewrite len_cons. destruct (Z.eqb_spec (1 + len l) 0); [lia|]. fin. apply stands_set; auto; [|lia]. apply (tail_enum lt O); auto.
  - unfold tcall, set_pop. rewrite SZ. assert (Q: s v = []) by (apply (enum_nil lt _ _ (SE v)); auto). rewrite Q. fin. apply stands_same; auto.
  - rewrite (enum_len lt O _ _ _ (SE v) H) in *. rewrite guard_in by auto. fin. apply stands_set; auto; [apply (range_enum lt O); auto|].
    destruct (insert_range_ok lt O xs _ (SI v)) as (_ & _ & L). unfold len in *. lia.
  - rewrite (enum_len lt O _ _ _ (SE v) H) in *. rewrite guard_out by auto. fin. auto.
  - apply (fit_ok s e v w S) in H0. rewrite SZ, guard_in by auto. destruct (Nat.eqb_spec v w); [contradiction|]. fin. apply stands_set; auto.
    + eapply enum_same; [apply (range_enum lt O _ _ _ (SE v))|]. intros y. unfold either. destruct (SE w) as (_ & E). rewrite E. tauto.
    + destruct (insert_range_ok lt O (s w) _ (SI v)) as (_ & _ & L). lia.
  - rewrite (fit_ok s e v w S) in H. rewrite SZ, guard_out by (auto; lia). fin. auto.
  - fin. apply stands_set; auto.
  - fin. apply stands_set; auto; [apply (and_ok lt O); auto|]. pose proof (and_len lt O (s v) (s w)). pose proof (SL v). lia.
  - apply (fit_ok s e v w S) in H. rewrite SZ, guard_in by auto. fin. apply stands_set; auto; [apply (or_ok lt O); auto|]. pose proof (or_len lt O (s v) (s w)). lia.
  - rewrite (fit_ok s e v w S) in H. rewrite SZ, guard_out by (auto; lia). fin. auto.
  - fin. apply stands_set; auto; [apply (sub_ok lt O); auto|]. pose proof (sub_len lt O (s v) (s w)). pose proof (SL v). lia.
  - apply (fit_ok s e v w S) in H. rewrite SZ, guard_in by auto. fin. apply stands_set; auto; [apply (xor_ok lt O); auto|]. pose proof (xor_len lt O (s v) (s w)). lia.
  - rewrite (fit_ok s e v w S) in H. rewrite SZ, guard_out by (auto; lia). fin. auto.
  - fin. apply stands_set; auto; [apply (and_ok lt O); auto|]. pose proof (and_len lt O (s v) (s w)). pose proof (SL v). lia.
  - apply (fit_ok s e v w S) in H. rewrite SZ, guard_in by auto. fin. apply stands_set; auto; [apply (or_ok lt O); auto|]. pose proof (or_len lt O (s v) (s w)). lia.
  - rewrite (fit_ok s e v w S) in H. rewrite SZ, guard_out by (auto; lia). fin. auto.
  - fin. apply stands_set; auto; [apply (sub_ok lt O); auto|]. pose proof (sub_len lt O (s v) (s w)). pose proof (SL v). lia.
  - apply (fit_ok s e v w S) in H. rewrite SZ, guard_in by auto. fin. apply stands_set; auto; [apply (xor_ok lt O); auto|]. pose proof (xor_len lt O (s v) (s w)). lia.
  - rewrite (fit_ok s e v w S) in H. rewrite SZ, guard_out by (auto; lia). fin. auto.
  - cbn [temit]. exists s. split; auto. repeat f_equal. apply (tells_eq _ _ (e v x)); auto. unfold tells, set_contains. rewrite (contains_ok lt O) by auto. apply SE.
  - unfold set_min. rewrite SZ. destruct (s v) as [|y l] eqn:Q.
    + exfalso. assert (N: nothing (e v)) by (apply (enum_nil lt _ _ (SE v)); auto). destruct H as (H & _). apply (N x H).
    + pose proof (SE v) as E. rewrite Q in E. assert (y = x) as -> by (eapply (least_unique lt O); [apply (head_least lt _ _ _ E)|auto]).
      pose proof (len_nonneg _ l). unfold check_empty. rewrite len_cons. destruct (Z.eqb_spec (1 + len l) 0); [lia|]. fin. auto.
  - unfold set_min. rewrite SZ. assert (Q: s v = []) by (apply (enum_nil lt _ _ (SE v)); auto). rewrite Q. fin. auto.
  - unfold set_max. rewrite SZ. destruct (s v) as [|y l _] eqn:Q using rev_ind.
    + exfalso. assert (N: nothing (e v)) by (apply (enum_nil lt _ _ (SE v)); auto). destruct H as (H & _). apply (N x H).
    + pose proof (SE v) as E. rewrite Q in E. assert (y = x) as -> by (eapply (greatest_unique lt O); [apply (last_greatest lt _ _ _ E)|auto]).
      pose proof (len_nonneg _ l). unfold check_empty. rewrite len_app, len_cons, len_nil. destruct (Z.eqb_spec (len l + (1 + 0)) 0); [lia|].
      rewrite rev_unit. fin. auto.
  - unfold set_max. rewrite SZ. assert (Q: s v = []) by (apply (enum_nil lt _ _ (SE v)); auto). rewrite Q. fin. auto.
  - rewrite SZ, (enum_len lt O _ _ _ (SE v) H). fin. auto.
  - exists s. split; auto. cbn. repeat f_equal. apply (tells_eq _ _ (nothing (e v))); auto. unfold tells, set_is_empty. rewrite <- (enum_nil lt _ _ (SE v)).
    destruct (s v); intuition discriminate.
  - exists s. split; auto. cbn. repeat f_equal. apply (tells_eq _ _ (same (e v) (e w))); auto. apply (eq_ok lt O); auto.
  - exists s. split; auto. cbn. repeat f_equal. apply (tells_eq _ _ (included (e v) (e w) /\ ~ included (e w) (e v))); auto. apply (lt_ok lt O); auto.
  - exists s. split; auto. cbn. repeat f_equal. apply (tells_eq _ _ (included (e v) (e w))); auto. apply (le_ok lt O); auto.
  - exists s. split; auto. cbn. repeat f_equal. apply (tells_eq _ _ (included (e w) (e v) /\ ~ included (e v) (e w))); auto. apply (lt_ok lt O); auto.
  - exists s. split; auto. cbn. repeat f_equal. apply (tells_eq _ _ (included (e w) (e v))); auto. apply (le_ok lt O); auto.
  - rewrite (enum_unique lt O l (s v) (e v) (e v)); auto; [|unfold same; tauto]. fin. auto.
  - rewrite (enum_unique lt O l (s v) (e v) (e v)); auto; [|unfold same; tauto]. cbn. unfold set_print. rewrite print_spec. fin. auto.
Qed.

Lemma fit_dec : forall s e v w, stands lt s e -> fit (e v) (e w) \/ ~ fit (e v) (e w).
Proof. intros s e v w S. rewrite (fit_ok s e v w S). lia. Qed.
Lemma tells_ex : forall (P : Prop), P \/ ~ P -> exists b, tells b P.
Proof. intros P [H|H]; [exists true|exists false]; unfold tells; intuition discriminate. Qed.
Lemma in_spec_dec : forall s e v x, stands lt s e -> e v x \/ ~ e v x.
Proof.
  intros s e v x S. destruct (S v) as ((I & E) & _). destruct (std_contains lt x (s v)) eqn:C.
  - left. apply E, (contains_ok lt O); auto.
  - right. intros X. apply E, (contains_ok lt O) in X; auto. congruence.
Qed.

Lemma ztotal : forall c s e, stands lt s e -> (exists e' ev, spec c e e' ev) \/
  (exists v, c = TMove v v) \/ (exists v, c = TExtendSet v v).
Proof.
  intros c s e S.
  assert (SL: forall v, len (s v) <= INT_MAX) by (intros v; apply S).
  assert (SE: forall v, enumerates lt (s v) (e v)) by (intros v; apply S).
  assert (CA: forall v, card (e v) (len (s v))) by (intros v; apply (enum_card lt O); auto).
  assert (BD: forall b P, tells b P -> exists b', tells b' P) by eauto.
  destruct c; try (left; eauto using @zstep; fail).
  - destruct (Nat.eq_dec v w) as [->|N]; [eauto|left; eauto using @zstep].
  - left. destruct (Z.eq_dec (len (s v)) INT_MAX) as [L|L].
    + do 2 eexists. apply z_add_full. rewrite <- L. auto.
    + destruct (tells_ex (~ e v x)) as (b & B); [destruct (in_spec_dec s e v x S); tauto|]. do 2 eexists. eapply z_add; eauto. pose proof (SL v). lia.
  - left. destruct (tells_ex (e v x)) as (b & B); [apply (in_spec_dec s); auto|]. eauto using @zstep.
  - left. destruct (s v) as [|x l] eqn:Q.
    + do 2 eexists. apply z_pop_empty. apply (enum_nil lt _ _ (SE v)); auto.
    + do 2 eexists. eapply z_pop. apply (head_least lt x l). rewrite <- Q. auto.
  - left. destruct (Z_le_gt_dec (len (s v) + len xs) INT_MAX).
    + do 2 eexists. eapply z_extend; eauto.
    + do 2 eexists. eapply z_extend_no; eauto. unfold len in *. lia.
  - destruct (fit_dec s e v w S) as [F|F]; [|left; eauto using @zstep]. destruct (Nat.eq_dec v w) as [->|N]; [eauto|left; eauto using @zstep].
  - left. destruct (fit_dec s e v w S) as [F|F]; eauto using @zstep.
  - left. destruct (fit_dec s e v w S) as [F|F]; eauto using @zstep.
  - left. destruct (fit_dec s e v w S) as [F|F]; eauto using @zstep.
  - left. destruct (fit_dec s e v w S) as [F|F]; eauto using @zstep.
  - left. destruct (tells_ex (e v x)) as (b & B); [apply (in_spec_dec s); auto|]. eauto using @zstep.
  - left. destruct (s v) as [|x l] eqn:Q.
    + do 2 eexists. apply z_min_empty. apply (enum_nil lt _ _ (SE v)); auto.
    + do 2 eexists. eapply z_min. apply (head_least lt x l). rewrite <- Q. auto.
  - left. destruct (s v) as [|x l _] eqn:Q using rev_ind.
    + do 2 eexists. apply z_max_empty. apply (enum_nil lt _ _ (SE v)); auto.
    + do 2 eexists. eapply z_max. apply (last_greatest lt x l). rewrite <- Q. auto.
  - left. destruct (tells_ex (nothing (e v))) as (b & B).
    + rewrite <- (enum_nil lt _ _ (SE v)). destruct (s v); [auto|right; discriminate].
    + eauto using @zstep.
  - left. pose proof (eq_ok lt O eqb _ _ _ _ D (SE v) (SE w)). eauto using @zstep.
  - left. pose proof (lt_ok lt O _ _ _ _ (SE v) (SE w) (SL v) (SL w)). eauto using @zstep.
  - left. pose proof (le_ok lt O _ _ _ _ (SE v) (SE w)). eauto using @zstep.
  - left. pose proof (lt_ok lt O _ _ _ _ (SE w) (SE v) (SL w) (SL v)). eauto using @zstep.
  - left. pose proof (le_ok lt O _ _ _ _ (SE w) (SE v)). eauto using @zstep.
Qed.

Theorem zrun_complete : forall prog s e e' ev, stands lt s e -> Forall tint_stmt prog -> zrun lt show prog e e' ev ->
  exists s', trun lt eqb show prog s = Ok (s', ev) /\ stands lt s' e'.
Proof.
  induction prog as [|c prog]; intros s e e' ev S A H; inversion H as [|c' r' e0 e1 e2 ev1 ev2 P Q]; subst; cbn [trun].
  - eauto.
  - inversion A as [|c' p' A1 A2]; subst. destruct (zcomplete _ _ _ _ _ S A1 P) as (s1 & E & S1). rewrite E. cbn [bind fst snd].
    destruct (IHprog _ _ _ _ S1 A2 Q) as (s2 & F & S2). rewrite F. cbn [bind fst snd]. eauto.
Qed.

(** The program reaches a statement moving or extending a set from itself. *)
Definition risky (prog : list (tstmt T)) : Prop := exists c, In c prog /\ ((exists v, c = TMove v v) \/ (exists v, c = TExtendSet v v)).

Theorem zrun_total : forall prog s e, stands lt s e -> Forall tint_stmt prog -> ~ risky prog -> exists e' ev, zrun lt show prog e e' ev.
Proof.
  induction prog as [|c prog]; intros s e S A N.
  - do 2 eexists. constructor.
  - inversion A; subst. destruct (ztotal c s e S) as [(e1 & ev1 & P)|R].
    + destruct (zcomplete _ _ _ _ _ S H1 P) as (s1 & E & S1). destruct (IHprog s1 e1 S1 H2) as (e2 & ev2 & Q).
      { intros (c' & I & R). apply N. exists c'. split; [right; auto|auto]. }
      do 2 eexists. econstructor; eauto.
    + destruct N. exists c. split; [left; auto|auto].
Qed.

Theorem trun_refines : forall prog s e s' ev, stands lt s e -> Forall tint_stmt prog -> trun lt eqb show prog s = Ok (s', ev) ->
  exists e', zrun lt show prog e e' ev /\ stands lt s' e'.
Proof.
  induction prog as [|c prog]; intros s e s' ev S A H; cbn [trun] in H.
  - inversion H; subst. exists e. split; [constructor|auto].
  - inversion A; subst. destruct (step c s) as [(s1, ev1)|?|?|] eqn:E; cbn [bind] in H; try discriminate. cbn [fst snd] in H.
    destruct (trun lt eqb show prog s1) as [(s2, ev2)|?|?|] eqn:F; cbn [bind fst snd] in H; try discriminate. inversion H; subst.
    assert (X: exists e1, spec c e e1 ev1 /\ stands lt s1 e1).
    { destruct (ztotal c s e S) as [(e1 & ev1' & P)|R].
      - destruct (zcomplete _ _ _ _ _ S H2 P) as (s1' & E' & S1). assert (s1' = s1 /\ ev1' = ev1) as (-> & ->) by (split; congruence). eauto.
      - destruct R as [(v & ->)|(v & ->)]; cbn [tstep] in E.
        + rewrite Nat.eqb_refl in E. discriminate.
        + rewrite Nat.eqb_refl in E. unfold tguard in E. destruct (size (s v) <=? INT_MAX - size (s v)) eqn:G; [discriminate|]. inversion E; subst.
          exists e. split; auto. apply z_extend_set_no. rewrite (fit_ok s1 e v v S). rewrite size_ok in G by apply S. apply Z.leb_gt in G. lia. }
    destruct X as (e1 & P & S1). destruct (IHprog _ _ _ _ S1 H3 F) as (e2 & Q & S2). exists e2. split; auto. econstructor; eauto.
Qed.

Theorem trun_defined : forall prog s e, stands lt s e -> Forall tint_stmt prog -> ~ risky prog ->
  exists s' e' ev, trun lt eqb show prog s = Ok (s', ev) /\ zrun lt show prog e e' ev /\ stands lt s' e'.
Proof.
  intros prog s e S A N. destruct (zrun_total prog s e S A N) as (e' & ev & R). destruct (zrun_complete _ _ _ _ _ S A R) as (s' & E & F). eauto 6.
Qed.
End Prog.
