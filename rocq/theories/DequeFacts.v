(** Proofs about the Deque model. *)
From Coq Require Import ZArith List Bool Ascii Lia.
From Verif Require Import Outcome ListModel ListSpec ListFacts ListMore DequeModel DequeSpec.
Import ListNotations.
Open Scope Z_scope.

Lemma deq_shl_list : forall T n (q : list T), deq_shl n q = list_shl n q.
Proof. reflexivity. Qed.
Lemma deq_shr_list : forall T n (q : list T), deq_shr n q = list_shr n q.
Proof. reflexivity. Qed.

Lemma deq_at_list : forall T (q : list T) i, deq_at q i = list_at q i.
Proof.
  intros T q i. unfold deq_at, list_at, from_end. destruct (chk32 (- size q)); cbn [bind]; auto.
  destruct (check_bounds i a (size q)); cbn [bind]; auto. destruct (0 <=? i); auto.
Qed.
Lemma deq_set_list : forall T (q : list T) i x, deq_set i x q = list_set i x q.
Proof.
  intros T q i x. unfold deq_set, list_set, from_end. rewrite update_eq. destruct (chk32 (- size q)); cbn [bind]; auto.
  destruct (check_bounds i a (size q)); cbn [bind]; auto. destruct (0 <=? i); auto.
Qed.

Lemma empty_ok : forall n, n <> 0 -> check_empty n = Ok tt.
Proof. intros. unfold check_empty. destruct (Z.eqb_spec n 0); [contradiction|auto]. Qed.

Lemma snoc_len : forall T (a : list T) x, 0 < len (a ++ [x]).
Proof. intros. rewrite len_app, len_cons, len_nil. pose proof (len_nonneg _ a). lia. Qed.
Lemma cons_len : forall T (a : list T) x, 0 < len (x :: a).
Proof. intros. rewrite len_cons. pose proof (len_nonneg _ a). lia. Qed.

Section Deque.
Context {T : Type} (eqb : T -> T -> bool) (show : T -> list ascii).
Hypothesis D : decides eqb.
Notation step := (dstep eqb show).
Notation spec := (qstep show).

Ltac lens := repeat match goal with X : context [Z.of_nat (length ?l)] |- _ => change (Z.of_nat (length l)) with (len l) in X end.

Lemma qcomplete : forall c s s' ev, dsized s -> dint_stmt c -> spec c s s' ev -> step c s = Ok (s', ev).
Proof.
  intros c s s' ev S A H.
  assert (SZ: forall v, size (s v) = len (s v)) by (intros; apply size_ok, S).
  destruct H; cbn [dint_stmt] in A; lens; cbn [dstep].
  - reflexivity.
  - reflexivity.
  - destruct (Nat.eqb_spec v w); [contradiction|]. auto.
  - unfold deq_back. rewrite SZ, H, empty_ok by (pose proof (snoc_len _ a x); lia). rewrite rev_unit. auto.
  - unfold deq_back. rewrite SZ, H. auto.
  - unfold deq_front. rewrite SZ, H, empty_ok by (pose proof (cons_len _ a x); lia). auto.
  - unfold deq_front. rewrite SZ, H. auto.
  - rewrite deq_at_list. pose proof (at_spec _ (s v) i (S v)) as P. rewrite H in P. destruct P as (x' & P1 & P2). rewrite P2. cbn. congruence.
  - rewrite deq_at_list. pose proof (at_spec _ (s v) i (S v)) as P. rewrite H in P. rewrite P. auto.
  - unfold dcall, deq_set_back. rewrite update_eq. rewrite SZ, H, empty_ok by (pose proof (snoc_len _ a y); lia). cbn [bind].
    rewrite removelast_last. destruct (a ++ [y]) eqn:E; [destruct a; discriminate|]. auto.
  - unfold dcall, deq_set_back. rewrite update_eq. rewrite SZ, H. auto.
  - unfold dcall, deq_set_front. rewrite update_eq. rewrite SZ, H, empty_ok by (pose proof (cons_len _ a y); lia). auto.
  - unfold dcall, deq_set_front. rewrite update_eq. rewrite SZ, H. auto.
  - unfold dcall. rewrite deq_set_list. pose proof (set_spec _ (s v) i x (S v)) as P. rewrite H in P. destruct P as (a' & y' & b' & C & P).
    destruct (cut_unique _ _ _ _ _ _ _ C H0) as (-> & X). inversion X; subst. rewrite P. auto.
  - unfold dcall. rewrite deq_set_list. pose proof (set_spec _ (s v) i x (S v)) as P. rewrite H in P. rewrite P. auto.
  - unfold dcall, deq_push_back. rewrite update_eq. rewrite SZ, full_ok by lia. auto.
  - unfold dcall, deq_push_back. rewrite update_eq. rewrite SZ, full_throw by lia. auto.
  - unfold dcall, deq_push_front. rewrite update_eq. rewrite SZ, full_ok by lia. auto.
  - unfold dcall, deq_push_front. rewrite update_eq. rewrite SZ, full_throw by lia. auto.
  - unfold dcall, deq_pop_back. rewrite SZ, H, empty_ok by (pose proof (snoc_len _ a x); lia). rewrite rev_unit, removelast_last. auto.
  - unfold dcall, deq_pop_back. rewrite SZ, H. auto.
  - unfold dcall, deq_pop_front. rewrite SZ, H, empty_ok by (pose proof (cons_len _ a x); lia). auto.
  - unfold dcall, deq_pop_front. rewrite SZ, H. auto.
  - rewrite !SZ. destruct (Z.leb_spec (len (s w)) (INT_MAX - len (s v))); [|lia]. destruct (Nat.eqb_spec v w); [contradiction|]. auto.
  - rewrite !SZ. destruct (Z.leb_spec (len (s w)) (INT_MAX - len (s v))); [lia|]. auto.
  - rewrite !SZ. destruct (Z.leb_spec (len (s w)) (INT_MAX - len (s v))); [|lia]. destruct (Nat.eqb_spec v w); [contradiction|]. auto.
  - rewrite !SZ. destruct (Z.leb_spec (len (s w)) (INT_MAX - len (s v))); [lia|]. auto.
  - unfold dcall. rewrite deq_shr_list. assert (list_shr n (s v) = (Ok tt, r)) as ->; auto.
    destruct (Z.eq_dec n INT_MIN) as [->|N].
    + rewrite shr_min by apply S. destruct (Z.leb_spec (len (s v)) 1); [|lia]. f_equal.
      apply (rotated_unique _ (s v) _ _ (- INT_MIN) (- INT_MIN)); auto. apply rotated_short. auto.
    + destruct (shr_spec _ (s v) n (S v)) as (r' & P & R); [unfold INT_MIN, INT_MAX in *; lia|]. rewrite P. f_equal.
      apply (rotated_unique _ (s v) _ _ (- n) (- n)); auto.
  - unfold dcall. rewrite deq_shl_list. destruct (shl_spec _ (s v) n (S v)) as (r' & P & R). rewrite <- (rotated_unique _ (s v) r' r n n); auto. rewrite P. auto.
  - reflexivity.
  - reflexivity.
  - rewrite SZ. reflexivity.
  - destruct (s v); cbn; destruct b; auto; intuition discriminate.
  - cbn. unfold deq_eqb. repeat f_equal. pose proof (eqb_spec _ eqb D (s v) (s w)) as E. destruct (list_eqb eqb (s v) (s w)), b; intuition congruence.
  - cbn. unfold deq_print. rewrite print_spec. auto.
Qed.

Lemma dsized_set : forall (s : dstore T) v l, dsized s -> len l <= INT_MAX -> dsized (dset s v l).
Proof. intros s v l S L w. unfold dset. destruct (Nat.eqb w v); [exact L|apply S]. Qed.

Lemma nil_le : len (@nil T) <= INT_MAX.
Proof. rewrite len_nil. unfold INT_MAX. lia. Qed.

Ltac done := do 2 eexists; split; [econstructor; eauto; fail|].

Lemma snoc_cases : forall l : list T, l = [] \/ exists a x, l = a ++ [x].
Proof. intros l. destruct l using rev_ind; eauto. Qed.

Lemma qsound : forall c s, dsized s -> dint_stmt c ->
  (exists s' ev, spec c s s' ev /\ dsized s') \/ (exists u, step c s = UB u).
Proof.
  intros c s S A. assert (PZ: forall l : list T, 0 <= len l) by (intros; apply len_nonneg). pose proof nil_le as NL.
  destruct c; cbn [dint_stmt] in A; try (pose proof (S v) as Sv; fold (len (s v)) in Sv; pose proof (PZ (s v)));
    try (pose proof (S w) as Sw; fold (len (s w)) in Sw; pose proof (PZ (s w))).
  - left. do 2 eexists. split; [apply q_init|apply dsized_set; auto].
  - left. do 2 eexists. split; [apply q_copy|apply dsized_set; auto].
  - destruct (Nat.eq_dec v w) as [->|N].
    + right. cbn [dstep]. rewrite Nat.eqb_refl. eauto.
    + left. do 2 eexists. split; [apply q_move; auto|]. apply dsized_set; auto. apply dsized_set; auto.
  - left. destruct (snoc_cases (s v)) as [E|(a & x & E)].
    + do 2 eexists. split; [apply q_back_empty; auto|auto].
    + do 2 eexists. split; [eapply q_back; eauto|auto].
  - left. destruct (s v) as [|x a] eqn:E.
    + do 2 eexists. split; [apply q_front_empty; auto|auto].
    + do 2 eexists. split; [eapply q_front; eauto|auto].
  - left. destruct (position (len (s v)) i) as [k|] eqn:P.
    + pose proof (at_spec _ (s v) i Sv) as X. rewrite P in X. destruct X as (x & X & _). do 2 eexists. split; [eapply q_get; eauto|auto].
    + do 2 eexists. split; [eapply q_get_bad; eauto|auto].
  - left. destruct (snoc_cases (s v)) as [E|(a & y & E)].
    + do 2 eexists. split; [apply q_set_back_empty; auto|]. apply dsized_set; auto.
    + do 2 eexists. split; [eapply q_set_back; eauto|]. apply dsized_set; auto. rewrite E, len_app in Sv. rewrite len_app. exact Sv.
  - left. destruct (s v) as [|y a] eqn:E.
    + do 2 eexists. split; [apply q_set_front_empty; auto|]. apply dsized_set; auto.
    + do 2 eexists. split; [eapply q_set_front; eauto|]. apply dsized_set; auto.
  - left. destruct (position (len (s v)) i) as [k|] eqn:P.
    + pose proof (position_some _ _ _ P) as (B & _). destruct (cut_elem _ (s v) _ B) as (a & y & b & C).
      do 2 eexists. split; [eapply q_set; eauto|]. apply dsized_set; auto. destruct (cut_len _ _ _ _ _ C) as (X1 & X2). rewrite len_cons in X2. rewrite len_app, len_cons. lia.
    + do 2 eexists. split; [apply q_set_bad; auto|]. apply dsized_set; auto.
  - left. destruct (Z.eq_dec (len (s v)) INT_MAX).
    + do 2 eexists. split; [apply q_push_back_full; auto|]. apply dsized_set; auto.
    + do 2 eexists. split; [apply q_push_back; unfold len in *; lia|]. apply dsized_set; auto. rewrite len_app, len_cons, len_nil. lia.
  - left. destruct (Z.eq_dec (len (s v)) INT_MAX).
    + do 2 eexists. split; [apply q_push_front_full; auto|]. apply dsized_set; auto.
    + do 2 eexists. split; [apply q_push_front; unfold len in *; lia|]. apply dsized_set; auto. rewrite len_cons. lia.
  - left. destruct (snoc_cases (s v)) as [E|(a & y & E)].
    + do 2 eexists. split; [apply q_pop_back_empty; auto|]. apply dsized_set; auto.
    + do 2 eexists. split; [eapply q_pop_back; eauto|]. apply dsized_set; auto. rewrite E, len_app, len_cons, len_nil in Sv. lia.
  - left. destruct (s v) as [|y a] eqn:E.
    + do 2 eexists. split; [apply q_pop_front_empty; auto|]. apply dsized_set; auto.
    + do 2 eexists. split; [eapply q_pop_front; eauto|]. apply dsized_set; auto. rewrite len_cons in Sv. lia.
  - destruct (Z_le_dec (len (s v) + len (s w)) INT_MAX) as [L|L].
    + destruct (Nat.eq_dec v w) as [->|N].
      * right. cbn [dstep]. rewrite !size_ok by auto. destruct (Z.leb_spec (len (s w)) (INT_MAX - len (s w))); [|lia]. rewrite Nat.eqb_refl. eauto.
      * left. do 2 eexists. split; [apply q_extend_back; auto|]. apply dsized_set; auto. rewrite len_app. lia.
    + left. do 2 eexists. split; [apply q_extend_back_no; unfold len in *; lia|auto].
  - destruct (Z_le_dec (len (s v) + len (s w)) INT_MAX) as [L|L].
    + destruct (Nat.eq_dec v w) as [->|N].
      * right. cbn [dstep]. rewrite !size_ok by auto. destruct (Z.leb_spec (len (s w)) (INT_MAX - len (s w))); [|lia]. rewrite Nat.eqb_refl. eauto.
      * left. do 2 eexists. split; [apply q_extend_front; auto|]. apply dsized_set; auto. rewrite len_app. lia.
    + left. do 2 eexists. split; [apply q_extend_front_no; unfold len in *; lia|auto].
  - destruct (Z.eq_dec n INT_MIN) as [->|N].
    + pose proof (shr_min _ (s v) Sv) as P. destruct (Z.leb_spec (len (s v)) 1).
      * left. do 2 eexists. split; [apply q_shr; [auto|]; apply rotated_short; auto|]. apply dsized_set; auto.
      * right. cbn [dstep]. unfold dcall. rewrite deq_shr_list, P. eauto.
    + left. destruct (shr_spec _ (s v) n Sv) as (r & P & R); [unfold INT_MIN, INT_MAX in *; lia|].
      do 2 eexists. split; [apply q_shr; eauto; left; unfold INT_MIN in *; lia|]. apply dsized_set; auto. destruct R. unfold len in *. lia.
  - left. destruct (shl_spec _ (s v) n Sv) as (r & P & R). do 2 eexists. split; [apply q_shl; eauto|]. apply dsized_set; auto. destruct R. unfold len in *. lia.
  - left. do 2 eexists. split; [apply q_reverse|]. apply dsized_set; auto. unfold len in *. rewrite rev_length. auto.
  - left. do 2 eexists. split; [apply q_clear|]. apply dsized_set; auto.
  - left. do 2 eexists. split; [apply q_size|auto].
  - left. do 2 eexists. split; [apply (q_is_empty show v s (match s v with [] => true | _ => false end)); destruct (s v); intuition discriminate|auto].
  - left. do 2 eexists. split; [apply q_equal; apply (eqb_spec _ eqb D)|auto].
  - left. do 2 eexists. split; [apply q_print|auto].
Qed.

Lemma dstep_sized : forall c s s' ev, dsized s -> dint_stmt c -> step c s = Ok (s', ev) -> dsized s'.
Proof.
  intros c s s' ev S A E. destruct (qsound c s S A) as [(s2 & ev2 & P & Z)|(u & P)]; [|congruence].
  pose proof (qcomplete _ _ _ _ S A P) as Q. congruence.
Qed.

Lemma dstep_exact : forall c s s' ev, dsized s -> dint_stmt c -> step c s = Ok (s', ev) <-> spec c s s' ev.
Proof.
  intros c s s' ev S A. split; [|apply qcomplete; auto]. intros E. destruct (qsound c s S A) as [(s2 & ev2 & P & _)|(u & P)]; [|congruence].
  pose proof (qcomplete _ _ _ _ S A P) as Q. congruence.
Qed.

Theorem drun_exact : forall prog s, dsized s -> Forall dint_stmt prog -> forall s' ev,
  drun eqb show prog s = Ok (s', ev) <-> qrun show prog s s' ev.
Proof.
  induction prog as [|c prog]; intros s S A s' ev; cbn [drun].
  - split; intros H; inversion H; subst; auto. constructor.
  - inversion A as [|c' p' A1 A2]; subst. split.
    + destruct (step c s) as [(s1, ev1)|?|?|] eqn:E; cbn [bind]; try discriminate.
      cbn [fst snd]. destruct (drun eqb show prog s1) as [(s2, ev2)|?|?|] eqn:F; cbn [bind fst snd]; try discriminate.
      intros X; inversion X; subst. pose proof (dstep_sized _ _ _ _ S A1 E) as S1. econstructor; [apply dstep_exact; eauto|apply IHprog; auto].
    + intros H. inversion H as [|c' r' s0 s1 s2 ev1 ev2 H1 H2]; subst. pose proof (qcomplete _ _ _ _ S A1 H1) as E. rewrite E. cbn [bind fst snd].
      pose proof (dstep_sized _ _ _ _ S A1 E) as S1. apply (IHprog s1 S1 A2) in H2. rewrite H2. auto.
Qed.

Theorem drun_defined : forall prog s, dsized s -> Forall dint_stmt prog ->
  (exists s' ev, qrun show prog s s' ev /\ dsized s') \/ (exists u, drun eqb show prog s = UB u).
Proof.
  induction prog as [|c prog]; intros s S A; cbn [drun].
  - left. exists s, []. split; [constructor|auto].
  - inversion A as [|c' p' A1 A2]; subst. destruct (qsound c s S A1) as [(s1 & ev1 & P & S1)|(u & P)].
    + rewrite (qcomplete _ _ _ _ S A1 P). cbn [bind fst snd]. destruct (IHprog s1 S1 A2) as [(s2 & ev2 & Q & S2)|(u & Q)].
      * left. do 2 eexists. split; [econstructor; eauto|auto].
      * right. exists u. rewrite Q. auto.
    + right. exists u. rewrite P. auto.
Qed.

(** ** Queue and stack *)
Lemma elems_app : forall (a b : list (devent T)), elems (a ++ b) = elems a ++ elems b.
Proof. induction a as [|e a]; intros b; auto. destruct e; cbn [app elems]; rewrite ?IHa; auto. Qed.

Lemma dset_eq : forall (s : dstore T) v l, dset s v l v = l.
Proof. intros. unfold dset. rewrite Nat.eqb_refl. auto. Qed.

(** Pushes and pops at given ends; [add q x] and [q = x taken from] describe the two ends. *)
Theorem fifo : forall v ops s, len (s v) + len (pushed ops) <= INT_MAX ->
  exists s' ev, drun eqb show (as_prog (DPushBack v) (DPopFront v) ops) s = Ok (s', ev) /\
    elems ev ++ s' v = s v ++ pushed ops.
Proof.
  intros v. induction ops as [|o ops]; intros s L; cbn [as_prog map drun pushed] in *.
  - do 2 eexists. split; [reflexivity|]. rewrite app_nil_r. auto.
  - pose proof (len_nonneg _ (pushed ops)). pose proof (len_nonneg _ (s v)). destruct o; cbn [dstep].
    + rewrite len_cons in L. unfold dcall, deq_push_back. rewrite update_eq. rewrite size_ok, full_ok by lia. cbn [bind fst snd].
      destruct (IHops (dset s v (s v ++ [x]))) as (s' & ev & E & R).
      { rewrite dset_eq, len_app, len_cons, len_nil. lia. }
      unfold as_prog in E. rewrite E. cbn [bind fst snd dsilent app]. do 2 eexists. split; [reflexivity|]. rewrite R, dset_eq, <- app_assoc. auto.
    + unfold dcall, deq_pop_front. rewrite size_ok by lia. destruct (s v) as [|x a] eqn:Ev.
      * cbn [len length Z.of_nat check_empty Z.eqb]. change (check_empty (len (@nil T))) with (@Throw unit ContainerEmpty). cbn [bind fst snd].
        destruct (IHops (dset s v [])) as (s' & ev & E & R); [rewrite dset_eq, len_nil; lia|].
        unfold as_prog in E. rewrite E. cbn [bind fst snd]. do 2 eexists. split; [reflexivity|]. cbn [app elems]. rewrite R, dset_eq. auto.
      * rewrite empty_ok by (rewrite len_cons; pose proof (len_nonneg _ a); lia). cbn [bind fst snd].
        destruct (IHops (dset s v a)) as (s' & ev & E & R); [rewrite dset_eq; rewrite len_cons in L; lia|].
        unfold as_prog in E. rewrite E. cbn [bind fst snd]. do 2 eexists. split; [reflexivity|]. cbn [app elems]. rewrite R, dset_eq. auto.
Qed.

Theorem fifo_reverse : forall v ops s, len (s v) + len (pushed ops) <= INT_MAX ->
  exists s' ev, drun eqb show (as_prog (DPushFront v) (DPopBack v) ops) s = Ok (s', ev) /\
    elems ev ++ rev (s' v) = rev (s v) ++ pushed ops.
Proof.
  intros v. induction ops as [|o ops]; intros s L; cbn [as_prog map drun pushed] in *.
  - do 2 eexists. split; [reflexivity|]. rewrite app_nil_r. auto.
  - pose proof (len_nonneg _ (pushed ops)). pose proof (len_nonneg _ (s v)). destruct o; cbn [dstep].
    + rewrite len_cons in L. unfold dcall, deq_push_front. rewrite update_eq. rewrite size_ok, full_ok by lia. cbn [bind fst snd].
      destruct (IHops (dset s v (x :: s v))) as (s' & ev & E & R).
      { rewrite dset_eq, len_cons. lia. }
      unfold as_prog in E. rewrite E. cbn [bind fst snd dsilent app]. do 2 eexists. split; [reflexivity|]. rewrite R, dset_eq. cbn [rev]. rewrite <- app_assoc. auto.
    + unfold dcall, deq_pop_back. rewrite size_ok by lia. destruct (snoc_cases (s v)) as [Ev|(a & x & Ev)]; rewrite Ev in *.
      * change (check_empty (len (@nil T))) with (@Throw unit ContainerEmpty). cbn [bind fst snd].
        destruct (IHops (dset s v [])) as (s' & ev & E & R); [rewrite dset_eq, len_nil; lia|].
        unfold as_prog in E. rewrite E. cbn [bind fst snd]. do 2 eexists. split; [reflexivity|]. cbn [app elems]. rewrite R, dset_eq. auto.
      * rewrite empty_ok by (pose proof (snoc_len _ a x); lia). rewrite rev_unit, removelast_last. cbn [bind fst snd].
        destruct (IHops (dset s v a)) as (s' & ev & E & R); [rewrite dset_eq; rewrite len_app, len_cons, len_nil in L; lia|].
        unfold as_prog in E. rewrite E. cbn [bind fst snd]. do 2 eexists. split; [reflexivity|]. cbn [app elems]. rewrite R, dset_eq. auto.
Qed.

Theorem lifo : forall v ops s, len (s v) + len (pushed ops) <= INT_MAX ->
  exists s' ev, drun eqb show (as_prog (DPushBack v) (DPopBack v) ops) s = Ok (s', ev) /\
    (elems ev, rev (s' v)) = stack ops (rev (s v)).
Proof.
  intros v. induction ops as [|o ops]; intros s L; cbn [as_prog map drun pushed stack] in *.
  - do 2 eexists. split; reflexivity.
  - pose proof (len_nonneg _ (pushed ops)). pose proof (len_nonneg _ (s v)). destruct o; cbn [dstep].
    + rewrite len_cons in L. unfold dcall, deq_push_back. rewrite update_eq. rewrite size_ok, full_ok by lia. cbn [bind fst snd].
      destruct (IHops (dset s v (s v ++ [x]))) as (s' & ev & E & R).
      { rewrite dset_eq, len_app, len_cons, len_nil. lia. }
      unfold as_prog in E. rewrite E. cbn [bind fst snd dsilent app]. do 2 eexists. split; [reflexivity|]. rewrite R, dset_eq, rev_unit. auto.
    + unfold dcall, deq_pop_back. rewrite size_ok by lia. destruct (snoc_cases (s v)) as [Ev|(a & x & Ev)]; rewrite Ev in *.
      * change (check_empty (len (@nil T))) with (@Throw unit ContainerEmpty). cbn [bind fst snd].
        destruct (IHops (dset s v [])) as (s' & ev & E & R); [rewrite dset_eq, len_nil; lia|].
        unfold as_prog in E. rewrite E. cbn [bind fst snd]. do 2 eexists. split; [reflexivity|]. cbn [app elems]. rewrite R, dset_eq. auto.
      * rewrite empty_ok by (pose proof (snoc_len _ a x); lia). rewrite rev_unit, removelast_last. cbn [bind fst snd].
        destruct (IHops (dset s v a)) as (s' & ev & E & R); [rewrite dset_eq; rewrite len_app, len_cons, len_nil in L; lia|].
        unfold as_prog in E. rewrite E. cbn [bind fst snd]. do 2 eexists. split; [reflexivity|]. cbn [app elems].
        rewrite dset_eq in R. rewrite <- R. auto.
Qed.
End Deque.

(** ** Rotation *)
Lemma deq_left : forall T (q : list T) n, len q <= INT_MAX -> exists r, deq_shl n q = (Ok tt, r) /\ rotated q r n.
Proof. exact shl_spec. Qed.
Lemma deq_right : forall T (q : list T) n, len q <= INT_MAX -> INT_MIN < n <= INT_MAX -> exists r, deq_shr n q = (Ok tt, r) /\ rotated q r (- n).
Proof. exact shr_spec. Qed.
Lemma deq_right_min : forall T (q : list T), len q <= INT_MAX ->
  deq_shr INT_MIN q = if len q <=? 1 then (Ok tt, q) else (UB SignedOverflow, q).
Proof. exact shr_min. Qed.
Lemma deq_shl_shr : forall T (q r : list T) n, len q <= INT_MAX -> INT_MIN < n <= INT_MAX ->
  deq_shl n q = (Ok tt, r) -> deq_shr n r = (Ok tt, q).
Proof. exact shl_shr. Qed.
Lemma deq_shr_shl : forall T (q r : list T) n, len q <= INT_MAX -> INT_MIN < n <= INT_MAX ->
  deq_shr n q = (Ok tt, r) -> deq_shl n r = (Ok tt, q).
Proof. exact shr_shl. Qed.

Lemma dstep_ub : forall T (eqb : T -> T -> bool) (show : T -> list ascii) c (s : dstore T) u, decides eqb -> dsized s -> dint_stmt c ->
  dstep eqb show c s = UB u ->
  (exists v, c = DMove v v) \/ (exists v, c = DExtendBack v v) \/ (exists v, c = DExtendFront v v) \/ (exists v, c = DShr v INT_MIN).
Proof.
  intros T eqb show c s u D S A H.
  assert (X: forall s' ev, qstep show c s s' ev -> False).
  { intros s' ev P. apply (qcomplete eqb show D c s s' ev S A) in P. congruence. }
  destruct c; cbn [dstep demit] in H; try discriminate; eauto 6.
  - destruct (Nat.eqb_spec v w); [subst; eauto|discriminate].
  - exfalso. destruct (snoc_cases (s v)) as [E|(a & x & E)]; [eapply X, q_back_empty; eauto|eapply X, q_back; eauto].
  - exfalso. destruct (s v) eqn:E; [eapply X, q_front_empty; eauto|eapply X, q_front; eauto].
  - exfalso. pose proof (at_spec _ (s v) i (S v)) as P. destruct (position (len (s v)) i) as [k|] eqn:Q.
    + destruct P as (x & P & _). eapply X, q_get; eauto.
    + eapply X, q_get_bad; eauto.
  - exfalso. destruct (snoc_cases (s v)) as [E|(a & y & E)]; [eapply X, q_set_back_empty; eauto|eapply X, q_set_back; eauto].
  - exfalso. destruct (s v) eqn:E; [eapply X, q_set_front_empty; eauto|eapply X, q_set_front; eauto].
  - exfalso. destruct (position (len (s v)) i) as [k|] eqn:Q.
    + pose proof (position_some _ _ _ Q) as (B & _). destruct (cut_elem _ (s v) _ B) as (a & y & b & C). eapply X, q_set; eauto.
    + eapply X, q_set_bad; eauto.
  - exfalso. pose proof (S v). destruct (Z.eq_dec (len (s v)) INT_MAX); [eapply X, q_push_back_full; eauto|eapply X, q_push_back; unfold len in *; lia].
  - exfalso. pose proof (S v). destruct (Z.eq_dec (len (s v)) INT_MAX); [eapply X, q_push_front_full; eauto|eapply X, q_push_front; unfold len in *; lia].
  - exfalso. destruct (snoc_cases (s v)) as [E|(a & x & E)]; [eapply X, q_pop_back_empty; eauto|eapply X, q_pop_back; eauto].
  - exfalso. destruct (s v) eqn:E; [eapply X, q_pop_front_empty; eauto|eapply X, q_pop_front; eauto].
  - destruct (size (s w) <=? INT_MAX - size (s v)); [|discriminate]. destruct (Nat.eqb_spec v w); [subst; eauto|discriminate].
  - destruct (size (s w) <=? INT_MAX - size (s v)); [|discriminate]. destruct (Nat.eqb_spec v w); [subst; eauto|discriminate].
  - destruct (Z.eq_dec n INT_MIN) as [->|N]; [eauto 6|]. exfalso. cbn [dint_stmt] in A. destruct (shr_spec _ (s v) n (S v)) as (r & P & R); [lia|].
    eapply X, q_shr; [|exact R]. left. lia.
  - exfalso. destruct (shl_spec _ (s v) n (S v)) as (r & P & R). eapply X, q_shl, R.
Qed.

Lemma deq_empty : forall T (x : T),
  deq_back (@nil T) = Throw ContainerEmpty /\ deq_front (@nil T) = Throw ContainerEmpty /\
  deq_pop_back (@nil T) = (Throw ContainerEmpty, []) /\ deq_pop_front (@nil T) = (Throw ContainerEmpty, []) /\
  deq_set_back x [] = (Throw ContainerEmpty, []) /\ deq_set_front x [] = (Throw ContainerEmpty, []).
Proof. repeat split. Qed.

Lemma deq_extend_witness : exists q w : list Z, len q = INT_MAX /\ len w = 1 /\
  deq_extend_back w q = (Ok tt, q ++ w) /\ size (q ++ w) = INT_MIN /\
  deq_extend_front w q = (Ok tt, w ++ q) /\ size (w ++ q) = INT_MIN.
Proof.
  destruct full_list as (q & L). exists q, [0]. split; [exact L|]. split; [reflexivity|]. split; [reflexivity|].
  assert (A: len (q ++ [0]) = INT_MAX + 1) by (rewrite len_app, L; reflexivity).
  assert (B: len ([0] ++ q) = INT_MAX + 1) by (rewrite len_app, L; reflexivity).
  split; [unfold size; rewrite A; reflexivity|]. split; [reflexivity|]. unfold size. rewrite B. reflexivity.
Qed.

Lemma deq_extend_fits : forall T (q w : list T), len q + len w <= INT_MAX ->
  deq_extend_back w q = (Ok tt, q ++ w) /\ size (q ++ w) = len q + len w /\
  deq_extend_front w q = (Ok tt, w ++ q) /\ size (w ++ q) = len q + len w.
Proof. intros T q w L. rewrite !size_ok by (rewrite len_app; lia). rewrite !len_app. repeat split. lia. Qed.
