(** Deques whose element copies and allocations may throw: proofs. *)
From Coq Require Import ZArith List Bool Ascii Lia.
From Verif Require Import Outcome ListModel DequeModel ListSpec DequeSpec ListFacts DequeFacts FailModel FailFacts FailRunModel FailRunSpec FailRun DequeFailModel DequeFailSpec IntMemSpec.
Import ListNotations.
Open Scope Z_scope.

Section Members.
Context {T : Type}.
Variables (ok : nat -> bool) (nodes : nat -> nat).
Variables (eqb : T -> T -> bool) (show : T -> list ascii).
Notation mirrors := (xmirrors (St := list T) ok).
Notation kept := (fun l l' : list T => l' = l).

Lemma xwp_room : forall St (s : St) (Q : unit -> St -> Prop) (H : St -> Prop) E, Q tt s -> H s -> xwp ok (fd_room ok nodes) s Q H E.
Proof. intros St s Q H E HQ HH k. exact (xwp_events ok (nodes k) s Q H E HQ HH k). Qed.

Lemma dnew_makes : forall l : list T, xmakes ok (S' := unit) (fd_new ok nodes l) (Ok l).
Proof.
  intros l s. apply xwp_bind, xwp_room; [|reflexivity]. apply xwp_bind, xwp_events; [|reflexivity]. apply xwp_ret. auto.
Qed.

Lemma xwp_dassign_loop : forall n done todo (v : list T) (Q : unit -> list T -> Prop) (H : list T -> Prop) E old,
  v = done ++ skipn (length done) old -> (length done + n <= length old)%nat -> (n <= length todo)%nat ->
  Q tt (done ++ firstn n todo ++ skipn (length done + n) old) ->
  (forall j, (j < n)%nat -> H (done ++ firstn j todo ++ skipn (length done + j) old)) ->
  xwp ok (fd_assign_loop ok n done todo) v Q H E.
Proof.
  induction n as [|n IH]; intros done todo v Q H E old Ev Ln Lt HQ HH; cbn [fd_assign_loop].
  - apply xwp_ret. cbn [firstn app] in HQ. rewrite Nat.add_0_r in HQ. rewrite <- Ev in HQ. exact HQ.
  - destruct todo as [|x todo]; cbn [length] in Lt; [lia|].
    apply xwp_bind, xwp_event.
    2:{ specialize (HH 0%nat ltac:(lia)). cbn [firstn app] in HH. rewrite Nat.add_0_r in HH. rewrite <- Ev in HH. exact HH. }
    apply xwp_bind, xwp_get. apply xwp_bind, xwp_put.
    assert (LD : length (done ++ [x]) = S (length done)) by (rewrite app_length; cbn; lia).
    assert (ES : skipn (S (length done)) v = skipn (length (done ++ [x])) old).
    { rewrite Ev, skipn_app, LD, (skipn_all2 done) by lia. cbn [app].
      replace (S (length done) - length done)%nat with 1%nat by lia.
      generalize (length done). clear. induction old as [|y old IHo]; intros [|m]; try reflexivity. apply (IHo m). }
    apply (IH _ _ _ _ _ _ old).
    + rewrite ES. rewrite <- app_assoc. reflexivity.
    + lia.
    + lia.
    + cbn [firstn] in HQ. rewrite <- app_assoc. cbn [app]. rewrite LD.
      replace (S (length done) + n)%nat with (length done + S n)%nat by lia. exact HQ.
    + intros j Hj. specialize (HH (S j) ltac:(lia)). cbn [firstn] in HH. rewrite <- app_assoc. cbn [app]. rewrite LD.
      replace (S (length done) + j)%nat with (length done + S j)%nat by lia. exact HH.
Qed.

Lemma dassign_mirrors : forall w, mirrors (fd_assign ok nodes w) (fun _ => (Ok tt, w))
  (fun l l' => exists j, (j < length w)%nat /\ (j <= length l)%nat /\ l' = firstn j w ++ skipn j l).
Proof.
  intros w l. apply xwp_bind, xwp_get. apply xwp_bind.
  apply (xwp_dassign_loop _ _ _ _ _ _ _ l); cbn [app length plus]; try reflexivity; try lia.
  - apply xwp_bind. destruct (Nat.ltb _ _) eqn:L.
    + apply Nat.ltb_lt in L. replace (Nat.min (length l) (length w)) with (length l) by lia.
      assert (X : exists j, (j < length w)%nat /\ (j <= length l)%nat /\ firstn (length l) w ++ skipn (length l) l = firstn j w ++ skipn j l)
        by (exists (length l); split; [lia|split; [lia|reflexivity]]).
      apply xwp_bind, xwp_room; [|exact X]. apply xwp_events; [|exact X]. apply xwp_put. reflexivity.
    + apply xwp_ret, xwp_put. reflexivity.
  - intros j Hj. exists j. split; [lia|split; [lia|reflexivity]].
Qed.

Lemma set_back_mirrors : forall x, mirrors (fd_set_back ok x) (deq_set_back x) kept.
Proof.
  intros x l. apply xwp_bind, xwp_get. apply xwp_bind, xwp_lift. unfold deq_back.
  assert (X : xwp ok (xevent ok ;~ xcalm (deq_set_back x)) l (fun a s' => deq_set_back x l = (Ok a, s')) (fun l' => l' = l) (fun f s' => matches f (deq_set_back x l) s'))
    by (apply xwp_bind, xwp_event; [apply calm_mirrors|reflexivity]).
  unfold deq_set_back, update in X |- *.
  destruct (check_empty (size l)); cbn [bind matches fst]; try reflexivity.
  destruct l as [|y l]; [reflexivity|].
  destruct (rev (y :: l)) as [|z r] eqn:R; [apply (f_equal (@length T)) in R; rewrite rev_length in R; discriminate|]. exact X.
Qed.
Lemma set_front_mirrors : forall x, mirrors (fd_set_front ok x) (deq_set_front x) kept.
Proof.
  intros x l. apply xwp_bind, xwp_get. apply xwp_bind, xwp_lift. unfold deq_front.
  assert (X : xwp ok (xevent ok ;~ xcalm (deq_set_front x)) l (fun a s' => deq_set_front x l = (Ok a, s')) (fun l' => l' = l) (fun f s' => matches f (deq_set_front x l) s'))
    by (apply xwp_bind, xwp_event; [apply calm_mirrors|reflexivity]).
  unfold deq_set_front, update in X |- *.
  destruct (check_empty (size l)); cbn [bind matches fst]; try reflexivity.
  destruct l as [|y l]; [reflexivity|]. exact X.
Qed.
Lemma vat_vput : forall (l : list T) i x, match vat l i with Ok _ => exists l', vput l i x = Ok l' | Throw e => False | UB u => vput l i x = UB u | OutOfFuel => False end.
Proof.
  intros l i x. unfold vat, vput. destruct (i <? 0) eqn:E; [reflexivity|]. cbn [orb].
  destruct (nth_error l (Z.to_nat i)) eqn:N.
  - assert (Z.to_nat i < length l)%nat by (apply nth_error_Some; congruence).
    destruct (len l <=? i) eqn:E2; [unfold len in E2; lia|]. eauto.
  - apply nth_error_None in N. destruct (len l <=? i) eqn:E2; [reflexivity|]. unfold len in E2. lia.
Qed.
Lemma dset_mirrors : forall i x, mirrors (fd_set ok i x) (deq_set i x) kept.
Proof.
  intros i x l. apply xwp_bind, xwp_get. apply xwp_bind, xwp_lift. unfold deq_at.
  assert (X : xwp ok (xevent ok ;~ xcalm (deq_set i x)) l (fun a s' => deq_set i x l = (Ok a, s')) (fun l' => l' = l) (fun f s' => matches f (deq_set i x l) s'))
    by (apply xwp_bind, xwp_event; [apply calm_mirrors|reflexivity]).
  unfold deq_set, update in X |- *.
  destruct (chk32 (- size l)); cbn [bind matches fst] in X |- *; try reflexivity.
  destruct (check_bounds i a (size l)); cbn [bind matches fst] in X |- *; try reflexivity.
  destruct (0 <=? i).
  - pose proof (vat_vput l i x) as V. destruct (vat l i); cbn [matches fst]; try contradiction; [exact X|rewrite V; reflexivity].
  - destruct (chk32 (i + size l)); cbn [bind matches fst] in X |- *; try reflexivity.
    pose proof (vat_vput l a1 x) as V. destruct (vat l a1); cbn [matches fst]; try contradiction; [exact X|rewrite V; reflexivity].
Qed.
Lemma push_back_mirrors : forall x, mirrors (fd_push_back ok nodes x) (deq_push_back x) kept.
Proof.
  intros x l. apply xwp_bind, xwp_get. apply xwp_bind, xwp_lift. unfold deq_push_back, update.
  destruct (check_full (size l) INT_MAX); cbn [bind matches fst]; try reflexivity.
  apply xwp_bind, xwp_room; [|reflexivity]. apply xwp_bind, xwp_event; [|reflexivity]. apply xwp_put. reflexivity.
Qed.
Lemma push_front_mirrors : forall x, mirrors (fd_push_front ok nodes x) (deq_push_front x) kept.
Proof.
  intros x l. apply xwp_bind, xwp_get. apply xwp_bind, xwp_lift. unfold deq_push_front, update.
  destruct (check_full (size l) INT_MAX); cbn [bind matches fst]; try reflexivity.
  apply xwp_bind, xwp_room; [|reflexivity]. apply xwp_bind, xwp_event; [|reflexivity]. apply xwp_put. reflexivity.
Qed.
Lemma extend_back_mirrors : forall w, mirrors (fd_extend_back ok nodes w) (deq_extend_back w) kept.
Proof.
  intros w l. unfold fd_extend_back, deq_extend_back, update. destruct w as [|y w]; [apply xwp_ret; rewrite app_nil_r; reflexivity|].
  apply xwp_bind, xwp_get. apply xwp_bind, xwp_room; [|reflexivity]. apply xwp_bind, xwp_events; [|reflexivity]. apply xwp_put. reflexivity.
Qed.
Lemma extend_front_mirrors : forall w, mirrors (fd_extend_front ok nodes w) (deq_extend_front w) kept.
Proof.
  intros w l. unfold fd_extend_front, deq_extend_front, update. destruct w as [|y w]; [apply xwp_ret; reflexivity|].
  apply xwp_bind, xwp_get. apply xwp_bind, xwp_room; [|reflexivity]. apply xwp_bind, xwp_events; [|reflexivity]. apply xwp_put. reflexivity.
Qed.

Notation step := (fdstep ok nodes eqb show).
Notation base := (dstep eqb show).

Lemma kept_left : forall c (s s' : dstore T) v, dsteady c -> forall x, x = s v -> alike (place s v x) s' -> dleft c s s'.
Proof. intros c s s' v C x -> A. apply dl_same; [exact C|]. intros u. rewrite (A u). apply place_self. Qed.

Lemma dstep_ends : forall c s k, ends ok (base c s) (dleft c s) k (step c s k).
Proof.
  intros c s k.
  assert (K : dsteady c -> dleft c s s) by (intros C; apply dl_same; [exact C|apply alike_refl]).
  destruct c; cbn [fdstep dstep].
  - apply (new_ends ok DThrow _ (Ok xs)); [apply dnew_makes|apply K; exact Logic.I].
  - destruct (Nat.eqb v w) eqn:E.
    + apply Nat.eqb_eq in E. subst w. apply (ret_ends ok (dset s v (s v)) s k []). intros u. symmetry. apply place_self.
    + apply Nat.eqb_neq in E. refine (call_ends ok DThrow _ _ (fun _ => (Ok tt, s w)) _ s v k dsilent _ (dassign_mirrors (s w)) _).
      intros x s' (j & L1 & L2 & ->) A. eapply dl_copy; eassumption.
  - destruct (Nat.eqb v w); [reflexivity|]. apply (ret_ends ok (dset (dset s v (s w)) w []) _ k []). apply alike_refl.
  - apply (look_ends ok DThrow _ _ _ s k (fun x => [DElem x])); [apply lift_makes|apply K; exact Logic.I].
  - apply (look_ends ok DThrow _ _ _ s k (fun x => [DElem x])); [apply lift_makes|apply K; exact Logic.I].
  - apply (look_ends ok DThrow _ _ _ s k (fun x => [DElem x])); [apply lift_makes|apply K; exact Logic.I].
  - exact (call_ends ok DThrow _ _ _ _ s v k dsilent _ (set_back_mirrors x) (fun x' s' => kept_left (DSetBack v x) s s' v Logic.I x')).
  - exact (call_ends ok DThrow _ _ _ _ s v k dsilent _ (set_front_mirrors x) (fun x' s' => kept_left (DSetFront v x) s s' v Logic.I x')).
  - exact (call_ends ok DThrow _ _ _ _ s v k dsilent _ (dset_mirrors i x) (fun x' s' => kept_left (DSet v i x) s s' v Logic.I x')).
  - exact (call_ends ok DThrow _ _ _ _ s v k dsilent _ (push_back_mirrors x) (fun x' s' => kept_left (DPushBack v x) s s' v Logic.I x')).
  - exact (call_ends ok DThrow _ _ _ _ s v k dsilent _ (push_front_mirrors x) (fun x' s' => kept_left (DPushFront v x) s s' v Logic.I x')).
  - exact (call_ends ok DThrow _ _ _ _ s v k (fun x => [DElem x]) _ (calm_mirrors ok _ deq_pop_back) (fun x' s' => kept_left (DPopBack v) s s' v Logic.I x')).
  - exact (call_ends ok DThrow _ _ _ _ s v k (fun x => [DElem x]) _ (calm_mirrors ok _ deq_pop_front) (fun x' s' => kept_left (DPopFront v) s s' v Logic.I x')).
  - destruct (size (s w) <=? INT_MAX - size (s v)); [|apply (ret_ends ok s s k []); apply alike_refl]. destruct (Nat.eqb v w); [reflexivity|].
    exact (call_ends ok DThrow _ _ _ _ s v k dsilent _ (extend_back_mirrors (s w)) (fun x' s' => kept_left (DExtendBack v w) s s' v Logic.I x')).
  - destruct (size (s w) <=? INT_MAX - size (s v)); [|apply (ret_ends ok s s k []); apply alike_refl]. destruct (Nat.eqb v w); [reflexivity|].
    exact (call_ends ok DThrow _ _ _ _ s v k dsilent _ (extend_front_mirrors (s w)) (fun x' s' => kept_left (DExtendFront v w) s s' v Logic.I x')).
  - exact (call_ends ok DThrow _ _ _ _ s v k dsilent _ (calm_mirrors ok _ (deq_shr n)) (fun x' s' => kept_left (DShr v n) s s' v Logic.I x')).
  - exact (call_ends ok DThrow _ _ _ _ s v k dsilent _ (calm_mirrors ok _ (deq_shl n)) (fun x' s' => kept_left (DShl v n) s s' v Logic.I x')).
  - exact (call_ends ok DThrow _ _ _ _ s v k dsilent _ (calm_mirrors ok _ deq_reverse) (fun x' s' => kept_left (DReverse v) s s' v Logic.I x')).
  - exact (call_ends ok DThrow _ _ _ _ s v k dsilent _ (calm_mirrors ok _ deq_clear) (fun x' s' => kept_left (DClear v) s s' v Logic.I x')).
  - apply (ret_ends ok s s k [DNum _]), alike_refl.
  - apply (ret_ends ok s s k [DBool _]), alike_refl.
  - apply (ret_ends ok s s k [DBool _]), alike_refl.
  - apply (ret_ends ok s s k [DText _]), alike_refl.
Qed.

Theorem dsteady_fails : forall c s k s' k' n ev, dsteady c -> step c s k = Ok (s', k', Failed n :: ev) -> alike s s'.
Proof.
  intros c s k s' k' n ev S E. pose proof (dstep_ends c s k) as H. rewrite E in H. cbn [ends] in H.
  destruct H as [(_ & _ & s0 & ev0 & _ & _ & H)|(m & _ & _ & _ & _ & _ & L)].
  - destruct ev0; discriminate.
  - destruct L as [c s s' _ A|v w j s s' N _ _ A]; [exact A|]. cbn in S. contradiction.
Qed.

Theorem dno_events : forall c s k, deventless c ->
  match step c s k with
  | Ok (s', k', ev) => k' = k /\ exists s0 ev0, base c s = Ok (s0, ev0) /\ alike s0 s' /\ ev = map Saw ev0
  | Throw _ => False
  | UB u => base c s = UB u
  | OutOfFuel => base c s = OutOfFuel
  end.
Proof.
  intros c s k N. pose proof (dstep_ends c s k) as H.
  assert (K : forall s' k' ev, step c s k = Ok (s', k', ev) -> k' = k).
  { intros s' k' ev. destruct c; cbn in N; try contradiction; cbn [fdstep]; try subst w; try rewrite Nat.eqb_refl;
    unfold looking, on_object, xcalm, xlift;
    try (match goal with |- context [match ?f ?l with _ => _ end] => destruct (f l) as [[?|?|?|] ?] end);
    try (match goal with |- context [match ?o with Ok _ => _ | _ => _ end] => destruct o as [?|?|?|] end);
    try (destruct (Nat.eqb v w)); cbn [stopped]; intros E; try discriminate; injection E as <- <- <-; reflexivity. }
  unfold ends in H. destruct (step c s k) as [[[s' k'] ev]|e|u|]; try exact H.
  specialize (K _ _ _ eq_refl). split; [exact K|]. destruct H as [(_ & _ & H)|(n & _ & L & E & _)]; [exact H|lia].
Qed.

(** ** Programs *)
Hypothesis DEC : decides eqb.
Definition dstands (s e : dstore T) : Prop := s = e /\ dsized s.

Lemma alike_sized : forall s s' : dstore T, alike s s' -> dsized s -> dsized s'.
Proof. intros s s' A Z v. rewrite (A v). apply Z. Qed.

Lemma ddone : forall c s e s1 s1' ev, dstands s e -> dint_stmt c -> base c s = Ok (s1, ev) -> alike s1 s1' ->
  exists e1, pointwise (qstep show) c e e1 ev /\ dstands s1' e1.
Proof.
  intros c s e s1 s1' ev (<- & Z) I B A. exists s1'. split.
  - exists s1. split; [apply (dstep_exact eqb show DEC); assumption|exact A].
  - split; [reflexivity|]. eapply alike_sized; [exact A|]. eapply (dstep_sized eqb show DEC); eassumption.
Qed.
Lemma dleft_ok : forall c s e s1, dstands s e -> dint_stmt c -> dleft c s s1 -> exists e1, dleft c e e1 /\ dstands s1 e1.
Proof.
  intros c s e s1 (<- & Z) I L. exists s1. split; [exact L|]. split; [reflexivity|].
  destruct L as [c s s' _ A|v w j s s' N L1 L2 A]; [eapply alike_sized; eassumption|]. eapply alike_sized; [exact A|]. intros u.
  unfold dset. destruct (Nat.eqb u v); [|apply Z]. rewrite app_length, firstn_length, skipn_length. specialize (Z v). lia.
Qed.
Definition dundef (c : dstmt T) (_ : dstore T) : Prop :=
  (exists v, c = DMove v v) \/ (exists v, c = DExtendBack v v) \/ (exists v, c = DExtendFront v v) \/ (exists v, c = DShr v INT_MIN).
Lemma dundef_ok : forall c s e u, dstands s e -> dint_stmt c -> base c s = UB u -> dundef c e.
Proof. intros c s e u (<- & Z) I B. exact (dstep_ub T eqb show c s u DEC Z I B). Qed.
Lemma dtotal : forall c s e, dstands s e -> dint_stmt c -> match base c s with Ok _ | UB _ => True | _ => False end.
Proof.
  intros c s e (<- & Z) I. destruct (qsound eqb show DEC c s Z I) as [(s2 & ev & P & _)|(u & P)].
  - apply (qcomplete eqb show DEC) in P; [|assumption|assumption]. rewrite P. exact Logic.I.
  - rewrite P. exact Logic.I.
Qed.

Theorem fdrun_ok : forall prog s k s' k' ev, dsized s -> Forall dint_stmt prog -> fdrun ok nodes eqb show prog s k = Ok (s', k', ev) ->
  survives (pointwise (qstep show)) dleft prog s s' ev /\ dsized s'.
Proof.
  intros prog s k s' k' ev Z F X.
  destruct (steps_ok ok step base dleft (pointwise (qstep show)) dleft dstands dint_stmt dstep_ends ddone dleft_ok prog s k s' k' ev s (conj eq_refl Z) F X)
    as (e' & S & <- & Z'). auto.
Qed.
Theorem fdrun_undef : forall prog s k u, dsized s -> Forall dint_stmt prog -> fdrun ok nodes eqb show prog s k = UB u ->
  exists pre c post s' ev, prog = pre ++ c :: post /\ survives (pointwise (qstep show)) dleft pre s s' ev /\
    ((exists v, c = DMove v v) \/ (exists v, c = DExtendBack v v) \/ (exists v, c = DExtendFront v v) \/ (exists v, c = DShr v INT_MIN)).
Proof.
  intros prog s k u Z F X.
  exact (steps_undef ok step base dleft (pointwise (qstep show)) dleft dstands dint_stmt dundef dstep_ends ddone dleft_ok dundef_ok prog s k u s (conj eq_refl Z) F X).
Qed.
Theorem fdrun_goes_on : forall prog s k, dsized s -> Forall dint_stmt prog ->
  match fdrun ok nodes eqb show prog s k with Ok _ | UB _ => True | Throw _ | OutOfFuel => False end.
Proof.
  intros prog s k Z F.
  exact (steps_go_on ok step base dleft (pointwise (qstep show)) dleft dstands dint_stmt dstep_ends ddone dleft_ok dtotal prog s k s (conj eq_refl Z) F).
Qed.
Theorem dall_well : forall c s k, (forall n, ok n = true) ->
  match step c s k with
  | Ok (s', _, ev) => exists s0 ev0, base c s = Ok (s0, ev0) /\ alike s0 s' /\ ev = map Saw ev0
  | Throw _ => False
  | UB u => base c s = UB u
  | OutOfFuel => base c s = OutOfFuel
  end.
Proof. exact (step_well ok step base dleft dstep_ends). Qed.
End Members.
