(** Sets whose element copies and allocations may throw: proofs. *)
From Coq Require Import ZArith List Bool Ascii Lia.
From Verif Require Import IntMemSpec Outcome ListModel SetModel ListSpec SetSpec ListFacts FailModel FailFacts FailRunModel FailRunSpec FailRun SetFailModel SetFailSpec SetFacts SetProg.
Import ListNotations.
Open Scope Z_scope.

Section Members.
Context {T : Type}.
Variables (ok : nat -> bool) (cost : nat) (lt eqb : T -> T -> bool) (show : T -> list ascii).
Notation mirrors := (xmirrors (St := list T) ok).
Notation kept := (fun l l' : list T => l' = l).

Lemma xwp_insert : forall x a (Q : bool -> list T -> Prop) (H : list T -> Prop) E,
  Q (fst (std_insert lt x a)) (snd (std_insert lt x a)) -> (fst (std_insert lt x a) = true -> H a) ->
  (fst (std_insert lt x a) = false -> snd (std_insert lt x a) = a) ->
  xwp ok (fs_insert ok cost lt x) a Q H E.
Proof.
  intros x a Q H E HQ HH HN. unfold fs_insert. apply xwp_bind, xwp_get. destruct (std_insert lt x a) as [[|] a']; cbn [fst snd] in *.
  - apply xwp_bind, xwp_event; [|auto]. apply xwp_bind, xwp_events; [|auto]. apply xwp_bind, xwp_put, xwp_ret. exact HQ.
  - apply xwp_ret. rewrite (HN eq_refl) in HQ. exact HQ.
Qed.
Lemma insert_not : forall x (a : list T), fst (std_insert lt x a) = false -> snd (std_insert lt x a) = a.
Proof.
  intros x a. unfold std_insert. destruct (lower_bound lt x a) as (p, q). destruct q as [|y q]; cbn; [discriminate|].
  destruct (lt x y); cbn; [discriminate|reflexivity].
Qed.
Lemma xwp_range : forall xs a (Q : unit -> list T -> Prop) (H : list T -> Prop) E,
  Q tt (std_insert_range lt xs a) ->
  (forall pre x post, xs = pre ++ x :: post -> fst (std_insert lt x (std_insert_range lt pre a)) = true -> H (std_insert_range lt pre a)) ->
  xwp ok (fs_insert_range ok cost lt xs) a Q H E.
Proof.
  induction xs as [|x xs IH]; intros a Q H E HQ HH; cbn [fs_insert_range].
  - apply xwp_ret. exact HQ.
  - apply xwp_bind, xwp_insert; [|intros F; exact (HH [] x xs eq_refl F)|apply insert_not].
    apply IH; [exact HQ|]. intros pre y post -> F. exact (HH (x :: pre) y post eq_refl F).
Qed.
Lemma of_makes : forall xs, xmakes ok (S' := unit) (fs_of ok cost lt xs) (Ok (std_insert_range lt xs [])).
Proof. intros xs s. apply xwp_bind, xwp_local, xwp_range; [|auto]. apply xwp_ret. auto. Qed.
Lemma xwp_of : forall xs s (Q : list T -> list T -> Prop) (H : list T -> Prop) E, Q (std_insert_range lt xs []) s -> H s -> xwp ok (fs_of ok cost lt xs) s Q H E.
Proof. intros xs s Q H E HQ HH. apply xwp_bind, xwp_local, xwp_range; [|auto]. apply xwp_ret. exact HQ. Qed.

Lemma xwp_clone : forall w n (Q : unit -> list T -> Prop) (H : list T -> Prop) E a, Q tt a -> (w <> [] -> H a) -> xwp ok (fs_clone ok cost w n) a Q H E.
Proof.
  induction w as [|x w IH]; intros n Q H E a HQ HH; cbn [fs_clone]; [apply xwp_ret; exact HQ|].
  assert (HA : H a) by (apply HH; discriminate).
  destruct n as [|n].
  - apply xwp_bind, xwp_event; [|exact HA]. apply xwp_bind, xwp_events; [|exact HA]. apply IH; auto.
  - apply xwp_bind, xwp_events; [|exact HA]. apply IH; auto.
Qed.
Lemma assign_mirrors : forall w, mirrors (fs_assign ok cost w) (fun _ => (Ok tt, w)) (fun _ l' => l' = [] /\ w <> []).
Proof.
  intros w a. apply xwp_bind, xwp_get, xwp_bind, xwp_put, xwp_bind, xwp_clone; [|auto]. apply xwp_put. reflexivity.
Qed.
Lemma add_mirrors : forall x, mirrors (fs_add ok cost lt x) (set_add lt x) kept.
Proof.
  intros x a. unfold fs_add, set_add. apply xwp_bind, xwp_get, xwp_bind, xwp_lift.
  destruct (check_full (size a) INT_MAX) as [[]|e|u|]; cbn [matches fst]; try reflexivity.
  apply xwp_insert; [|auto|apply insert_not]. destruct (std_insert lt x a). reflexivity.
Qed.
Lemma pop_mirrors : mirrors (fs_pop ok cost) set_pop (fun l l' => exists x, l = x :: l').
Proof.
  intros a. unfold fs_pop, set_pop. apply xwp_bind, xwp_get, xwp_bind, xwp_lift.
  destruct (check_empty (size a)) as [[]|e|u|]; cbn [matches fst]; try reflexivity.
  destruct a as [|x a]; [apply xwp_lift; reflexivity|]. apply xwp_bind, xwp_put, xwp_bind, xwp_events; [|eauto]. apply xwp_ret. reflexivity.
Qed.
(** What an extension leaves. *)
Definition part (xs l l' : list T) : Prop :=
  exists pre x post, xs = pre ++ x :: post /\ fst (std_insert lt x (std_insert_range lt pre l)) = true /\ l' = std_insert_range lt pre l.
Lemma extend_mirrors : forall xs, mirrors (fs_extend ok cost lt xs) (set_extend lt xs) (part xs).
Proof. intros xs a. apply xwp_range; [reflexivity|]. intros pre x post -> F. exists pre, x, post. auto. Qed.
Lemma assigned_mirrors : forall (f : list T -> list T) (g : list T -> list T),
  (forall a, g a = std_insert_range lt (f a) []) ->
  mirrors (a <~ xget ;; r <~ fs_of ok cost lt (f a) ;; xput r) (update (fun a => Ok (g a))) kept.
Proof.
  intros f g G a. apply xwp_bind, xwp_get, xwp_bind, xwp_of; [|reflexivity]. apply xwp_put. unfold update. rewrite G. reflexivity.
Qed.
Lemma min_makes : forall l, xmakes ok (S' := unit) (fs_min ok cost l) (set_min (T := T) l).
Proof.
  intros l s. apply xwp_bind, xwp_lift. destruct (set_min l) as [x|e|u|]; cbn [halts]; auto.
  apply xwp_bind, xwp_events; [|reflexivity]. apply xwp_ret. auto.
Qed.
Lemma max_makes : forall l, xmakes ok (S' := unit) (fs_max ok cost l) (set_max (T := T) l).
Proof.
  intros l s. apply xwp_bind, xwp_lift. destruct (set_max l) as [x|e|u|]; cbn [halts]; auto.
  apply xwp_bind, xwp_events; [|reflexivity]. apply xwp_ret. auto.
Qed.

(** ** Statements *)
Notation step := (fsstep ok cost lt eqb show).
Notation base := (tstep lt eqb show).

(** [zleft] on the sequences. *)
Inductive tleft : tstmt T -> tstore T -> tstore T -> Prop :=
| tl_same : forall c s s', tsteady c -> alike s s' -> tleft c s s'
| tl_copy : forall v w s s', v <> w -> s w <> [] -> alike (tset s v []) s' -> tleft (TCopy v w) s s'
| tl_pop : forall v s x a s', s v = x :: a -> alike (tset s v a) s' -> tleft (TPop v) s s'
| tl_extend : forall v xs l s s', len xs <=? INT_MAX - size (s v) = true -> part xs (s v) l -> alike (tset s v l) s' -> tleft (TExtend v xs) s s'
| tl_extend_set : forall v w l s s', v <> w -> size (s w) <=? INT_MAX - size (s v) = true -> part (s w) (s v) l -> alike (tset s v l) s' ->
    tleft (TExtendSet v w) s s'.

Lemma tkept : forall c (s s' : tstore T) v, tsteady c -> forall x, x = s v -> alike (place s v x) s' -> tleft c s s'.
Proof. intros c s s' v C x -> A. apply tl_same; [exact C|]. intros u. rewrite (A u). apply place_self. Qed.
Lemma guard_ends : forall s k n a b r (L : tstore T -> Prop), (n <=? INT_MAX - size a = true -> ends ok b L k r) -> ends ok (tguard s n a b) L k (fs_guard s k n a r).
Proof.
  intros s k n a b r L H. unfold tguard, fs_guard. destruct (n <=? INT_MAX - size a); [auto|]. apply (ret_ends ok s s k []), alike_refl.
Qed.

Lemma tstep_ends : forall c s k, ends ok (base c s) (tleft c s) k (step c s k).
Proof.
  intros c s k.
  assert (K : tsteady c -> tleft c s s) by (intros C; apply tl_same; [exact C|apply alike_refl]).
  destruct c; cbn [fsstep tstep].
  - apply (new_ends ok TThrow _ (Ok (set_of lt xs))); [apply of_makes|apply K; exact Logic.I].
  - destruct (Nat.eqb v w) eqn:E.
    + apply Nat.eqb_eq in E. subst w. apply (ret_ends ok (tset s v (s v)) s k []). intros u. symmetry. apply place_self.
    + apply Nat.eqb_neq in E. refine (call_ends ok TThrow _ _ (fun _ => (Ok tt, s w)) _ s v k tsilent _ (assign_mirrors (s w)) _).
      intros x s' (-> & N) A. apply tl_copy; assumption.
  - destruct (Nat.eqb v w); [reflexivity|]. apply (ret_ends ok (tset (tset s v (s w)) w []) _ k []). apply alike_refl.
  - exact (call_ends ok TThrow _ _ _ _ s v k (fun b => [TBool b]) _ (add_mirrors x) (fun x' s' => tkept (TAdd v x) s s' v Logic.I x')).
  - exact (call_ends ok TThrow _ _ _ _ s v k (fun b => [TBool b]) _ (calm_mirrors ok _ (set_remove lt x)) (fun x' s' => tkept (TRemove v x) s s' v Logic.I x')).
  - refine (call_ends ok TThrow _ _ _ _ s v k (fun x => [TElem x]) _ pop_mirrors _). intros l s' (x & E) A. eapply tl_pop; eassumption.
  - apply guard_ends. intros G. refine (call_ends ok TThrow _ _ _ _ s v k tsilent _ (extend_mirrors xs) _).
    intros l s' P A. eapply tl_extend; eassumption.
  - apply guard_ends. intros G. destruct (Nat.eqb v w) eqn:E; [reflexivity|]. apply Nat.eqb_neq in E.
    refine (call_ends ok TThrow _ _ _ _ s v k tsilent _ (extend_mirrors (s w)) _). intros l s' P A. eapply tl_extend_set; eassumption.
  - exact (call_ends ok TThrow _ _ _ _ s v k tsilent _ (calm_mirrors ok _ set_clear) (fun x' s' => tkept (TClear v) s s' v Logic.I x')).
  - apply (new_ends ok TThrow _ (Ok (set_and lt (s v) (s w)))); [apply of_makes|apply K; exact Logic.I].
  - apply guard_ends. intros _. apply (new_ends ok TThrow _ (Ok (set_or lt (s v) (s w)))); [apply of_makes|apply K; exact Logic.I].
  - apply (new_ends ok TThrow _ (Ok (set_sub lt (s v) (s w)))); [apply of_makes|apply K; exact Logic.I].
  - apply guard_ends. intros _. apply (new_ends ok TThrow _ (Ok (set_xor lt (s v) (s w)))); [apply of_makes|apply K; exact Logic.I].
  - exact (call_ends ok TThrow _ _ _ _ s v k tsilent _ (assigned_mirrors (fun a => std_intersection lt a (s w)) (fun a => set_and lt a (s w)) (fun a => eq_refl)) (fun x' s' => tkept (TAndA v w) s s' v Logic.I x')).
  - apply guard_ends. intros _.
    exact (call_ends ok TThrow _ _ _ _ s v k tsilent _ (assigned_mirrors (fun a => std_union lt a (s w)) (fun a => set_or lt a (s w)) (fun a => eq_refl)) (fun x' s' => tkept (TOrA v w) s s' v Logic.I x')).
  - exact (call_ends ok TThrow _ _ _ _ s v k tsilent _ (assigned_mirrors (fun a => std_difference lt a (s w)) (fun a => set_sub lt a (s w)) (fun a => eq_refl)) (fun x' s' => tkept (TSubA v w) s s' v Logic.I x')).
  - apply guard_ends. intros _.
    exact (call_ends ok TThrow _ _ _ _ s v k tsilent _ (assigned_mirrors (fun a => std_symmetric_difference lt a (s w)) (fun a => set_xor lt a (s w)) (fun a => eq_refl)) (fun x' s' => tkept (TXorA v w) s s' v Logic.I x')).
  - apply (ret_ends ok s s k [TBool _]), alike_refl.
  - exact (look_ends ok TThrow _ _ _ s k (fun x => [TElem x]) _ (min_makes (s v)) (K Logic.I)).
  - exact (look_ends ok TThrow _ _ _ s k (fun x => [TElem x]) _ (max_makes (s v)) (K Logic.I)).
  - apply (ret_ends ok s s k [TNum _]), alike_refl.
  - apply (ret_ends ok s s k [TBool _]), alike_refl.
  - apply (ret_ends ok s s k [TBool _]), alike_refl.
  - apply (ret_ends ok s s k [TBool _]), alike_refl.
  - apply (ret_ends ok s s k [TBool _]), alike_refl.
  - apply (ret_ends ok s s k [TBool _]), alike_refl.
  - apply (ret_ends ok s s k [TBool _]), alike_refl.
  - apply (ret_ends ok s s k (map TElem (s v))), alike_refl.
  - apply (ret_ends ok s s k [TText _]), alike_refl.
Qed.

Theorem tsteady_fails : forall c s k s' k' n ev, tsteady c -> step c s k = Ok (s', k', Failed n :: ev) -> alike s s'.
Proof.
  intros c s k s' k' n ev S E. pose proof (tstep_ends c s k) as H. rewrite E in H. cbn [ends] in H.
  destruct H as [(_ & _ & s0 & ev0 & _ & _ & H)|(m & _ & _ & _ & _ & _ & L)].
  - destruct ev0; discriminate.
  - destruct L; cbn in S; try contradiction. assumption.
Qed.

Theorem tno_events : forall c s k, teventless c ->
  match step c s k with
  | Ok (s', k', ev) => k' = k /\ exists s0 ev0, base c s = Ok (s0, ev0) /\ alike s0 s' /\ ev = map Saw ev0
  | Throw _ => False
  | UB u => base c s = UB u
  | OutOfFuel => base c s = OutOfFuel
  end.
Proof.
  intros c s k N. pose proof (tstep_ends c s k) as H.
  assert (K : forall s' k' ev, step c s k = Ok (s', k', ev) -> k' = k).
  { intros s' k' ev. destruct c; cbn in N; try contradiction; cbn [fsstep]; try subst w; try rewrite Nat.eqb_refl;
    unfold looking, on_object, xcalm, xlift;
    try (match goal with |- context [match ?f ?l with _ => _ end] => destruct (f l) as [[?|?|?|] ?] end);
    try (match goal with |- context [match ?o with Ok _ => _ | _ => _ end] => destruct o as [?|?|?|] end);
    try (destruct (Nat.eqb v w)); cbn [stopped]; intros E; try discriminate; injection E as <- <- <-; reflexivity. }
  unfold ends in H. destruct (step c s k) as [[[s' k'] ev]|e|u|]; try exact H.
  specialize (K _ _ _ eq_refl). split; [exact K|]. destruct H as [(_ & _ & H)|(n & _ & L & E & _)]; [exact H|lia].
Qed.
Theorem tall_well : forall c s k, (forall n, ok n = true) ->
  match step c s k with
  | Ok (s', _, ev) => exists s0 ev0, base c s = Ok (s0, ev0) /\ alike s0 s' /\ ev = map Saw ev0
  | Throw _ => False
  | UB u => base c s = UB u
  | OutOfFuel => base c s = OutOfFuel
  end.
Proof. exact (step_well ok step base tleft tstep_ends). Qed.

(** ** Programs *)
Hypothesis O : strict_total lt.
Hypothesis DEC : decides eqb.

Lemma alike_stands : forall s s' e, alike s s' -> stands lt s e -> stands lt s' e.
Proof. intros s s' e A S v. rewrite (A v). apply S. Qed.

Lemma tdone : forall c s e s1 s1' ev, stands lt s e -> tint_stmt c -> base c s = Ok (s1, ev) -> alike s1 s1' ->
  exists e1, zstep lt show c e e1 ev /\ stands lt s1' e1.
Proof.
  intros c s e s1 s1' ev S I B A. destruct (trun_refines lt eqb show O DEC [c] s e s1 ev S) as (e1 & R & S1).
  - constructor; [exact I|constructor].
  - cbn [trun]. rewrite B. cbn [bind fst snd]. rewrite app_nil_r. reflexivity.
  - exists e1. split; [|eapply alike_stands; eassumption].
    inversion R as [|c' rest e0 e2 e3 ev1 ev2 P R']; subst. inversion R'; subst. rewrite app_nil_r. exact P.
Qed.
Lemma tleft_ok : forall c s e s1, stands lt s e -> tint_stmt c -> tleft c s s1 -> exists e1, zleft lt c e e1 /\ stands lt s1 e1.
Proof.
  intros c s e s1 S I L.
  assert (SL : forall v, len (s v) <= INT_MAX) by (intros v; apply S).
  assert (SE : forall v, enumerates lt (s v) (e v)) by (intros v; apply S).
  destruct L as [c s s' C A|v w s s' N W A|v s x a s' E A|v xs l s s' G P A|v w l s s' N G P A].
  - exists e. split; [apply zl_same; exact C|]. eapply alike_stands; eassumption.
  - exists (zset e v empty). split.
    + apply zl_copy; [exact N|]. intros X. apply W, (enum_nil lt _ _ (SE w)), X.
    + eapply alike_stands; [exact A|]. apply stands_set; [exact S|apply (nil_enum lt show)|apply nil_small].
  - pose proof (SE v) as SEv. pose proof (SL v) as SLv. rewrite E in SEv, SLv. rewrite len_cons in SLv. exists (zset e v (minus (e v) x)). split.
    + apply zl_pop. exact (head_least lt x a _ SEv).
    + eapply alike_stands; [exact A|]. apply stands_set; [exact S|exact (tail_enum lt O x a _ SEv)|lia].
  - destruct P as (pre & x & post & -> & F & ->). rewrite size_ok in G by auto. apply Z.leb_le in G.
    destruct (SE v) as (IV & EV). destruct (insert_range_ok lt O pre (s v) IV) as (IR & ER & LR).
    destruct (insert_ok lt O x _ IR) as (_ & _ & FX & _). apply FX in F. rewrite ER in F.
    exists (zset e v (either (e v) (fun y => In y pre))). split.
    + apply (zl_extend lt v pre x post e (len (s v))); [apply (enum_card lt O), SE|unfold len in *; lia| |].
      * intros X. apply F. left. apply EV. exact X.
      * intros X. apply F. right. exact X.
    + eapply alike_stands; [exact A|]. apply stands_set; [exact S|apply (range_enum lt O), SE|].
      rewrite len_app, len_cons in G. assert (0 <= len post) by (unfold len; lia). lia.
  - destruct P as (pre & x & post & E & F & ->). rewrite !size_ok in G by auto. apply Z.leb_le in G.
    destruct (SE v) as (IV & EV). destruct (insert_range_ok lt O pre (s v) IV) as (IR & ER & LR).
    destruct (insert_ok lt O x _ IR) as (_ & _ & FX & _). apply FX in F. rewrite ER in F.
    destruct (SE w) as (IW & EW). rewrite E in IW. apply (inc_app lt) in IW. destruct IW as (I1 & I2 & I3). apply (inc_cons lt) in I2. destruct I2 as (I2 & I4).
    assert (PX : forall y, In y pre <-> e w y /\ lt y x = true).
    { intros y. rewrite <- EW, E, in_app_iff. cbn [In]. split.
      - intros Y. split; [left; exact Y|]. apply I3; [exact Y|left; reflexivity].
      - intros ([Y|[<-|Y]] & Q); [exact Y|rewrite (lt_irr lt O) in Q; discriminate|].
        apply I4 in Y. pose proof (lt_asym lt O _ _ Y) as X. congruence. }
    exists (zset e v (either (e v) (fun y => e w y /\ lt y x = true))). split.
    + apply zl_extend_set; [exact N| | |].
      * apply (fit_ok lt O s e v w S). lia.
      * apply EW. rewrite E. apply in_elt.
      * intros X. apply F. left. apply EV. exact X.
    + eapply alike_stands; [exact A|]. apply stands_set; [exact S| |].
      * eapply (enum_same lt); [apply (range_enum lt O), SE|]. intros y. unfold either. rewrite PX. reflexivity.
      * rewrite E, len_app, len_cons in G. assert (0 <= len post) by (unfold len; lia). lia.
Qed.
Definition tundef (c : tstmt T) (_ : zstore T) : Prop := (exists v, c = TMove v v) \/ (exists v, c = TExtendSet v v).
Lemma tundef_ok : forall c s e u, stands lt s e -> tint_stmt c -> base c s = UB u -> tundef c e.
Proof.
  intros c s e u S I B. destruct (ztotal lt eqb show O DEC c s e S) as [(e1 & ev1 & P)|R]; [|exact R].
  destruct (zcomplete lt eqb show O DEC c s e e1 ev1 S I P) as (s2 & E & _). congruence.
Qed.
Lemma ttotal : forall c s e, stands lt s e -> tint_stmt c -> match base c s with Ok _ | UB _ => True | _ => False end.
Proof.
  intros c s e S I. destruct (ztotal lt eqb show O DEC c s e S) as [(e1 & ev1 & P)|[(v & ->)|(v & ->)]].
  - destruct (zcomplete lt eqb show O DEC c s e e1 ev1 S I P) as (s2 & E & _). rewrite E. exact Logic.I.
  - cbn [tstep]. rewrite Nat.eqb_refl. exact Logic.I.
  - cbn [tstep]. rewrite Nat.eqb_refl. unfold tguard. destruct (_ <=? _); exact Logic.I.
Qed.

Theorem tstep_left : forall c s e k, stands lt s e -> tint_stmt c ->
  ends ok (base c s) (fun s' => exists e', zleft lt c e e' /\ stands lt s' e') k (step c s k).
Proof. intros c s e k S I. eapply ends_weaken; [apply tstep_ends|]. intros s' L. exact (tleft_ok c s e s' S I L). Qed.
Theorem fsrun_ok : forall prog s e k s' k' ev, stands lt s e -> Forall tint_stmt prog -> fsrun ok cost lt eqb show prog s k = Ok (s', k', ev) ->
  exists e', survives (zstep lt show) (zleft lt) prog e e' ev /\ stands lt s' e'.
Proof.
  intros prog s e k s' k' ev S F X.
  exact (steps_ok ok step base tleft (zstep lt show) (zleft lt) (stands lt) tint_stmt tstep_ends tdone tleft_ok prog s k s' k' ev e S F X).
Qed.
Theorem fsrun_undef : forall prog s e k u, stands lt s e -> Forall tint_stmt prog -> fsrun ok cost lt eqb show prog s k = UB u ->
  exists pre c post e' ev, prog = pre ++ c :: post /\ survives (zstep lt show) (zleft lt) pre e e' ev /\
    ((exists v, c = TMove v v) \/ (exists v, c = TExtendSet v v)).
Proof.
  intros prog s e k u S F X.
  exact (steps_undef ok step base tleft (zstep lt show) (zleft lt) (stands lt) tint_stmt tundef tstep_ends tdone tleft_ok tundef_ok prog s k u e S F X).
Qed.
Theorem fsrun_goes_on : forall prog s e k, stands lt s e -> Forall tint_stmt prog ->
  match fsrun ok cost lt eqb show prog s k with Ok _ | UB _ => True | Throw _ | OutOfFuel => False end.
Proof.
  intros prog s e k S F.
  exact (steps_go_on ok step base tleft (zstep lt show) (zleft lt) (stands lt) tint_stmt tstep_ends tdone tleft_ok ttotal prog s k e S F).
Qed.
End Members.
