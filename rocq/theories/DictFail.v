(** Dicts whose copies of keys and values and whose allocations may throw: proofs. *)
From Coq Require Import ZArith List Bool Ascii Lia.
From Verif Require Import IntMemSpec Outcome ListModel SetModel DictModel ListSpec SetSpec DictSpec ListFacts FailModel FailFacts FailRunModel FailRunSpec FailRun SetFailModel DictFailModel DictFailSpec SetFacts SetProg SetFail DictFacts DictProg.
Import ListNotations.
Open Scope Z_scope.

Section Members.
Context {K V : Type}.
Variables (ok : nat -> bool) (ltk eqk : K -> K -> bool) (ltv eqv : V -> V -> bool) (showk : K -> list ascii) (showv : V -> list ascii).
Notation dict := (list (K * V)).
Notation mirrors := (xmirrors (St := dict) ok).
Notation kept := (fun l l' : dict => l' = l).

Lemma minsert_not : forall k x (a : dict), fst (map_insert ltk k x a) = false -> snd (map_insert ltk k x a) = a.
Proof.
  intros k x a. unfold map_insert. destruct (map_lower ltk k a) as (p, q). destruct q as [|y q]; cbn; [discriminate|].
  destruct (ltk k (fst y)); cbn; [discriminate|reflexivity].
Qed.
Lemma xwp_minsert : forall n k x a (Q : bool -> dict -> Prop) (H : dict -> Prop) E,
  Q (fst (map_insert ltk k x a)) (snd (map_insert ltk k x a)) -> (fst (map_insert ltk k x a) = true -> H a) ->
  xwp ok (fm_insert ok ltk n k x) a Q H E.
Proof.
  intros n k x a Q H E HQ HH. pose proof (minsert_not k x a) as HN. unfold fm_insert. apply xwp_bind, xwp_get.
  destruct (map_insert ltk k x a) as [[|] a']; cbn [fst snd] in *.
  - apply xwp_bind, xwp_events; [|auto]. apply xwp_bind, xwp_put, xwp_ret. exact HQ.
  - apply xwp_ret. rewrite (HN eq_refl) in HQ. exact HQ.
Qed.
Lemma xwp_mrange : forall xs a (Q : unit -> dict -> Prop) (H : dict -> Prop) E,
  Q tt (map_insert_range ltk xs a) ->
  (forall pre p post, xs = pre ++ p :: post -> fst (map_insert ltk (fst p) (snd p) (map_insert_range ltk pre a)) = true -> H (map_insert_range ltk pre a)) ->
  xwp ok (fm_insert_range ok ltk xs) a Q H E.
Proof.
  induction xs as [|x xs IH]; intros a Q H E HQ HH; cbn [fm_insert_range].
  - apply xwp_ret. exact HQ.
  - apply xwp_bind, xwp_minsert; [|intros F; exact (HH [] x xs eq_refl F)].
    apply IH; [exact HQ|]. intros pre y post -> F. exact (HH (x :: pre) y post eq_refl F).
Qed.
Lemma mof_makes : forall xs, xmakes ok (S' := unit) (fm_of ok ltk xs) (Ok (map_insert_range ltk xs ([] : dict))).
Proof. intros xs s. apply xwp_bind, xwp_local, xwp_mrange; [|auto]. apply xwp_ret. auto. Qed.
Lemma set_missing : forall k x (a : dict), (exists y, dict_at ltk a k = Ok y) \/ (dict_at ltk a k = Throw KeyNotFound /\ dict_set ltk k x a = (Throw KeyNotFound, a)).
Proof.
  intros k x a. unfold dict_at, dict_set, update, map_find, map_assign. destruct (map_lower ltk k a) as (p, q). cbn [snd].
  destruct q as [|y q]; [auto|]. destruct (ltk k (fst y)); eauto.
Qed.
Lemma set_mirrors : forall k x, mirrors (fm_set ok ltk k x) (dict_set ltk k x) kept.
Proof.
  intros k x a. unfold fm_set. apply xwp_bind, xwp_get, xwp_bind, xwp_lift.
  destruct (set_missing k x a) as [(y & E)|(E & F)]; rewrite E.
  - apply xwp_bind, xwp_event; [|reflexivity]. exact (calm_mirrors ok _ (dict_set ltk k x) a).
  - rewrite F. reflexivity.
Qed.
Lemma madd_mirrors : forall k x, mirrors (fm_add ok ltk k x) (dict_add ltk k x) kept.
Proof.
  intros k x a. unfold fm_add, dict_add. apply xwp_bind, xwp_get, xwp_bind, xwp_lift.
  destruct (check_full (size a) INT_MAX) as [[]|e|u|]; cbn [matches fst]; try reflexivity.
  apply xwp_bind, xwp_events; [|auto]. apply xwp_minsert; [|auto]. destruct (map_insert ltk k x a). reflexivity.
Qed.
Lemma mpop_mirrors : mirrors (fm_pop ok) dict_pop (fun l l' => exists p, l = p :: l').
Proof.
  intros a. unfold fm_pop, dict_pop. apply xwp_bind, xwp_get, xwp_bind, xwp_lift.
  destruct (check_empty (size a)) as [[]|e|u|]; cbn [matches fst]; try reflexivity.
  destruct a as [|x a]; [apply xwp_lift; reflexivity|]. apply xwp_bind, xwp_put, xwp_bind, xwp_events; [|eauto]. apply xwp_ret. reflexivity.
Qed.
(** What an extension leaves. *)
Definition mpart (xs l l' : dict) : Prop :=
  exists pre k x post, xs = pre ++ (k, x) :: post /\ fst (map_insert ltk k x (map_insert_range ltk pre l)) = true /\ l' = map_insert_range ltk pre l.
Lemma mextend_mirrors : forall xs, mirrors (fm_extend ok ltk xs) (dict_extend ltk xs) (mpart xs).
Proof. intros xs a. apply xwp_mrange; [reflexivity|]. intros pre (k, x) post -> F. exists pre, k, x, post. auto. Qed.
Lemma mmin_makes : forall l, xmakes ok (S' := unit) (fm_min ok l) (dict_min (K := K) (V := V) l).
Proof.
  intros l s. apply xwp_bind, xwp_lift. destruct (dict_min l) as [x|e|u|]; cbn [halts]; auto.
  apply xwp_bind, xwp_event; [|reflexivity]. apply xwp_ret. auto.
Qed.
Lemma mmax_makes : forall l, xmakes ok (S' := unit) (fm_max ok l) (dict_max (K := K) (V := V) l).
Proof.
  intros l s. apply xwp_bind, xwp_lift. destruct (dict_max l) as [x|e|u|]; cbn [halts]; auto.
  apply xwp_bind, xwp_event; [|reflexivity]. apply xwp_ret. auto.
Qed.
Lemma add_all_wp : forall X cost (lt : X -> X -> bool) f (d : dict) a (Q : unit -> list X -> Prop) (H : list X -> Prop) (E : xfault -> list X -> Prop),
  match add_all lt f d a with
  | Ok a' => Q tt a'
  | Throw e => forall a', E (XThrow e) a'
  | UB u => forall a', E (XUB u) a'
  | OutOfFuel => forall a', E XFuel a'
  end -> (forall a', H a') -> xwp ok (fm_add_all ok cost lt f d) a Q H E.
Proof.
  intros X cost lt f. induction d as [|p d IH]; intros a Q H E HQ HH; cbn [fm_add_all]; [apply xwp_ret; exact HQ|].
  cbn [add_all] in HQ. apply xwp_bind. eapply xwp_mono; [exact (add_mirrors ok cost lt (f p) a)| |intros; apply HH|].
  - cbn beta. intros b a' W. rewrite W in HQ. apply IH; assumption.
  - cbn beta. intros f0 a' W. destruct (set_add lt (f p) a) as [o a2]. destruct f0; cbn [matches fst] in W; [contradiction| | |].
    + injection W as -> _. apply HQ.
    + subst o. apply HQ.
    + subst o. apply HQ.
Qed.
Lemma view_makes : forall X cost (lt : X -> X -> bool) f (d : dict), xmakes ok (S' := unit) (fm_view ok cost lt f d) (add_all lt f d []).
Proof.
  intros X cost lt f d s. apply xwp_bind, xwp_local, add_all_wp; [|auto].
  destruct (add_all lt f d []) as [a|e|u|]; cbn [halts]; auto. apply xwp_ret. auto.
Qed.

(** ** Statements *)
Notation step := (fmstep ok ltk eqk ltv eqv showk showv).
Notation base := (mstep ltk eqk ltv eqv showk showv).

(** [fleft] on the sequences. *)
Inductive mleft : mstmt K V -> mstore K V -> mstore K V -> Prop :=
| ml_same : forall c s s', msteady c -> alike s s' -> mleft c s s'
| ml_copy : forall v w s s', v <> w -> s w <> [] -> alike (mset s v []) s' -> mleft (MCopy v w) s s'
| ml_pop : forall v s p a s', s v = p :: a -> alike (mset s v a) s' -> mleft (MPop v) s s'
| ml_extend : forall v xs l s s', len xs <=? INT_MAX - size (s v) = true -> mpart xs (s v) l -> alike (mset s v l) s' -> mleft (MExtend v xs) s s'
| ml_extend_dict : forall v w l s s', v <> w -> size (s w) <=? INT_MAX - size (s v) = true -> mpart (s w) (s v) l -> alike (mset s v l) s' ->
    mleft (MExtendDict v w) s s'.

Lemma mkept : forall c (s s' : mstore K V) v, msteady c -> forall x, x = s v -> alike (place s v x) s' -> mleft c s s'.
Proof. intros c s s' v C x -> A. apply ml_same; [exact C|]. intros u. rewrite (A u). apply place_self. Qed.
Lemma mguard_ends : forall s k n a b r (L : mstore K V -> Prop), (n <=? INT_MAX - size a = true -> ends ok b L k r) -> ends ok (mguard s n a b) L k (fm_guard s k n a r).
Proof.
  intros s k n a b r L H. unfold mguard, fm_guard. destruct (n <=? INT_MAX - size a); [auto|]. apply (ret_ends ok s s k []), alike_refl.
Qed.

Lemma mstep_ends : forall c s k, ends ok (base c s) (mleft c s) k (step c s k).
Proof.
  intros c s k.
  assert (KS : msteady c -> mleft c s s) by (intros C; apply ml_same; [exact C|apply alike_refl]).
  destruct c as [v xs|v w|v w|v j|v j x|v j x|v j|v j x|v j|v|v xs|v w|v|v|v|v|v|v|v|v|v w|v|v]; cbn [fmstep mstep].
  - apply (new_ends ok MThrow _ (Ok (dict_of ltk xs))); [apply mof_makes|apply KS; exact Logic.I].
  - destruct (Nat.eqb v w) eqn:E.
    + apply Nat.eqb_eq in E. subst w. apply (ret_ends ok (mset s v (s v)) s k []). intros u. symmetry. apply place_self.
    + apply Nat.eqb_neq in E. refine (call_ends ok MThrow _ _ (fun _ => (Ok tt, s w)) _ s v k msilent _ (assign_mirrors ok 2 (s w)) _).
      intros x s' (-> & N) A. apply ml_copy; assumption.
  - destruct (Nat.eqb v w); [reflexivity|]. apply (ret_ends ok (mset (mset s v (s w)) w []) _ k []). apply alike_refl.
  - exact (look_ends ok MThrow _ _ _ s k (fun x => [MVal x]) _ (lift_makes ok _ _ _) (KS Logic.I)).
  - exact (call_ends ok MThrow _ _ _ _ s v k msilent _ (set_mirrors j x) (fun x' s' => mkept (MSet v j x) s s' v Logic.I x')).
  - exact (look_ends ok MThrow _ _ _ s k (fun x => [MVal x]) _ (lift_makes ok _ _ _) (KS Logic.I)).
  - apply (ret_ends ok s s k [MBool _]), alike_refl.
  - exact (call_ends ok MThrow _ _ _ _ s v k (fun b => [MBool b]) _ (madd_mirrors j x) (fun x' s' => mkept (MAdd v j x) s s' v Logic.I x')).
  - exact (call_ends ok MThrow _ _ _ _ s v k (fun b => [MBool b]) _ (calm_mirrors ok _ (dict_remove ltk j)) (fun x' s' => mkept (MRemove v j) s s' v Logic.I x')).
  - refine (call_ends ok MThrow _ _ _ _ s v k (fun p => [MPair p]) _ mpop_mirrors _). intros l s' (x & E) A. eapply ml_pop; eassumption.
  - apply mguard_ends. intros G. refine (call_ends ok MThrow _ _ _ _ s v k msilent _ (mextend_mirrors xs) _).
    intros l s' P A. eapply ml_extend; eassumption.
  - apply mguard_ends. intros G. destruct (Nat.eqb v w) eqn:E; [reflexivity|]. apply Nat.eqb_neq in E.
    refine (call_ends ok MThrow _ _ _ _ s v k msilent _ (mextend_mirrors (s w)) _). intros l s' P A. eapply ml_extend_dict; eassumption.
  - exact (call_ends ok MThrow _ _ _ _ s v k msilent _ (calm_mirrors ok _ dict_clear) (fun x' s' => mkept (MClear v) s s' v Logic.I x')).
  - exact (look_ends ok MThrow _ _ _ s k (fun x => [MKey x]) _ (mmin_makes (s v)) (KS Logic.I)).
  - exact (look_ends ok MThrow _ _ _ s k (fun x => [MKey x]) _ (mmax_makes (s v)) (KS Logic.I)).
  - exact (look_ends ok MThrow _ _ _ s k (map MKey) _ (view_makes _ 1 ltk fst (s v)) (KS Logic.I)).
  - exact (look_ends ok MThrow _ _ _ s k (map MVal) _ (view_makes _ 1 ltv snd (s v)) (KS Logic.I)).
  - exact (look_ends ok MThrow _ _ _ s k (map MPair) _ (view_makes _ 2 (pair_lt ltk ltv) (fun p => p) (s v)) (KS Logic.I)).
  - apply (ret_ends ok s s k [MNum _]), alike_refl.
  - apply (ret_ends ok s s k [MBool _]), alike_refl.
  - apply (ret_ends ok s s k [MBool _]), alike_refl.
  - apply (ret_ends ok s s k (map MPair (s v))), alike_refl.
  - apply (ret_ends ok s s k [MText _]), alike_refl.
Qed.

Theorem msteady_fails : forall c s k s' k' n ev, msteady c -> step c s k = Ok (s', k', Failed n :: ev) -> alike s s'.
Proof.
  intros c s k s' k' n ev S E. pose proof (mstep_ends c s k) as H. rewrite E in H. cbn [ends] in H.
  destruct H as [(_ & _ & s0 & ev0 & _ & _ & H)|(m & _ & _ & _ & _ & _ & L)].
  - destruct ev0; discriminate.
  - destruct L; cbn in S; try contradiction. assumption.
Qed.

Theorem mno_events : forall c s k, meventless c ->
  match step c s k with
  | Ok (s', k', ev) => k' = k /\ exists s0 ev0, base c s = Ok (s0, ev0) /\ alike s0 s' /\ ev = map Saw ev0
  | Throw _ => False
  | UB u => base c s = UB u
  | OutOfFuel => base c s = OutOfFuel
  end.
Proof.
  intros c s k N. pose proof (mstep_ends c s k) as H.
  assert (KK : forall s' k' ev, step c s k = Ok (s', k', ev) -> k' = k).
  { intros s' k' ev. destruct c; cbn in N; try contradiction; cbn [fmstep]; try subst w; try rewrite Nat.eqb_refl;
    unfold looking, on_object, xcalm, xlift;
    try (match goal with |- context [match ?f ?l with _ => _ end] => destruct (f l) as [[?|?|?|] ?] end);
    try (match goal with |- context [match ?o with Ok _ => _ | _ => _ end] => destruct o as [?|?|?|] end);
    try (destruct (Nat.eqb v w)); cbn [stopped]; intros E; try discriminate; injection E as <- <- <-; reflexivity. }
  unfold ends in H. destruct (step c s k) as [[[s' k'] ev]|e|u|]; try exact H.
  specialize (KK _ _ _ eq_refl). split; [exact KK|]. destruct H as [(_ & _ & H)|(n & _ & L & E & _)]; [exact H|lia].
Qed.
Theorem mall_well : forall c s k, (forall n, ok n = true) ->
  match step c s k with
  | Ok (s', _, ev) => exists s0 ev0, base c s = Ok (s0, ev0) /\ alike s0 s' /\ ev = map Saw ev0
  | Throw _ => False
  | UB u => base c s = UB u
  | OutOfFuel => base c s = OutOfFuel
  end.
Proof. exact (step_well ok step base mleft mstep_ends). Qed.

(** ** Programs *)
Hypothesis OK : strict_total ltk.
Hypothesis OV : strict_total ltv.
Hypothesis DK : decides eqk.
Hypothesis DV : decides eqv.

Lemma alike_mstands : forall s s' e, alike s s' -> mstands ltk s e -> mstands (V := V) ltk s' e.
Proof. intros s s' e A S v. rewrite (A v). apply S. Qed.

Lemma mdone : forall c s e s1 s1' ev, mstands ltk s e -> mint_stmt c -> base c s = Ok (s1, ev) -> alike s1 s1' ->
  exists e1, fstep ltk ltv showk showv c e e1 ev /\ mstands ltk s1' e1.
Proof.
  intros c s e s1 s1' ev S I B A. destruct (mrun_refines ltk eqk ltv eqv showk showv OK OV DK DV [c] s e s1 ev S) as (e1 & R & S1).
  - constructor; [exact I|constructor].
  - cbn [mrun]. rewrite B. cbn [bind fst snd]. rewrite app_nil_r. reflexivity.
  - exists e1. split; [|eapply alike_mstands; eassumption].
    inversion R as [|c' rest e0 e2 e3 ev1 ev2 P R']; subst. inversion R'; subst. rewrite app_nil_r. exact P.
Qed.

Lemma first_ex : forall (xs : dict) k y, In (k, y) xs -> exists x, first_value xs k x.
Proof.
  induction xs as [|(j, z) xs IH]; intros k y I; [destruct I|]. destruct (key_dec ltk OK k j) as [->|N].
  - exists z. apply first_cons. auto.
  - destruct I as [I|I]; [congruence|]. destruct (IH _ _ I) as (x & X). exists x. apply first_cons. auto.
Qed.
(** The key whose insertion was stopped was neither in the map nor in the range before it. *)
Lemma insert_fresh : forall k x (l : dict) (m : fmap) (pre : dict) (m' : fmap), listing ltk l m -> extended m pre m' -> listing ltk (map_insert_range ltk pre l) m' ->
  (fst (map_insert ltk k x (map_insert_range ltk pre l)) = true <-> m k = None /\ forall y, ~ In (k, y) pre).
Proof.
  intros k x l m pre m' L X L'. destruct (X k) as (X1 & X2). split.
  - intros F. assert (N : m' k = None).
    { destruct (m' k) as [z|] eqn:E; [|reflexivity]. rewrite (insert_present ltk OK k x _ m' L') in F by (exists z; exact E). discriminate. }
    assert (M : m k = None) by (destruct (m k) as [z|]; [rewrite (X1 z eq_refl) in N; discriminate|reflexivity]).
    split; [exact M|]. intros y I. destruct (first_ex pre k y I) as (z & Z). apply (X2 M) in Z. congruence.
  - intros (M & I). assert (N : m' k = None).
    { destruct (m' k) as [z|] eqn:E; [|reflexivity]. apply (proj2 (X k) M) in E. destruct E as (a & b & -> & _). destruct (I z). apply in_elt. }
    destruct (puts_ex ltk OK m' k x) as (m2 & P). destruct (insert_absent ltk OK k x _ m' m2 L' N P) as (l2 & -> & _). reflexivity.
Qed.
Lemma below_listing : forall (pre : dict) k x post (m : fmap), listing ltk (pre ++ (k, x) :: post) m -> listing ltk pre (below_key ltk m k).
Proof.
  intros pre k x post m (I & H). rewrite map_app in I. cbn [map fst] in I. apply (inc_app ltk) in I. destruct I as (I1 & I2 & I3).
  apply (inc_cons ltk) in I2. destruct I2 as (I2 & I4). split; [exact I1|]. intros j y. unfold below_key. split.
  - intros J. rewrite (I3 j k); [|exact (in_map fst _ _ J)|left; reflexivity]. apply H, in_or_app. auto.
  - destruct (ltk j k) eqn:LT; [|discriminate]. intros E. apply H, in_app_or in E. destruct E as [E|[E|E]]; [exact E| |].
    + injection E as <- <-. rewrite (lt_irr ltk OK) in LT. discriminate.
    + apply (in_map fst) in E. apply I4 in E. cbn [fst] in E. pose proof (lt_asym ltk OK _ _ E). congruence.
Qed.
Lemma tail_listing : forall k x (a : dict) (m m' : fmap), listing ltk ((k, x) :: a) m -> drops m k m' -> listing ltk a m'.
Proof.
  intros k x a m m' (I & H) (D1 & D2). cbn [map fst] in I. apply (inc_cons ltk) in I. destruct I as (I1 & I2). split; [exact I1|].
  intros j y. destruct (key_dec ltk OK j k) as [->|N].
  - rewrite D1. split; [|discriminate]. intros E. apply (in_map fst) in E. apply I2 in E. cbn [fst] in E. rewrite (lt_irr ltk OK) in E. discriminate.
  - rewrite D2 by exact N. rewrite <- H. cbn [In]. split; [auto|]. intros [E|E]; [congruence|exact E].
Qed.
Lemma head_key : forall k x (a : dict) (m : fmap), listing ltk ((k, x) :: a) m -> least ltk (has m) k.
Proof. intros k x a m L. exact (head_least ltk k (map fst a) _ (listing_keys ltk _ _ L)). Qed.

Lemma mleft_ok : forall c s e s1, mstands ltk s e -> mint_stmt c -> mleft c s s1 -> exists e1, fleft ltk c e e1 /\ mstands ltk s1 e1.
Proof.
  intros c s e s1 S I L.
  assert (SL : forall v, len (s v) <= INT_MAX) by (intros v; apply S).
  assert (SE : forall v, listing ltk (s v) (e v)) by (intros v; apply S).
  destruct L as [c s s' C A|v w s s' N W A|v s (k, x) a s' E A|v xs l s s' G P A|v w l s s' N G P A].
  - exists e. split; [apply fl_same; exact C|]. eapply alike_mstands; eassumption.
  - exists (fset e v no_entry). split.
    + apply fl_copy; [exact N|]. intros X. apply W. apply (listing_nil ltk _ _ (SE w)). exact X.
    + eapply alike_mstands; [exact A|]. apply mstands_set; [exact S|apply nil_listing|rewrite len_nil; unfold INT_MAX; lia].
  - pose proof (SE v) as SEv. pose proof (SL v) as SLv. rewrite E in SEv, SLv. rewrite len_cons in SLv.
    destruct (drops_ex ltk OK (e v) k) as (m & D). exists (fset e v m). split.
    + eapply fl_pop; [exact (head_key k x a _ SEv)|exact D].
    + eapply alike_mstands; [exact A|]. apply mstands_set; [exact S|exact (tail_listing k x a _ _ SEv D)|lia].
  - destruct P as (pre & k & x & post & -> & F & ->). rewrite size_ok in G by auto. apply Z.leb_le in G.
    destruct (range_ok ltk OK pre _ _ (SE v)) as (m & X & LX & LN). apply (insert_fresh k x _ _ pre m (SE v) X LX) in F. destruct F as (F1 & F2).
    exists (fset e v m). split.
    + apply (fl_extend ltk v pre k x post e (len (s v))); [apply (listing_card ltk OK), SE|unfold len in *; lia|exact F1|exact F2|exact X].
    + eapply alike_mstands; [exact A|]. apply mstands_set; [exact S|exact LX|].
      rewrite len_app, len_cons in G. assert (0 <= len post) by (unfold len; lia). lia.
  - destruct P as (pre & k & x & post & E & F & ->). rewrite !size_ok in G by auto. apply Z.leb_le in G.
    pose proof (SE w) as SEw. rewrite E in SEw. pose proof (below_listing pre k x post _ SEw) as B.
    pose proof (joined_extended ltk OK pre (e v) _ B) as X.
    destruct (range_listing ltk OK pre _ _ _ (SE v) X) as (LX & LN). apply (insert_fresh k x _ _ pre _ (SE v) X LX) in F. destruct F as (F1 & F2).
    eexists. split.
    + apply (fl_extend_dict ltk v w k e N); [apply (mfit_ok ltk OK s e v w S); lia| |exact F1].
      exists x. apply SEw, in_elt.
    + eapply alike_mstands; [exact A|]. apply mstands_set; [exact S|exact LX|].
      rewrite E, len_app, len_cons in G. assert (0 <= len post) by (unfold len; lia). lia.
Qed.
Definition mundef (c : mstmt K V) (e : @fstore K V) : Prop :=
  (exists v, c = MMove v v) \/ (exists v, c = MExtendDict v v) \/ (exists v, nothing (has (e v)) /\ (c = MMin v \/ c = MMax v)).
Lemma mundef_ok : forall c s e u, mstands ltk s e -> mint_stmt c -> base c s = UB u -> mundef c e.
Proof.
  intros c s e u S I B. destruct (mstep_ub ltk eqk ltv eqv showk showv OK OV DK DV c s e u S I B) as [H|[H|(v & E & H)]]; [left; exact H|right; left; exact H|].
  right; right. exists v. split; [|exact H]. apply (listing_nil ltk (s v) (e v)); [apply S|exact E].
Qed.
Lemma mtotal : forall c s e, mstands ltk s e -> mint_stmt c -> match base c s with Ok _ | UB _ => True | _ => False end.
Proof.
  intros c s e S I. destruct (ftotal ltk eqk ltv eqv showk showv OK OV DK DV c s e S) as [(e1 & ev1 & P)|[(v & ->)|[(v & ->)|(v & N & [->| ->])]]].
  - destruct (fcomplete ltk eqk ltv eqv showk showv OK OV DK DV c s e e1 ev1 S I P) as (s2 & E & _). rewrite E. exact Logic.I.
  - cbn [mstep]. rewrite Nat.eqb_refl. exact Logic.I.
  - cbn [mstep]. rewrite Nat.eqb_refl. unfold mguard. destruct (_ <=? _); exact Logic.I.
  - cbn [mstep]. rewrite N. exact Logic.I.
  - cbn [mstep]. rewrite N. exact Logic.I.
Qed.

Theorem mstep_left : forall c s e k, mstands ltk s e -> mint_stmt c ->
  ends ok (base c s) (fun s' => exists e', fleft ltk c e e' /\ mstands ltk s' e') k (step c s k).
Proof. intros c s e k S I. eapply ends_weaken; [apply mstep_ends|]. intros s' L. exact (mleft_ok c s e s' S I L). Qed.
Theorem fmrun_ok : forall prog s e k s' k' ev, mstands ltk s e -> Forall mint_stmt prog -> fmrun ok ltk eqk ltv eqv showk showv prog s k = Ok (s', k', ev) ->
  exists e', survives (fstep ltk ltv showk showv) (fleft ltk) prog e e' ev /\ mstands ltk s' e'.
Proof.
  intros prog s e k s' k' ev S F X.
  exact (steps_ok ok step base mleft (fstep ltk ltv showk showv) (fleft ltk) (mstands ltk) mint_stmt mstep_ends mdone mleft_ok prog s k s' k' ev e S F X).
Qed.
Theorem fmrun_undef : forall prog s e k u, mstands ltk s e -> Forall mint_stmt prog -> fmrun ok ltk eqk ltv eqv showk showv prog s k = UB u ->
  exists pre c post e' ev, prog = pre ++ c :: post /\ survives (fstep ltk ltv showk showv) (fleft ltk) pre e e' ev /\
    ((exists v, c = MMove v v) \/ (exists v, c = MExtendDict v v) \/ (exists v, nothing (has (e' v)) /\ (c = MMin v \/ c = MMax v))).
Proof.
  intros prog s e k u S F X.
  exact (steps_undef ok step base mleft (fstep ltk ltv showk showv) (fleft ltk) (mstands ltk) mint_stmt mundef mstep_ends mdone mleft_ok mundef_ok prog s k u e S F X).
Qed.
Theorem fmrun_goes_on : forall prog s e k, mstands ltk s e -> Forall mint_stmt prog ->
  match fmrun ok ltk eqk ltv eqv showk showv prog s k with Ok _ | UB _ => True | Throw _ | OutOfFuel => False end.
Proof.
  intros prog s e k S F.
  exact (steps_go_on ok step base mleft (fstep ltk ltv showk showv) (fleft ltk) (mstands ltk) mint_stmt mstep_ends mdone mleft_ok mtotal prog s k e S F).
Qed.
End Members.
