(** Proofs about loops over Sets. *)
From Coq Require Import ZArith List Bool Ascii Lia Sorted.
From Verif Require Import Outcome ListModel ListSpec ListFacts ListMore ListProg SetModel SetSpec SetFacts SetProg ListRefModel ListRef DictRefModel DictIterSpec
  SetIterModel SetIterSpec SetIter.
Import ListNotations.
Open Scope Z_scope.

Section Loop.
Context {T : Type} (lt eqb : T -> T -> bool) (show : T -> list ascii).
Hypothesis O : strict_total lt.
Hypothesis D : decides eqb.
Implicit Types (s : nstate T) (e : zstore T) (I : nat -> cur T).
Notation nstp := (n_step lt eqb show).
Notation zspec := (zstep lt show).
Notation ns := (nspec lt show).
Notation run := (n_run lt eqb show).
Notation nr := (nrun lt show).
Notation loop := (n_loop lt eqb show).
Notation stand := (nstands lt).

Lemma put_nset : forall I i x, put I i x (nset I i x).
Proof. intros I i x. split; unfold nset; [rewrite Nat.eqb_refl; auto|]. intros j N. destruct (Nat.eqb_spec j i); [contradiction|auto]. Qed.
Lemma nset_eq : forall I i x, nset I i x i = x.
Proof. intros. apply put_nset. Qed.
Lemma nset_ne : forall I i j x, j <> i -> nset I i x j = I j.
Proof. intros. apply put_nset. auto. Qed.

Lemma nrun_app : forall p q s, run (p ++ q) s = (se <- run p s ;; se' <- run q (fst se) ;; Ok (fst se', snd se ++ snd se')).
Proof.
  induction p as [|c p IH]; intros q s; cbn [app n_run].
  - cbn [bind fst snd]. destruct (run q s) as [(t, ev)|?|?|]; cbn [bind]; auto.
  - destruct (nstp c s) as [(t, ev)|?|?|]; cbn [bind]; auto. cbn [fst snd]. rewrite IH. destruct (run p t) as [(t1, ev1)|?|?|]; cbn [bind]; auto. cbn [fst snd].
    destruct (run q t1) as [(t2, ev2)|?|?|]; cbn [bind]; auto. cbn [fst snd]. rewrite app_assoc. auto.
Qed.
Lemma nrun_one : forall c s, run [c] s = nstp c s.
Proof. intros c s. cbn [n_run]. destruct (nstp c s) as [(t, ev)|?|?|]; cbn [bind]; auto. cbn [fst snd]. rewrite app_nil_r. auto. Qed.

(** ** The rule of loops *)
Theorem loop_rule : forall (Inv : nat -> zstore T -> (nat -> cur T) -> list (tevent T) -> Prop) i k v body,
  (forall n e I ev, Inv n e I ev -> whose (I i) = Some v /\ whose (I k) = Some v) ->
  (forall n s e I ev, Inv n e I ev -> I i <> I k -> stand s e I ->
    exists s' e' I' ev' m, run body s = Ok (s', ev') /\ stand s' e' I' /\ (m < n)%nat /\ Inv m e' I' (ev ++ ev')) ->
  forall fuel n s e I ev, (n < fuel)%nat -> Inv n e I ev -> stand s e I ->
  exists s' e' I' ev' m, loop fuel i k body s = Ok (s', ev') /\ stand s' e' I' /\ I' i = I' k /\ Inv m e' I' (ev ++ ev').
Proof.
  intros Inv i k v body H1 H2. induction fuel as [|fuel IH]; intros n s e I ev L J S; [lia|]. cbn [n_loop].
  destruct (H1 _ _ _ _ J) as (W1 & W2). destruct (nat_ok lt s e I i v S W1) as (p & P1 & P2 & P3). destruct (nat_ok lt s e I k v S W2) as (q & Q1 & Q2 & Q3).
  rewrite P1, Q1. cbn [bind fst snd]. rewrite Nat.eqb_refl. cbn [negb]. destruct (Nat.eqb_spec p q) as [->|N].
  - exists s, e, I, [], n. rewrite app_nil_r. repeat match goal with |- _ /\ _ => split end; auto. congruence.
  - assert (NE : I i <> I k) by (intros X; apply N; rewrite P3, Q3 in X; apply (place_eq lt show O s e v (nt_sets _ _ _ _ S)) in X; auto).
    destruct (H2 _ _ _ _ _ J NE S) as (s1 & e1 & I1 & ev1 & m & E1 & S1 & M & J1). rewrite E1. cbn [bind fst snd].
    destruct (IH m s1 e1 I1 (ev ++ ev1) ltac:(lia) J1 S1) as (s2 & e2 & I2 & ev2 & m2 & E2 & S2 & X & J2). rewrite E2. cbn [bind fst snd].
    exists s2, e2, I2, (ev1 ++ ev2), m2. rewrite app_assoc. auto.
Qed.

(** The iterator to the first element of [r], or the end. *)
Definition head_cur (v : nat) (r : list T) : cur T := match r with [] => Past v | x :: _ => At v x end.

Lemma lead_head : forall e v Q r, enumerates lt r (both (e v) Q) -> leading lt e v Q (head_cur v r).
Proof.
  intros e v Q [|x r] E; cbn [head_cur]; unfold leading.
  - right. split; auto. apply (enum_nil lt _ _ E). auto.
  - left. exists x. split; auto. eapply head_least; eauto.
Qed.
Lemma enum_after : forall (P : T -> Prop) d x r, enumerates lt (d ++ x :: r) P -> enumerates lt r (both P (fun y => lt x y = true)).
Proof.
  intros P d x r (I & E). apply (inc_app lt) in I. destruct I as (A & B & C). apply inc_cons in B; auto. destruct B as (B & F). split; auto.
  intros y. unfold both. rewrite <- E, in_app_iff. cbn [In]. split.
  - intros X. auto.
  - intros ([X|[X|X]] & Y); auto.
    + rewrite (lt_asym lt O y x) in Y; [discriminate|]. apply C; auto. left. auto.
    + subst. rewrite (lt_irr lt O) in Y. discriminate.
Qed.
Lemma enum_before : forall (P : T -> Prop) d x r, enumerates lt (d ++ x :: r) P -> enumerates lt d (both P (fun y => lt y x = true)).
Proof.
  intros P d x r (I & E). apply (inc_app lt) in I. destruct I as (A & B & C). apply inc_cons in B; auto. destruct B as (B & F). split; auto.
  intros y. unfold both. rewrite <- E, in_app_iff. cbn [In]. split.
  - intros X. split; auto. apply C; auto. left. auto.
  - intros ([X|[X|X]] & Y); auto.
    + subst. rewrite (lt_irr lt O) in Y. discriminate.
    + rewrite (lt_asym lt O x y) in Y; [discriminate|auto].
Qed.

Lemma nnext_ok : forall s e I i v x r, stand s e I -> I i = At v x -> enumerates lt r (both (e v) (fun y => lt x y = true)) ->
  exists s', nstp (NNext i) s = Ok (s', []) /\ stand s' e (nset I i (head_cur v r)).
Proof.
  intros s e I i v x r S E R. apply (nstep_ok lt eqb show O D (NNext i) _ _ _ _ _ _ S Logic.I). eapply ns_next; eauto; [|apply put_nset]. apply lead_head. auto.
Qed.
Lemma nprev_ok : forall s e I i v y, stand s e I -> whose (I i) = Some v -> greatest lt (both (e v) (until lt (I i))) y ->
  exists s', nstp (NPrev i) s = Ok (s', []) /\ stand s' e (nset I i (At v y)).
Proof.
  intros s e I i v y S E R. apply (nstep_ok lt eqb show O D (NPrev i) _ _ _ _ _ _ S Logic.I). eapply ns_prev; eauto; apply put_nset.
Qed.
Lemma start_for : forall s e I i k v l, stand s e I -> i <> k -> enumerates lt l (e v) ->
  exists s', run [NBegin i v; NEnd k v] s = Ok (s', []) /\ stand s' e (nset (nset I i (head_cur v l)) k (Past v)).
Proof.
  intros s e I i k v l S N E. apply (nrun_complete lt eqb show O D _ _ _ _ _ _ _ S); [repeat constructor|].
  change (@nil (tevent T)) with (@nil (tevent T) ++ ([] ++ [])). econstructor; [|econstructor; [|constructor]].
  - eapply ns_begin; [|apply put_nset]. apply lead_head. eapply enum_same; eauto. unfold same, both. tauto.
  - eapply ns_end. apply put_nset.
Qed.
Lemma start_back : forall s e I i k v l, stand s e I -> i <> k -> enumerates lt l (e v) ->
  exists s', run [NEnd i v; NBegin k v] s = Ok (s', []) /\ stand s' e (nset (nset I i (Past v)) k (head_cur v l)).
Proof.
  intros s e I i k v l S N E. apply (nrun_complete lt eqb show O D _ _ _ _ _ _ _ S); [repeat constructor|].
  change (@nil (tevent T)) with (@nil (tevent T) ++ ([] ++ [])). econstructor; [|econstructor; [|constructor]].
  - eapply ns_end. apply put_nset.
  - eapply ns_begin; [|apply put_nset]. apply lead_head. eapply enum_same; eauto. unfold same, both. tauto.
Qed.

(** ** Range loops whose body leaves the set alone *)
Theorem for_rule : forall (Inv : list T -> list (tevent T) -> zstore T -> Prop) i k v l body, i <> k ->
  (forall d x r ev s e I, l = d ++ x :: r -> Inv d ev e -> stand s e I -> enumerates lt l (e v) -> I i = At v x -> I k = Past v ->
    exists s' e' I' ev', run body s = Ok (s', ev') /\ stand s' e' I' /\ Inv (d ++ [x]) (ev ++ ev') e' /\ enumerates lt l (e' v) /\ I' i = At v x /\ I' k = Past v) ->
  forall fuel s e I, stand s e I -> Inv [] [] e -> enumerates lt l (e v) -> (length l < fuel)%nat ->
  exists s' e' I' ev, set_for lt eqb show fuel i k v body s = Ok (s', ev) /\ stand s' e' I' /\ Inv l ev e' /\ enumerates lt l (e' v) /\ I' i = Past v.
Proof.
  intros Inv i k v l body N H fuel s e I S J E L. unfold set_for. destruct (start_for s e I i k v l S N E) as (s1 & E1 & S1). rewrite E1. cbn [bind fst].
  destruct (loop_rule (fun n e I ev => exists d r, l = d ++ r /\ n = length r /\ Inv d ev e /\ enumerates lt l (e v) /\ I i = head_cur v r /\ I k = Past v)
    i k v (body ++ [NNext i])) with (fuel := fuel) (n := length l) (s := s1) (e := e) (I := nset (nset I i (head_cur v l)) k (Past v)) (ev := @nil (tevent T))
    as (s2 & e2 & I2 & ev2 & m & E2 & S2 & X & (d & r & -> & -> & J2 & EN & Y & Z)); auto.
  - intros n e1 I1 ev (d & r & _ & _ & _ & _ & -> & ->). split; [|auto]. destruct r; auto.
  - intros n s2 e2 I2 ev (d & r & -> & -> & J2 & EN & Y & Z) NE S2. destruct r as [|x r]; [cbn in Y; congruence|]. cbn [head_cur] in Y.
    destruct (H d x r ev s2 e2 I2 eq_refl J2 S2 EN Y Z) as (s3 & e3 & I3 & ev3 & E3 & S3 & J3 & EN3 & Y3 & Z3).
    destruct (nnext_ok s3 e3 I3 i v x r S3 Y3 (enum_after _ _ _ _ EN3)) as (s4 & E4 & S4).
    exists s4, e3, (nset I3 i (head_cur v r)), ev3, (length r). rewrite nrun_app, E3. cbn [bind fst snd]. rewrite nrun_one, E4. cbn [bind fst snd]. rewrite app_nil_r.
    split; auto. split; auto. split; [cbn; lia|]. exists (d ++ [x]), r. rewrite <- app_assoc. cbn [app].
    repeat match goal with |- _ /\ _ => split end; auto; [apply nset_eq|rewrite nset_ne; auto].
  - exists [], l. repeat match goal with |- _ /\ _ => split end; auto; [rewrite nset_ne, nset_eq; auto|apply nset_eq].
  - cbn [app] in *. destruct r as [|x r]; [|cbn in Y; congruence]. rewrite app_nil_r in *.
    exists s2, e2, I2, ev2. repeat match goal with |- _ /\ _ => split end; auto.
Qed.

Lemma until_last : forall e v (d : list T) x r, enumerates lt (d ++ x :: r) (e v) -> greatest lt (both (e v) (until lt (head_cur v r))) x.
Proof.
  intros e v d x r E. apply (last_greatest lt x d). destruct r as [|y r]; cbn [head_cur until].
  - eapply enum_same; eauto. intros y. unfold both. cbn [until]. tauto.
  - replace (d ++ x :: y :: r) with ((d ++ [x]) ++ y :: r) in E by (rewrite <- app_assoc; auto). eapply enum_before; eauto.
Qed.

(** Reversed: [i] is at the element after the one that [*r] is. *)
Theorem back_rule : forall (Inv : list T -> list (tevent T) -> zstore T -> Prop) i k v l body, i <> k ->
  (forall d x r ev s e I, l = d ++ x :: r -> Inv r ev e -> stand s e I -> enumerates lt l (e v) -> I i = head_cur v r -> I k = head_cur v l ->
    exists s' e' I' ev', run body s = Ok (s', ev') /\ stand s' e' I' /\ Inv (x :: r) (ev ++ ev') e' /\ enumerates lt l (e' v) /\ I' i = head_cur v r /\ I' k = head_cur v l) ->
  forall fuel s e I, stand s e I -> Inv [] [] e -> enumerates lt l (e v) -> (length l < fuel)%nat ->
  exists s' e' I' ev, set_back lt eqb show fuel i k v body s = Ok (s', ev) /\ stand s' e' I' /\ Inv l ev e' /\ enumerates lt l (e' v) /\ I' i = head_cur v l.
Proof.
  intros Inv i k v l body N H fuel s e I S J E L. unfold set_back. destruct (start_back s e I i k v l S N E) as (s1 & E1 & S1). rewrite E1. cbn [bind fst].
  assert (WH : forall r, whose (head_cur v r) = Some v) by (intros [|? ?]; auto).
  destruct (loop_rule (fun n e I ev => exists d r, l = d ++ r /\ n = length d /\ Inv r ev e /\ enumerates lt l (e v) /\ I i = head_cur v r /\ I k = head_cur v l)
    i k v (body ++ [NPrev i])) with (fuel := fuel) (n := length l) (s := s1) (e := e) (I := nset (nset I i (Past v)) k (head_cur v l)) (ev := @nil (tevent T))
    as (s2 & e2 & I2 & ev2 & m & E2 & S2 & X & (d & r & Q & -> & J2 & EN & Y & Z)); auto.
  - intros n e1 I1 ev (d & r & _ & _ & _ & _ & -> & ->). split; auto.
  - intros n s2 e2 I2 ev (d & r & Q & -> & J2 & EN & Y & Z) NE S2. destruct d as [|x d _] using rev_ind; [cbn in Q; congruence|]. rewrite <- app_assoc in Q. cbn [app] in Q.
    destruct (H d x r ev s2 e2 I2 Q J2 S2 EN Y Z) as (s3 & e3 & I3 & ev3 & E3 & S3 & J3 & EN3 & Y3 & Z3).
    destruct (nprev_ok s3 e3 I3 i v x S3) as (s4 & E4 & S4); [rewrite Y3; auto|rewrite Y3; rewrite Q in EN3; eapply until_last; eauto|].
    exists s4, e3, (nset I3 i (At v x)), ev3, (length d). rewrite nrun_app, E3. cbn [bind fst snd]. rewrite nrun_one, E4. cbn [bind fst snd]. rewrite app_nil_r.
    split; auto. split; auto. split; [rewrite app_length; cbn; lia|]. exists d, (x :: r).
    repeat match goal with |- _ /\ _ => split end; auto; [apply nset_eq|rewrite nset_ne; auto].
  - exists l, []. rewrite app_nil_r. repeat match goal with |- _ /\ _ => split end; auto; [rewrite nset_ne, nset_eq; auto|apply nset_eq].
  - cbn [app] in *. assert (R : r = l).
    { destruct d as [|x d]; auto. exfalso. rewrite Y, Z in X. destruct r as [|y r]; subst l; cbn [head_cur app] in X; [discriminate|]. inversion X; subst.
      destruct EN as (EN & _). apply (inc_nodup lt O) in EN. cbn [app] in EN. inversion EN; subst. apply H2. apply in_or_app. right. left. auto. }
    subst r. exists s2, e2, I2, ev2. repeat match goal with |- _ /\ _ => split end; auto.
Qed.

(** *** Reading *)
Lemma nread_ok : forall s e I i v x, stand s e I -> I i = At v x -> nstp (NRead i) s = Ok (s, [TElem x]).
Proof.
  intros s e I i v x S E. destruct (nread_at lt s e I i v x S E) as (p & P1 & P2 & _). cbn [n_step]. rewrite P1. cbn [bind fst snd]. rewrite P2. auto.
Qed.
Theorem set_for_reads : forall s e I i k v l fuel, stand s e I -> i <> k -> enumerates lt l (e v) -> (length l < fuel)%nat ->
  exists s' I', set_for lt eqb show fuel i k v [NRead i] s = Ok (s', map TElem l) /\ stand s' e I'.
Proof.
  intros s e I i k v l fuel S N E L.
  destruct (for_rule (fun d ev e1 => e1 = e /\ ev = map TElem d) i k v l [NRead i] N) with (fuel := fuel) (s := s) (e := e) (I := I)
    as (s' & e' & I' & ev & R & S' & (-> & ->) & _); auto.
  - intros d x r ev s1 e1 I1 -> (-> & ->) S1 E1 Y Z. exists s1, e, I1, [TElem x]. rewrite nrun_one, (nread_ok _ _ _ _ _ _ S1 Y).
    rewrite map_app. cbn [map]. repeat match goal with |- _ /\ _ => split end; auto.
  - eauto.
Qed.
Theorem set_back_reads : forall s e I i k v l fuel, stand s e I -> i <> k -> enumerates lt l (e v) -> (length l < fuel)%nat ->
  exists s' I', set_back lt eqb show fuel i k v [NBack i] s = Ok (s', map TElem (rev l)) /\ stand s' e I'.
Proof.
  intros s e I i k v l fuel S N E L.
  destruct (back_rule (fun r ev e1 => e1 = e /\ ev = map TElem (rev r)) i k v l [NBack i] N) with (fuel := fuel) (s := s) (e := e) (I := I)
    as (s' & e' & I' & ev & R & S' & (-> & ->) & _); auto.
  - intros d x r ev s1 e1 I1 Q (-> & ->) S1 E1 Y Z.
    destruct (nstep_ok lt eqb show O D (NBack i) s1 e I1 e I1 [TElem x] S1 Logic.I) as (s2 & E2 & S2).
    { apply ns_back with v; [rewrite Y; destruct r; auto|]. rewrite Y. rewrite Q in E1. eapply until_last; eauto. }
    exists s2, e, I1, [TElem x]. rewrite nrun_one, E2.
    cbn [rev]. rewrite map_app. cbn [map]. repeat match goal with |- _ /\ _ => split end; auto.
  - eauto.
Qed.

(** *** Adding to, and removing from, another set *)
Definition alike (e e' : zstore T) (w : nat) : Prop := forall u y, u <> w -> (e' u y <-> e u y).

(** Statements on one set in place. *)
Lemma nafter_in_place : forall c e e' I, (forall v, ~ assigned c e v) -> (forall v w, ~ handed c v w) ->
  (forall i v x, I i = At v x -> {e' v x} + {~ e' v x}) ->
  exists I', nafter c e e' I I' /\ (forall i v x, I i = At v x -> e' v x -> I' i = At v x) /\ (forall i v, I i = Past v -> I' i = Past v) /\
    (forall i v x, I i = At v x -> ~ e' v x -> I' i = Dead).
Proof.
  intros c e e' I NA NH DE.
  exists (fun i => match I i as y return I i = y -> cur T with At v x => fun q => if DE i v x q then At v x else Dead | y => fun _ => y end eq_refl).
  split; [|split; [|split]].
  - intros i. generalize (DE i). destruct (I i) as [|v x|v|]; intros DI; auto.
    + right. right. split; auto. split; [intros w; split; auto|]. destruct (DI v x eq_refl); auto.
  - intros i v x E H. generalize (DE i). rewrite E. intros DI. destruct (DI v x eq_refl); [auto|contradiction].
  - intros i v E. generalize (DE i). rewrite E. auto.
  - intros i v x E H. generalize (DE i). rewrite E. intros DI. destruct (DI v x eq_refl); [contradiction|auto].
Qed.
Lemma ndo_in_place : forall c s e I e' ev, stand s e I -> tint_stmt c -> zspec c e e' ev -> (forall v, ~ assigned c e v) -> (forall v w, ~ handed c v w) ->
  exists s' I', nstp (NDo c) s = Ok (s', ev) /\ stand s' e' I' /\ (forall i v x, I i = At v x -> e' v x -> I' i = At v x) /\ (forall i v, I i = Past v -> I' i = Past v) /\
    (forall i v x, I i = At v x -> ~ e' v x -> I' i = Dead).
Proof.
  intros c s e I e' ev S A Z NA NH. destruct (zcomplete lt eqb show O D _ _ _ _ _ (nt_sets _ _ _ _ S) A Z) as (t & _ & V').
  destruct (nafter_in_place c e e' I NA NH) as (I' & AF & K1 & K2 & K3); [intros i v x _; apply (holds_dec lt O t e' v x V')|].
  destruct (nstep_ok lt eqb show O D (NDo c) s e I e' I' ev S A) as (s' & E & S'); [constructor; auto|]. exists s', I'. auto.
Qed.

Lemma card_less : forall s e I e0 w (l0 d : list T), stand s e I -> enumerates lt l0 (e0 w) -> (forall y, e w y -> e0 w y \/ In y d) ->
  exists n, card (e w) n /\ n <= len l0 + len d.
Proof.
  intros s e I e0 w l0 d S E0 H. pose proof (nt_sets _ _ _ _ S w) as (E & _). exists (len (nview s w)). split; [apply (enum_card lt O); auto|].
  assert (L : (length (nview s w) <= length (l0 ++ d))%nat).
  { apply NoDup_incl_length; [apply (inc_nodup lt O), E|]. intros y Y. apply E in Y. apply H in Y. apply in_or_app. destruct Y; auto. left. apply E0. auto. }
  rewrite app_length in L. unfold len. lia.
Qed.

Theorem set_for_adds : forall s e I i k v w l m fuel, stand s e I -> i <> k -> v <> w -> enumerates lt l (e v) -> enumerates lt m (e w) -> len l + len m <= INT_MAX ->
  (length l < fuel)%nat ->
  exists s' e' I' bs, set_for lt eqb show fuel i k v [NAdd w i] s = Ok (s', map TBool bs) /\ stand s' e' I' /\
    Forall2 (fun x b => tells b (~ e w x)) l bs /\ same (e' w) (either (e w) (e v)) /\ (forall u, u <> w -> same (e' u) (e u)).
Proof.
  intros s e I i k v w l m fuel S N VW E EW LM L.
  destruct (for_rule (fun d ev e1 => same (e1 w) (either (e w) (fun y => In y d)) /\ (forall u, u <> w -> same (e1 u) (e u)) /\
      exists bs, ev = map TBool bs /\ Forall2 (fun x b => tells b (~ e w x)) d bs) i k v l [NAdd w i] N) with (fuel := fuel) (s := s) (e := e) (I := I)
    as (s' & e' & I' & ev & R & S' & (H1 & H2 & bs & -> & H3) & _); auto.
  - intros d x r ev s1 e1 I1 Q (H1 & H2 & bs & -> & H3) S1 E1 Y Z.
    assert (XD : ~ In x d). { destruct E as (E & _). apply (inc_nodup lt O) in E. rewrite Q in E. apply NoDup_remove_2 in E. rewrite in_app_iff in E. tauto. }
    assert (EX : e1 v x) by (apply E1; rewrite Q; apply in_or_app; right; left; auto).
    destruct (card_less s1 e1 I1 e w m d S1 EW) as (n & C & CN); [intros y X; apply H1 in X; exact X|].
    assert (NL : n < INT_MAX). { subst l. rewrite len_app, len_cons in LM. pose proof (Zle_0_nat (length r)). unfold len in *. lia. }
    assert (B : exists b, tells b (~ e w x)). { destruct (holds_dec lt O _ e w x (nt_sets _ _ _ _ S)) as [X|X]; [exists false|exists true]; unfold tells; intuition discriminate. }
    destruct B as (b & B).
    assert (B' : tells b (~ e1 w x)). { unfold tells in *. rewrite B. split; intros X X1; apply X; apply H1 || (apply H1 in X1; destruct X1; [auto|contradiction]). left. auto. }
    destruct (ndo_in_place (TAdd w x) s1 e1 I1 _ _ S1 Logic.I (z_add lt show w x e1 n b C NL B')) as (s2 & I2 & E2 & S2 & K1 & K2 & _); [cbn; tauto|unfold handed; discriminate|].
    eexists s2, _, I2, [TBool b]. split; [|split; [exact S2|]].
    + rewrite nrun_one. destruct (nread_at lt s1 e1 I1 i v x S1 Y) as (p & P1 & P2 & _). cbn [n_step] in *. rewrite P1. cbn [bind fst snd]. rewrite P2. exact E2.
    + assert (ZW : zset e1 w (plus (e1 w) x) v = e1 v) by (unfold zset; destruct (Nat.eqb_spec v w); [contradiction|auto]).
      split; [|split; [rewrite ZW; auto|split; [apply K1; auto; rewrite ZW; auto|apply K2; auto]]].
      split; [|split].
      * unfold zset. rewrite Nat.eqb_refl. intros y. unfold plus, either. rewrite (H1 y), in_app_iff. unfold either. cbn [In]. intuition.
      * intros u U. unfold zset. destruct (Nat.eqb_spec u w); [contradiction|auto].
      * exists (bs ++ [b]). rewrite map_app. split; auto. apply Forall2_app; auto.
  - split; [intros y; unfold either; cbn; tauto|]. split; [intros u _ y; tauto|]. exists []. auto.
  - exists s', e', I', bs. split; auto. split; auto. split; auto. split; auto. intros y. rewrite (H1 y). unfold either. destruct E as (_ & E). rewrite E. tauto.
Qed.

Theorem set_for_removes : forall s e I i k v w l fuel, stand s e I -> i <> k -> v <> w -> enumerates lt l (e v) -> (length l < fuel)%nat ->
  exists s' e' I' bs, set_for lt eqb show fuel i k v [NRemove w i] s = Ok (s', map TBool bs) /\ stand s' e' I' /\
    Forall2 (fun x b => tells b (e w x)) l bs /\ same (e' w) (only (e w) (e v)) /\ (forall u, u <> w -> same (e' u) (e u)).
Proof.
  intros s e I i k v w l fuel S N VW E L.
  destruct (for_rule (fun d ev e1 => same (e1 w) (only (e w) (fun y => In y d)) /\ (forall u, u <> w -> same (e1 u) (e u)) /\
      exists bs, ev = map TBool bs /\ Forall2 (fun x b => tells b (e w x)) d bs) i k v l [NRemove w i] N) with (fuel := fuel) (s := s) (e := e) (I := I)
    as (s' & e' & I' & ev & R & S' & (H1 & H2 & bs & -> & H3) & _); auto.
  - intros d x r ev s1 e1 I1 Q (H1 & H2 & bs & -> & H3) S1 E1 Y Z.
    assert (XD : ~ In x d). { destruct E as (E & _). apply (inc_nodup lt O) in E. rewrite Q in E. apply NoDup_remove_2 in E. rewrite in_app_iff in E. tauto. }
    assert (EX : e1 v x) by (apply E1; rewrite Q; apply in_or_app; right; left; auto).
    assert (B : exists b, tells b (e w x)). { destruct (holds_dec lt O _ e w x (nt_sets _ _ _ _ S)) as [X|X]; [exists true|exists false]; unfold tells; intuition discriminate. }
    destruct B as (b & B).
    assert (B' : tells b (e1 w x)). { unfold tells in *. rewrite B, (H1 x). unfold only. tauto. }
    destruct (ndo_in_place (TRemove w x) s1 e1 I1 _ _ S1 Logic.I (z_remove lt show w x e1 b B')) as (s2 & I2 & E2 & S2 & K1 & K2 & _); [cbn; tauto|unfold handed; discriminate|].
    eexists s2, _, I2, [TBool b]. split; [|split; [exact S2|]].
    + rewrite nrun_one. destruct (nread_at lt s1 e1 I1 i v x S1 Y) as (p & P1 & P2 & _). cbn [n_step] in *. rewrite P1. cbn [bind fst snd]. rewrite P2. exact E2.
    + assert (ZW : zset e1 w (minus (e1 w) x) v = e1 v) by (unfold zset; destruct (Nat.eqb_spec v w); [contradiction|auto]).
      split; [|split; [rewrite ZW; auto|split; [apply K1; auto; rewrite ZW; auto|apply K2; auto]]].
      split; [|split].
      * unfold zset. rewrite Nat.eqb_refl. intros y. unfold minus, only. rewrite (H1 y), in_app_iff. unfold only. cbn [In]. intuition.
      * intros u U. unfold zset. destruct (Nat.eqb_spec u w); [contradiction|auto].
      * exists (bs ++ [b]). rewrite map_app. split; auto. apply Forall2_app; auto.
  - split; [intros y; unfold only; cbn; tauto|]. split; [intros u _ y; tauto|]. exists []. auto.
  - exists s', e', I', bs. split; auto. split; auto. split; auto. split; auto. intros y. rewrite (H1 y). unfold only. destruct E as (_ & E). rewrite E. tauto.
Qed.

(** ** Changing the set of the loop *)

(** [for (auto i = v.begin(); i != e; ) { auto j = i++; if (f( *j)) v.remove( *j); }] *)
Theorem filter_loop : forall s e I i j k v f l fuel, stand s e I -> i <> k -> i <> j -> j <> k -> enumerates lt l (e v) -> (length l < fuel)%nat ->
  exists s' e' I' s1, run [NBegin i v; NEnd k v] s = Ok (s1, []) /\
    loop fuel i k [NCopy j i; NNext i; NRemoveIf v j f] s1 = Ok (s', map (fun _ => TBool true) (filter f l)) /\ stand s' e' I' /\
    same (e' v) (both (e v) (fun y => f y = false)) /\ (forall u, u <> v -> same (e' u) (e u)).
Proof.
  intros s e I i j k v f l fuel S NK NJ NJK E L. destruct (start_for s e I i k v l S NK E) as (s1 & E1 & S1).
  pose (J := fun (n : nat) (e1 : zstore T) (I1 : nat -> cur T) (ev : list (tevent T)) => exists d r, l = d ++ r /\ n = length r /\
    same (e1 v) (fun y => In y r \/ (In y d /\ f y = false)) /\ (forall u, u <> v -> same (e1 u) (e u)) /\
    I1 i = head_cur v r /\ I1 k = Past v /\ ev = map (fun _ => TBool true) (filter f d)).
  destruct (loop_rule J i k v [NCopy j i; NNext i; NRemoveIf v j f]) with (fuel := fuel) (n := length l) (s := s1) (e := e)
    (I := nset (nset I i (head_cur v l)) k (Past v)) (ev := @nil (tevent T)) as (s2 & e2 & I2 & ev2 & m & E2 & S2 & X & (d & r & Q & -> & H1 & H2 & Y & Z & EV)); auto.
  - intros n e1 I1 ev (d & r & _ & _ & _ & _ & -> & -> & _). split; [destruct r|]; auto.
  - intros n s2 e2 I2 ev (d & r & Q & -> & H1 & H2 & Y & Z & EV) NE S2. destruct r as [|x r]; [cbn in Y; congruence|]. cbn [head_cur] in Y.
    assert (IL : increasing lt (d ++ x :: r)) by (rewrite <- Q; apply E).
    assert (DX : forall y, In y d -> lt y x = true). { intros y A. apply (inc_app lt) in IL. apply IL; auto. left. auto. }
    assert (XR : forall y, In y r -> lt x y = true). { intros y A. apply (inc_app lt) in IL. destruct IL as (_ & IL & _). apply inc_cons in IL; auto. apply IL. auto. }
    assert (IR : increasing lt r). { apply (inc_app lt) in IL. destruct IL as (_ & IL & _). apply inc_cons in IL; auto. apply IL. }
    assert (EX : e2 v x) by (apply H1; left; left; auto).
    destruct (nstep_ok lt eqb show O D (NCopy j i) s2 e2 I2 e2 (nset I2 j (At v x)) [] S2 Logic.I) as (s3 & E3 & S3).
    { apply ns_copy; rewrite Y; [exact Logic.I|apply put_nset]. }
    destruct (nnext_ok s3 e2 (nset I2 j (At v x)) i v x r S3) as (s4 & E4 & S4).
    { rewrite nset_ne; auto. }
    { split; auto. intros y. unfold both. rewrite (H1 y). cbn [In]. split; [auto|]. intros ([[A|A]|(A & _)] & B); auto.
      - subst. rewrite (lt_irr lt O) in B. discriminate.
      - rewrite (lt_asym lt O _ _ (DX y A)) in B. discriminate. }
    set (I4 := nset (nset I2 j (At v x)) i (head_cur v r)) in *.
    assert (I4i : I4 i = head_cur v r) by apply nset_eq. assert (I4j : I4 j = At v x) by (unfold I4; rewrite nset_ne by auto; apply nset_eq).
    assert (I4k : I4 k = Past v) by (unfold I4; rewrite !nset_ne by auto; auto).
    cbn [n_run]. rewrite E3. cbn [bind fst snd]. rewrite E4. cbn [bind fst snd].
    destruct (nread_at lt s4 e2 I4 j v x S4 I4j) as (p & P1 & P2 & _).
    destruct (f x) eqn:F.
    + assert (B : tells true (e2 v x)) by (unfold tells; tauto).
      destruct (ndo_in_place (TRemove v x) s4 e2 I4 _ _ S4 Logic.I (z_remove lt show v x e2 true B)) as (s5 & I5 & E5 & S5 & K1 & K2 & _); [cbn; tauto|unfold handed; discriminate|].
      eexists s5, _, I5, [TBool true], (length r). split; [|split; [exact S5|split; [cbn; lia|]]].
      * cbn [n_step] in *. rewrite P1. cbn [bind fst snd]. rewrite P2. cbn [bind]. rewrite F, E5. cbn [bind fst snd]. auto.
      * exists (d ++ [x]), r. rewrite <- app_assoc. cbn [app]. split; auto. split; auto.
        assert (SV : zset e2 v (minus (e2 v) x) v = minus (e2 v) x) by (unfold zset; rewrite Nat.eqb_refl; auto).
        assert (NX : forall y, In y r -> y <> x) by (intros y A ->; apply XR in A; rewrite (lt_irr lt O) in A; discriminate).
        assert (NX2 : forall y, In y d -> y <> x) by (intros y A ->; apply DX in A; rewrite (lt_irr lt O) in A; discriminate).
        split; [|split; [|split; [|split]]].
        -- rewrite SV. intros y. unfold minus. rewrite (H1 y), in_app_iff. cbn [In]. split.
           ++ intros (A & [[B1|B1]|(B1 & B2)]); [congruence|auto|auto].
           ++ intros [A|([A|[A|[]]] & A2)]; [split; auto|split; auto|congruence].
        -- intros u U. unfold zset. destruct (Nat.eqb_spec u v); [contradiction|auto].
        -- destruct r as [|y r]; cbn [head_cur] in *; [apply K2; auto|]. apply K1; auto. rewrite SV. split; [apply NX; left; auto|]. apply H1. left. right. left. auto.
        -- apply K2. auto.
        -- rewrite filter_app, map_app, EV. cbn [filter]. rewrite F. auto.
    + exists s4, e2, I4, [], (length r). split; [|split; [exact S4|split; [cbn; lia|]]].
      * cbn [n_step] in *. rewrite P1. cbn [bind fst snd]. rewrite P2. cbn [bind]. rewrite F. auto.
      * exists (d ++ [x]), r. rewrite <- app_assoc. cbn [app]. split; auto. split; auto.
        split; [|split; [|split; [|split]]]; auto.
        -- intros y. rewrite (H1 y), in_app_iff. cbn [In]. split.
           ++ intros [[A|A]|(A & B)]; auto. subst. auto.
           ++ intros [A|([A|[A|[]]] & B)]; auto.
        -- rewrite app_nil_r, filter_app, map_app, EV. cbn [filter]. rewrite F, app_nil_r. auto.
  - exists [], l. split; auto. split; auto. split; [intros y; cbn [In]; destruct E as (_ & E); rewrite E; tauto|]. split; [intros u _ y; tauto|].
    split; [rewrite nset_ne, nset_eq; auto|]. split; [apply nset_eq|auto].
  - destruct r as [|x r]; [|cbn in Y; congruence]. rewrite app_nil_r in Q. subst d. cbn [app] in EV. subst ev2. exists s2, e2, I2, s1.
    split; auto. split; auto. split; auto. split; auto. intros y. rewrite (H1 y). cbn [In]. unfold both. destruct E as (_ & E). rewrite E. tauto.
Qed.

(** [for (x : v) v.remove(x);] *)
Theorem drain_for : forall s e I i k v x fuel, stand s e I -> i <> k -> e v x ->
  set_for lt eqb show (Datatypes.S fuel) i k v [NRemove v i] s = UB BadDeref.
Proof.
  intros s e I i k v z fuel S N EZ. destruct (nt_sets _ _ _ _ S v) as (E & _). set (l := nview s v) in *. unfold set_for.
  destruct (start_for s e I i k v l S N E) as (s1 & E1 & S1). rewrite E1. cbn [bind fst]. destruct l as [|x r] eqn:Q; [destruct E as (_ & E); apply E in EZ; destruct EZ|].
  cbn [head_cur] in S1. set (I1 := nset (nset I i (At v x)) k (Past v)) in *. assert (Ii : I1 i = At v x) by (unfold I1; rewrite nset_ne, nset_eq; auto).
  assert (Ik : I1 k = Past v) by apply nset_eq. cbn [n_loop].
  destruct (nread_at lt s1 e I1 i v x S1 Ii) as (p & P1 & P2 & P3). destruct (nread_past lt s1 e I1 k v S1 Ik) as (q & Q1 & Q2). rewrite P1, Q1. cbn [bind fst snd].
  rewrite Nat.eqb_refl. cbn [negb]. destruct (Nat.eqb_spec p q) as [->|NE]; [congruence|].
  assert (EX : e v x) by (apply E; left; auto). assert (B : tells true (e v x)) by (unfold tells; tauto).
  destruct (ndo_in_place (TRemove v x) s1 e I1 _ _ S1 Logic.I (z_remove lt show v x e true B)) as (s2 & I2 & E2 & S2 & _ & _ & K3); [cbn; tauto|unfold handed; discriminate|].
  cbn [app n_run]. cbn [n_step] in *. rewrite P1. cbn [bind fst snd]. rewrite P2. cbn [bind]. rewrite E2. cbn [bind fst snd].
  rewrite (nat_bad lt s2 _ I2 i S2); auto. rewrite (K3 i v x Ii); auto. unfold zset. rewrite Nat.eqb_refl. intros (A & _). auto.
Qed.

(** *** Adding ahead of the iterator *)
Definition ahead (x : T) (C : list T) : list T := filter (fun y => negb (lt y x)) C.
Lemma ahead_less : forall C x y, lt x y = true -> In x C -> (length (ahead y C) < length (ahead x C))%nat.
Proof.
  intros C x y L. assert (W : forall z, lt z y = false -> lt z x = false).
  { intros z H. destruct (lt z x) eqn:E; auto. rewrite (lt_tr lt O z x y) in H; auto. }
  assert (G : forall C', (length (ahead y C') <= length (ahead x C'))%nat).
  { induction C' as [|z C' IH]; cbn [ahead filter] in *; auto. unfold ahead in *. destruct (lt z y) eqn:E; cbn [negb].
    - destruct (negb (lt z x)); cbn [length]; lia.
    - rewrite (W z E). cbn [negb length]. lia. }
  induction C as [|z C IH]; intros X; [destruct X|]. unfold ahead in *. cbn [filter]. destruct X as [->|X].
  - rewrite L, (lt_irr lt O). cbn [negb length]. specialize (G C). lia.
  - specialize (IH X). destruct (lt z y) eqn:E; cbn [negb].
    + destruct (negb (lt z x)); cbn [length]; lia.
    + rewrite (W z E). cbn [negb length]. lia.
Qed.
Definition ahead_cur (x : cur T) (C : list T) : nat := match x with At _ y => length (ahead y C) | _ => 0%nat end.

Theorem closure_loop : forall s e I i k v f C, stand s e I -> i <> k -> (forall x, e v x -> In x C) -> (forall x, In x C -> In (f x) C) ->
  (forall x, In x C -> lt x (f x) = true \/ f x = x) -> len C < INT_MAX ->
  exists s' e' I' ev, set_for lt eqb show (Datatypes.S (length C)) i k v [NAddF v i f] s = Ok (s', ev) /\ stand s' e' I' /\
    (forall y, e' v y <-> exists n x, e v x /\ y = times f n x) /\ (forall u, u <> v -> same (e' u) (e u)).
Proof.
  intros s e I i k v f C S N EC CC GR LC. pose proof (proj1 (nt_sets _ _ _ _ S v)) as E. set (l := nview s v) in *. unfold set_for.
  destruct (start_for s e I i k v l S N E) as (s1 & E1 & S1). rewrite E1. cbn [bind fst].
  pose (J := fun (n : nat) (e1 : zstore T) (I1 : nat -> cur T) (ev : list (tevent T)) => n = ahead_cur (I1 i) C /\ I1 k = Past v /\
    (whose (I1 i) = Some v /\ forall x, I1 i = At v x -> e1 v x) /\ (forall x, e v x -> e1 v x) /\ (forall y, e1 v y -> In y C /\ exists n x, e v x /\ y = times f n x) /\
    (forall y, e1 v y -> until lt (I1 i) y -> e1 v (f y)) /\ (forall u, u <> v -> same (e1 u) (e u))).
  destruct (loop_rule J i k v ([NAddF v i f] ++ [NNext i])) with (fuel := Datatypes.S (length C)) (n := ahead_cur (head_cur v l) C) (s := s1) (e := e)
    (I := nset (nset I i (head_cur v l)) k (Past v)) (ev := @nil (tevent T)) as (s2 & e2 & I2 & ev2 & m & E2 & S2 & X & (_ & H1 & H2 & H3 & H4 & H5 & H6)); auto.
  - intros n e1 I1 ev (_ & H1 & (H2 & _) & _). rewrite H1. auto.
  - intros n s2 e2 I2 ev (-> & H1 & (H2 & H2') & H3 & H4 & H5 & H6) NE S2. destruct (I2 i) as [|w x|w|] eqn:Ei; cbn in H2; inversion H2; subst w; [|congruence].
    specialize (H2' x eq_refl). destruct (H4 x H2') as (XC & nx & x0 & X0 & XT). cbn [ahead_cur].
    assert (CN : exists n, card (e2 v) n /\ n < INT_MAX).
    { destruct (card_less s2 e2 I2 (fun _ _ => False) v [] C S2) as (n & A & B).
      - split; [constructor|]. intros y. cbn. tauto.
      - intros y Y. right. apply H4. auto.
      - exists n. rewrite len_nil in B. split; [auto|lia]. }
    destruct CN as (n & CN & NL).
    assert (B : exists b, tells b (~ e2 v (f x))). { destruct (holds_dec lt O _ e2 v (f x) (nt_sets _ _ _ _ S2)) as [Y|Y]; [exists false|exists true]; unfold tells; intuition discriminate. }
    destruct B as (b & B).
    destruct (ndo_in_place (TAdd v (f x)) s2 e2 I2 _ _ S2 Logic.I (z_add lt show v (f x) e2 n b CN NL B)) as (s3 & I3 & E3 & S3 & K1 & K2 & _); [cbn; tauto|unfold handed; discriminate|].
    set (e3 := zset e2 v (plus (e2 v) (f x))) in *. assert (V3 : forall y, e3 v y <-> y = f x \/ e2 v y) by (intros y; unfold e3, zset; rewrite Nat.eqb_refl; unfold plus; tauto).
    assert (Y3 : I3 i = At v x) by (apply K1; auto; apply V3; auto). assert (Z3 : I3 k = Past v) by (apply K2; auto).
    destruct (nread_at lt s3 e3 I3 i v x S3 Y3) as (p & P1 & P2 & P3). pose proof (skip_next lt show O s3 e3 v (nt_sets _ _ _ _ S3) p x P3) as SK.
    set (r := skipn (Datatypes.S p) (nview s3 v)) in *.
    destruct (nnext_ok s3 e3 I3 i v x r S3 Y3 SK) as (s4 & E4 & S4). set (I4 := nset I3 i (head_cur v r)) in *.
    assert (I4i : I4 i = head_cur v r) by apply nset_eq. assert (I4k : I4 k = Past v) by (unfold I4; rewrite nset_ne; auto).
    exists s4, e3, I4, [TBool b], (ahead_cur (head_cur v r) C). split; [|split; [exact S4|split]].
    + destruct (nread_at lt s2 e2 I2 i v x S2 Ei) as (q & Q1 & Q2 & _). rewrite nrun_app, nrun_one. cbn [n_step] in E3 |- *. rewrite Q1. cbn [bind fst snd]. rewrite Q2. cbn [bind].
      rewrite E3. cbn [bind fst snd]. rewrite nrun_one, E4. cbn [bind fst snd]. auto.
    + destruct r as [|y r]; cbn [head_cur ahead_cur].
      * assert (In x (ahead x C)) by (apply filter_In; split; auto; rewrite (lt_irr lt O); auto). destruct (ahead x C); [contradiction|cbn; lia].
      * apply ahead_less; auto. apply SK. left. auto.
    + unfold J. rewrite I4i, I4k. split; auto. split; auto. split; [|split; [|split; [|split]]].
      * destruct r as [|y r]; cbn [head_cur]; split; auto; intros z Z; [discriminate|]. inversion Z; subst. apply SK. left. auto.
      * intros y Y. apply V3. auto.
      * intros y Y. apply V3 in Y. destruct Y as [->|Y]; auto. split; auto. exists (Datatypes.S nx), x0. cbn. rewrite <- XT. auto.
      * intros y Y U. assert (LY : lt x y = false).
        { destruct (lt x y) eqn:LE; auto. exfalso. destruct r as [|z r]; cbn [head_cur until] in U.
          - destruct SK as (_ & SK). apply (SK y). split; auto.
          - apply (head_least lt) in SK; auto. destruct SK as (_ & SK). destruct (SK y (conj Y LE)) as [->|W]; [rewrite (lt_irr lt O) in U|rewrite (lt_asym lt O _ _ W) in U]; discriminate. }
        apply V3. destruct (lt_tot lt O x y) as [W|[W|W]]; [congruence|subst; auto|]. right. apply V3 in Y. destruct Y as [Y|Y].
        { subst y. destruct (GR x XC) as [G|G]; [congruence|]. rewrite G in W. rewrite (lt_irr lt O) in W. discriminate. }
        apply H5; auto.
      * intros u U. unfold e3, zset. destruct (Nat.eqb_spec u v); [contradiction|auto].
  - destruct (head_cur v l); cbn [ahead_cur]; try lia. unfold ahead. clear. induction C as [|y C IH]; cbn [filter length]; [lia|]. destruct (negb (lt y k0)); cbn [length]; lia.
  - unfold J. rewrite nset_ne, !nset_eq by auto. split; auto. split; auto. split; [|split; [|split; [|split]]]; auto.
    + destruct l as [|x l0]; cbn [head_cur]; split; auto; intros y Y; [discriminate|]. inversion Y; subst. apply E. left. auto.
    + intros y Y. split; auto. exists 0%nat, y. auto.
    + intros y Y U. exfalso. destruct l as [|x l0]; cbn [head_cur until] in U; [destruct E as (_ & E); apply (E y); auto|].
      apply (head_least lt) in E; auto. destruct E as (_ & E). destruct (E y Y) as [->|W]; [rewrite (lt_irr lt O) in U|rewrite (lt_asym lt O _ _ W) in U]; discriminate.
    + intros u _ y. tauto.
  - rewrite H1 in X. exists s2, e2, I2, ev2. split; [exact E2|]. split; auto. split; auto. rewrite X in *. intros y. split; [intros Y; apply H4; auto|].
    intros (n & x & Y & ->). induction n as [|n IH]; cbn [times]; auto. apply H5; auto. exact Logic.I.
Qed.

(** ** Ranges *)
Lemma between_all : forall e v l I i j, enumerates lt l (e v) -> I i = head_cur v l -> I j = Past v -> between lt e v (I i) (I j) l.
Proof.
  intros e v l I i j E A B. rewrite A, B. split; [destruct l; auto|]. split; auto. split; [destruct l; exact Logic.I|]. eapply enum_same; eauto.
  intros y. cbn [until]. destruct l as [|x l]; cbn [head_cur from].
  - destruct E as (_ & E). rewrite <- E. cbn. tauto.
  - apply (head_least lt) in E; auto. destruct E as (_ & E). split; [|tauto]. intros Y. split; auto.
Qed.
Lemma ndo_any : forall c s e I e' ev, stand s e I -> tint_stmt c -> zspec c e e' ev -> exists s' I', nstp (NDo c) s = Ok (s', ev) /\ stand s' e' I' /\ ns (NDo c) e I e' I' ev.
Proof.
  intros c s e I e' ev S A Z. destruct (zcomplete lt eqb show O D _ _ _ _ _ (nt_sets _ _ _ _ S) A Z) as (t & _ & V').
  destruct (nafter_total lt show O c e e' I _ _ (nt_sets _ _ _ _ S) V') as (I' & AF). destruct (nstep_ok lt eqb show O D (NDo c) s e I e' I' ev S A) as (s' & E & S'); [constructor; auto|].
  exists s', I'. split; auto. split; auto. constructor; auto.
Qed.

Lemma range_len : forall s e I v u a b l, stand s e I -> between lt e v a b l -> (u = v -> len l <= len (nview s u)) /\ len l <= INT_MAX.
Proof.
  intros s e I v u a b l S (_ & _ & _ & B1 & B2). pose proof (nt_sets _ _ _ _ S v) as (E & L).
  assert (X : len l <= len (nview s v)).
  { assert (Y : (length l <= length (nview s v))%nat); [|unfold len; lia]. apply NoDup_incl_length; [apply (inc_nodup lt O); auto|]. intros y Y. apply E. apply B2. auto. }
  split; [intros ->; auto|]. unfold len in *. lia.
Qed.

(** [w = Set(i, j)] and [w = Set(std::make_reverse_iterator(j), std::make_reverse_iterator(i))] *)
Theorem range_made : forall s e I i j u w l (back : bool), stand s e I -> between lt e u (I i) (I j) l ->
  exists s' I', nstp (if back then NRevRange w j i else NRange w i j) s = Ok (s', []) /\ stand s' (zset e w (fun y => In y l)) I'.
Proof.
  intros s e I i j u w l back S B. destruct (range_len s e I u u _ _ l S B) as (_ & L).
  destruct (ndo_any (TInit w l) s e I _ [] S L (z_init lt show w l e)) as (_ & I' & _ & _ & N).
  destruct back.
  - destruct (nstep_ok lt eqb show O D (NRevRange w j i) s e I (zset e w (fun y => In y l)) I' [] S Logic.I) as (s' & E & S'); [eapply ns_rev_range; eauto|]. eauto.
  - destruct (nstep_ok lt eqb show O D (NRange w i j) s e I (zset e w (fun y => In y l)) I' [] S Logic.I) as (s' & E & S'); [eapply ns_range; eauto|]. eauto.
Qed.
(** [w = Set(v.begin(), v.end())] and [w = Set(v.rbegin(), v.rend())] *)
Theorem range_all : forall s e I i j v w (back : bool), stand s e I -> i <> j ->
  exists s' e' I', run [NBegin i v; NEnd j v; if back then NRevRange w j i else NRange w i j] s = Ok (s', []) /\ stand s' e' I' /\
    same (e' w) (e v) /\ (forall u, u <> w -> same (e' u) (e u)).
Proof.
  intros s e I i j v w back S N. pose proof (proj1 (nt_sets _ _ _ _ S v)) as E. set (l := nview s v) in *. destruct (start_for s e I i j v l S N E) as (s1 & E1 & S1).
  destruct (range_made s1 e _ i j v w l back S1) as (s2 & I2 & E2 & S2).
  { apply between_all; auto; [rewrite nset_ne, nset_eq; auto|apply nset_eq]. }
  exists s2, (zset e w (fun y => In y l)), I2. split; [|split; auto; split].
  - change (run ([NBegin i v; NEnd j v] ++ [if back then NRevRange w j i else NRange w i j]) s = Ok (s2, [])). rewrite nrun_app, E1. cbn [bind fst snd]. rewrite nrun_one, E2. auto.
  - intros y. unfold zset. rewrite Nat.eqb_refl. apply E.
  - intros u U y. unfold zset. destruct (Nat.eqb_spec u w); [contradiction|tauto].
Qed.
(** [w = Set(v.find(x), v.end())] *)
Theorem range_from : forall s e I i j v w x, stand s e I -> i <> j -> e v x ->
  exists s' e' I', run [NFind i v x; NEnd j v; NRange w i j] s = Ok (s', []) /\ stand s' e' I' /\
    same (e' w) (both (e v) (fun y => y = x \/ lt x y = true)) /\ (forall u, u <> w -> same (e' u) (e u)).
Proof.
  intros s e I i j v w x S N X. set (I1 := nset I i (At v x)). destruct (nstep_ok lt eqb show O D (NFind i v x) s e I e I1 [] S Logic.I) as (s1 & E1 & S1); [apply ns_find; auto; apply put_nset|].
  set (I2 := nset I1 j (Past v)). destruct (nstep_ok lt eqb show O D (NEnd j v) s1 e I1 e I2 [] S1 Logic.I) as (s2 & E2 & S2); [apply ns_end; apply put_nset|].
  assert (I2i : I2 i = At v x) by (unfold I2, I1; rewrite nset_ne, nset_eq; auto). assert (I2j : I2 j = Past v) by apply nset_eq.
  destruct (nread_at lt s2 e I2 i v x S2 I2i) as (p & P1 & P2 & P3). pose proof (skip_next lt show O s2 e v (nt_sets _ _ _ _ S2) p x P3) as SK.
  set (r := skipn (Datatypes.S p) (nview s2 v)) in *. assert (B : enumerates lt (x :: r) (both (e v) (fun y => y = x \/ lt x y = true))).
  { destruct SK as (K1 & K2). split.
    - constructor; auto. apply Forall_forall. intros y Y. apply K2. auto.
    - intros y. cbn [In]. rewrite (K2 y). unfold both. intuition congruence. }
  destruct (range_made s2 e I2 i j v w (x :: r) false S2) as (s3 & I3 & E3 & S3).
  { rewrite I2i, I2j. split; auto. split; auto. split; [exact Logic.I|]. eapply enum_same; eauto. intros y. unfold both. cbn [from until]. tauto. }
  exists s3, (zset e w (fun y => In y (x :: r))), I3. split; [|split; auto; split].
  - cbn [n_run]. rewrite E1. cbn [bind fst snd]. rewrite E2. cbn [bind fst snd]. rewrite E3. auto.
  - intros y. unfold zset. rewrite Nat.eqb_refl. apply B.
  - intros u U y. unfold zset. destruct (Nat.eqb_spec u w); [contradiction|tauto].
Qed.
(** [w.extend(i, j)] *)
Theorem range_extends : forall s e I i j u w l n, stand s e I -> between lt e u (I i) (I j) l -> u <> w -> card (e w) n -> n + Z.of_nat (length l) <= INT_MAX ->
  exists s' I', nstp (NExtend w i j) s = Ok (s', []) /\ stand s' (zset e w (either (e w) (fun y => In y l))) I' /\ (forall m v x, I m = At v x -> I' m = At v x) /\ (forall m v, I m = Past v -> I' m = Past v).
Proof.
  intros s e I i j u w l n S B N C L. assert (A := z_extend lt show w l e n C L).
  destruct (zcomplete lt eqb show O D _ _ _ _ _ (nt_sets _ _ _ _ S) (Logic.I : tint_stmt (TExtend w l)) A) as (t & _ & V').
  destruct (nafter_in_place (TExtend w l) e (zset e w (either (e w) (fun y => In y l))) I) as (I2 & AF & G1 & G2 & G3);
    [cbn; tauto|unfold handed; discriminate|intros m v x _; apply (holds_dec lt O t _ v x V')|].
  destruct (nstep_ok lt eqb show O D (NExtend w i j) s e I (zset e w (either (e w) (fun y => In y l))) I2 [] S Logic.I) as (s' & E & S'); [eapply ns_extend; eauto; constructor; auto|].
  exists s', I2. split; auto. split; auto. split; auto. intros m v x Em. apply G1; auto. pose proof (nt_cur _ _ _ _ S m) as Cm. rewrite Em in Cm. destruct Cm as (a & _ & Cm).
  assert (e v x) by (apply (in_view lt s e v x (nt_sets _ _ _ _ S)); eauto). unfold zset. destruct (Nat.eqb_spec v w); [subst; left|]; auto.
Qed.

(** ** Which iterators survive *)
Theorem read_after : forall c s e I i v x e' ev, stand s e I -> tint_stmt c -> zspec c e e' ev -> I i = At v x -> (forall a b, c <> TMove a b) ->
  (~ assigned c e v /\ e' v x -> exists s', run [NDo c; NRead i] s = Ok (s', ev ++ [TElem x])) /\
  (assigned c e v \/ ~ e' v x -> run [NDo c; NRead i] s = UB BadDeref).
Proof.
  intros c s e I i v x e' ev S A Z Ei NM. destruct (ndo_any c s e I e' ev S A Z) as (s' & I' & E & S' & N). inversion N as [c' ? ? ? ? ? _ AF| | | | | | | | | | | | | | | | | | | ]; subst.
  specialize (AF i). rewrite Ei in AF. cbn [n_run]. rewrite E. cbn [bind fst snd]. split.
  - intros (H1 & H2). destruct AF as [([X|(w & X)] & _)|[(u & X & _)|(_ & _ & [(_ & X)|(X & _)])]]; try contradiction; try (exfalso; eapply NM; exact X).
    rewrite (nread_ok s' e' I' i v x S' X). cbn [bind fst snd]. rewrite app_nil_r. eauto.
  - intros H. assert (X : I' i = Dead).
    { destruct AF as [(_ & X)|[(u & X & _)|(X & _ & [(Y & _)|(_ & Y)])]]; auto; [exfalso; eapply NM; exact X|]. tauto. }
    cbn [n_step]. rewrite (nat_bad lt s' e' I' i S'); [auto|]. rewrite X. auto.
Qed.
Theorem moved_read : forall s e I i u w x, stand s e I -> u <> w -> I i = At w x -> exists s', run [NDo (TMove u w); NRead i] s = Ok (s', [TElem x]) /\ exists I', stand s' (zset (zset e u (e w)) w (@empty T)) I' /\ I' i = At u x.
Proof.
  intros s e I i u w x S N Ei. destruct (ndo_any (TMove u w) s e I _ [] S Logic.I (z_move lt show u w e N)) as (s' & I' & E & S' & Q). inversion Q as [c' ? ? ? ? ? _ AF| | | | | | | | | | | | | | | | | | | ]; subst.
  specialize (AF i). rewrite Ei in AF. assert (X : I' i = At u x).
  { destruct AF as [([[]|(z & X)] & _)|[(z & X & Y)|(_ & X & _)]]; [|inversion X; subst; auto|exfalso; apply (proj2 (X u)); reflexivity].
    inversion X; subst. contradiction. }
  exists s'. cbn [n_run]. rewrite E. cbn [bind fst snd]. rewrite (nread_ok s' _ I' i u x S' X). cbn [bind fst snd]. split; auto. exists I'. auto.
Qed.
End Loop.

(** *** Adding behind the iterator *)
Lemma nstands0 : forall {T} (lt : T -> T -> bool), strict_total lt -> nstands lt nstate0 (fun _ _ => False) (fun _ => Unset).
Proof.
  intros T lt O. constructor.
  - intros v. split; [split; [constructor|]|].
    + intros x. cbn. tauto.
    + cbn. unfold INT_MAX. lia.
  - intros v x a [].
  - intros v. constructor.
  - intros i. reflexivity.
Qed.
Theorem behind_missed : forall show, exists s e I s' ev, nstands Z.ltb s e I /\ (forall x, e 0%nat x <-> x = 3) /\
  (forall fuel, (2 <= fuel)%nat -> set_for Z.ltb Z.eqb show fuel 0 1 0 [NAddF 0 0 (fun x => Z.max 0 (x - 1))] s = Ok (s', ev)) /\ nview s' 0%nat = [2; 3].
Proof.
  intros show. assert (O : strict_total Z.ltb).
  { repeat split; intros; rewrite ?Z.ltb_lt in *; try lia. }
  destruct (ndo_any Z.ltb Z.eqb show O Z.eqb_eq (TInit 0%nat [3]) nstate0 (fun _ _ => False) (fun _ => Unset) _ [] (nstands0 _ O) ltac:(cbn; unfold INT_MAX; lia)
    (z_init Z.ltb show 0%nat [3] _)) as (s & I & E & S & _).
  vm_compute in E. injection E as E. exists s, (zset (fun _ _ => False) 0%nat (fun x => In x [3])), I. subst s.
  eexists. exists [TBool true]. split; [exact S|]. split; [intros x; cbn; intuition congruence|]. split.
  - intros [|[|fuel]] L; try lia. reflexivity.
  - reflexivity.
Qed.
