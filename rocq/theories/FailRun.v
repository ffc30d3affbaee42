(** Programs with failing statements: proofs common to the containers. *)
From Coq Require Import ZArith List Bool Lia.
From Verif Require Import Outcome FailModel FailFacts FailRunModel FailRunSpec IntMemSpec.
Import ListNotations.
Local Open Scope nat_scope.

Section Calls.
Context {St Ev : Type} (ok : nat -> bool) (throws : exn -> Ev).

(** A stop that is not a failing event is that of the model without events. *)
Definition matches {A} (x : xfault) (r : outcome A * St) (s' : St) : Prop :=
  match x with
  | XFail _ => False
  | XThrow e => r = (Throw e, s')
  | XUB u => fst r = UB u
  | XFuel => fst r = OutOfFuel
  end.
(** [m] does what [f] does or leaves [H]. *)
Definition xmirrors {A} (m : xm St A) (f : M St A) (H : St -> St -> Prop) : Prop :=
  forall s, xwp ok m s (fun a s' => f s = (Ok a, s')) (H s) (fun x s' => matches x (f s) s').
Definition halts {A} (x : xfault) (o : outcome A) : Prop :=
  match x with
  | XFail _ => False
  | XThrow e => o = Throw e
  | XUB u => o = UB u
  | XFuel => o = OutOfFuel
  end.
Definition xmakes {S' A} (m : xm S' A) (o : outcome A) : Prop :=
  forall s, xwp ok m s (fun a s' => s' = s /\ o = Ok a) (fun s' => s' = s) (fun x s' => s' = s /\ halts x o).

(** The statements of the models without events. *)
Definition plain_call {A} (s : nat -> St) (v : nat) (m : M St A) (out : A -> list Ev) : outcome ((nat -> St) * list Ev) :=
  match m (s v) with
  | (Ok a, v') => Ok (place s v v', out a)
  | (Throw e, v') => Ok (place s v v', [throws e])
  | (UB u, _) => UB u
  | (OutOfFuel, _) => OutOfFuel
  end.
Definition plain_new (s : nat -> St) (u : nat) (o : outcome St) : outcome ((nat -> St) * list Ev) :=
  match o with
  | Ok r => Ok (place s u r, [])
  | Throw e => Ok (s, [throws e])
  | UB u => UB u
  | OutOfFuel => OutOfFuel
  end.
Definition plain_look {A} (s : nat -> St) (o : outcome A) (out : A -> list Ev) : outcome ((nat -> St) * list Ev) :=
  match o with
  | Ok r => Ok (s, out r)
  | Throw e => Ok (s, [throws e])
  | UB u => UB u
  | OutOfFuel => OutOfFuel
  end.

Lemma alike_refl : forall s : nat -> St, alike s s.
Proof. intros s v. reflexivity. Qed.
Lemma place_self : forall (s : nat -> St) v, alike s (place s v (s v)).
Proof. intros s v u. unfold place. destruct (Nat.eqb u v) eqn:E; [|reflexivity]. apply Nat.eqb_eq in E. subst. reflexivity. Qed.
Lemma place_alike : forall (s s' : nat -> St) v x, alike (place s v x) s' -> s' v = x.
Proof. intros s s' v x A. rewrite (A v). unfold place. rewrite Nat.eqb_refl. reflexivity. Qed.

Lemma call_ends : forall A (m : xm St A) f H s v k out (L : (nat -> St) -> Prop), xmirrors m f H ->
  (forall x s', H (s v) x -> alike (place s v x) s' -> L s') ->
  ends ok (plain_call s v f out) L k (on_object throws s v k m out).
Proof.
  intros A m f H s v k out L W HL. specialize (W (s v) k). unfold on_object, plain_call.
  destruct (m (s v) k) as [[[a|[n|e|u|]] x] k']; cbn [stopped ends].
  - destruct W as (K & P & E). left. rewrite E. split; [exact K|]. split; [exact P|]. eauto using alike_refl.
  - destruct W as (K & -> & F & P & E). right. exists n. repeat split; auto. eapply HL; [exact E|apply alike_refl].
  - destruct W as (K & P & E). cbn [matches] in E. left. rewrite E. split; [exact K|]. split; [exact P|]. exists (place s v x), [throws e]. auto using alike_refl.
  - destruct W as (K & P & E). cbn [matches] in E. destruct (f (s v)) as [o y]. cbn [fst] in E. subst. reflexivity.
  - destruct W as (K & P & E). cbn [matches] in E. destruct (f (s v)) as [o y]. cbn [fst] in E. subst. reflexivity.
Qed.

Lemma new_ends : forall (m : xm unit St) o s u k (L : (nat -> St) -> Prop), xmakes m o -> L s ->
  ends ok (plain_new s u o) L k (new_object throws s u k m).
Proof.
  intros m o s u k L W HL. specialize (W tt k). unfold new_object, plain_new.
  destruct (m tt k) as [[[a|[n|e|u'|]] x] k']; cbn [stopped ends].
  - destruct W as (K & P & _ & ->). left. split; [exact K|]. split; [exact P|]. eauto using alike_refl.
  - destruct W as (K & -> & F & P & E). right. exists n. repeat split; auto.
  - destruct W as (K & P & _ & E). cbn [halts] in E. left. rewrite E. split; [exact K|]. split; [exact P|]. exists s, [throws e]. auto using alike_refl.
  - destruct W as (K & P & _ & E). cbn [halts] in E. rewrite E. reflexivity.
  - destruct W as (K & P & _ & E). cbn [halts] in E. rewrite E. reflexivity.
Qed.

Lemma look_ends : forall A (m : xm unit A) o s k out (L : (nat -> St) -> Prop), xmakes m o -> L s ->
  ends ok (plain_look s o out) L k (looking throws s k m out).
Proof.
  intros A m o s k out L W HL. specialize (W tt k). unfold looking, plain_look.
  destruct (m tt k) as [[[a|[n|e|u|]] x] k']; cbn [stopped ends].
  - destruct W as (K & P & _ & ->). left. split; [exact K|]. split; [exact P|]. eauto using alike_refl.
  - destruct W as (K & -> & F & P & E). right. exists n. repeat split; auto.
  - destruct W as (K & P & _ & E). cbn [halts] in E. left. rewrite E. split; [exact K|]. split; [exact P|]. exists s, [throws e]. auto using alike_refl.
  - destruct W as (K & P & _ & E). cbn [halts] in E. rewrite E. reflexivity.
  - destruct W as (K & P & _ & E). cbn [halts] in E. rewrite E. reflexivity.
Qed.

Lemma calm_mirrors : forall A (f : M St A), xmirrors (xcalm f) f (fun s s' => s' = s).
Proof.
  intros A f s k. unfold xcalm. destruct (f s) as [[a|e|u|] s'] eqn:E; cbn [matches fst]; repeat split; auto using plenty_nil.
Qed.
Lemma lift_makes : forall S' A (o : outcome A), xmakes (S' := S') (xlift o) o.
Proof. intros S' A o s. apply xwp_lift. destruct o; cbn [halts]; auto. Qed.
Lemma ret_ends : forall s s' k (ev : list Ev) (L : (nat -> St) -> Prop), alike s s' -> ends ok (Ok (s, ev)) L k (Ok (s', k, map Saw ev)).
Proof. intros s s' k ev L A. left. split; [lia|]. split; [apply plenty_nil|]. eauto. Qed.

Lemma ends_weaken : forall base (L L' : (nat -> St) -> Prop) k r, ends ok base L k r -> (forall s, L s -> L' s) -> ends (Ev := Ev) ok base L' k r.
Proof.
  intros base L L' k [[[s' k'] ev]|e|u|] E H; cbn [ends] in *; auto.
  destruct E as [E|(n & E)]; [left; exact E|]. right. exists n. intuition.
Qed.
End Calls.

Section Programs.
Context {St Ev Stmt E : Type} (ok : nat -> bool).
Variable step : Stmt -> (nat -> St) -> nat -> outcome ((nat -> St) * nat * list (seen Ev)).
Variable base : Stmt -> (nat -> St) -> outcome ((nat -> St) * list Ev).
Variable left : Stmt -> (nat -> St) -> (nat -> St) -> Prop.
Variable spec : Stmt -> E -> E -> list Ev -> Prop.
Variable aleft : Stmt -> E -> E -> Prop.
Variable R : (nat -> St) -> E -> Prop.
Variable fits : Stmt -> Prop.
Variable undef : Stmt -> E -> Prop.
Hypothesis STEP : forall c s k, ends ok (base c s) (left c s) k (step c s k).
Hypothesis DONE : forall c s e s1 s1' ev, R s e -> fits c -> base c s = Ok (s1, ev) -> alike s1 s1' -> exists e1, spec c e e1 ev /\ R s1' e1.
Hypothesis LEFT : forall c s e s1, R s e -> fits c -> left c s s1 -> exists e1, aleft c e e1 /\ R s1 e1.
Hypothesis UNDEF : forall c s e u, R s e -> fits c -> base c s = UB u -> undef c e.
Hypothesis TOTAL : forall c s e, R s e -> fits c -> match base c s with Ok _ | UB _ => True | _ => False end.

Lemma one_step : forall c s k s' k' ev e, R s e -> fits c -> step c s k = Ok (s', k', ev) ->
  exists e1, R s' e1 /\ ((exists ev0, spec c e e1 ev0 /\ ev = map Saw ev0) \/ (exists n, aleft c e e1 /\ ev = [Failed n])).
Proof.
  intros c s k s' k' ev e HR F X. pose proof (STEP c s k) as H. rewrite X in H. cbn [ends] in H.
  destruct H as [(_ & _ & s0 & ev0 & B & A & ->)|(n & -> & _ & _ & _ & _ & L)].
  - destruct (DONE _ _ _ _ _ _ HR F B A) as (e1 & S1 & R1). exists e1. split; [exact R1|]. left. eauto.
  - destruct (LEFT _ _ _ _ HR F L) as (e1 & S1 & R1). exists e1. split; [exact R1|]. right. eauto.
Qed.

Theorem steps_ok : forall prog s k s' k' ev e, R s e -> Forall fits prog -> steps step prog s k = Ok (s', k', ev) ->
  exists e', survives spec aleft prog e e' ev /\ R s' e'.
Proof.
  induction prog as [|c prog IH]; intros s k s' k' ev e HR F X; cbn [steps] in X.
  - injection X as <- <- <-. exists e. split; [constructor|assumption].
  - inversion F as [|? ? F1 F2]; subst.
    destruct (step c s k) as [[[s1 k1] ev1]| | |] eqn:E1; cbn [bind] in X; try discriminate.
    destruct (steps step prog s1 k1) as [[[s2 k2] ev2]| | |] eqn:E2; cbn [bind] in X; try discriminate.
    injection X as <- <- <-. destruct (one_step _ _ _ _ _ _ _ HR F1 E1) as (e1 & R1 & H).
    destruct (IH _ _ _ _ _ _ R1 F2 E2) as (e2 & S2 & R2). exists e2. split; [|exact R2].
    destruct H as [(ev0 & S1 & ->)|(n & S1 & ->)]; [eapply sv_done|eapply sv_failed]; eassumption.
Qed.

Theorem steps_undef : forall prog s k u e, R s e -> Forall fits prog -> steps step prog s k = UB u ->
  exists pre c post e' ev, prog = pre ++ c :: post /\ survives spec aleft pre e e' ev /\ undef c e'.
Proof.
  induction prog as [|c prog IH]; intros s k u e HR F X; cbn [steps] in X; [discriminate|].
  inversion F as [|? ? F1 F2]; subst.
  destruct (step c s k) as [[[s1 k1] ev1]|x|x|] eqn:E1; cbn [bind] in X; try discriminate.
  - destruct (steps step prog s1 k1) as [[[s2 k2] ev2]|x|x|] eqn:E2; cbn [bind] in X; try discriminate.
    injection X as <-. destruct (one_step _ _ _ _ _ _ _ HR F1 E1) as (e1 & R1 & H).
    destruct (IH _ _ _ _ R1 F2 E2) as (pre & c' & post & e' & ev & -> & S2 & U).
    destruct H as [(ev0 & S1 & ->)|(n & S1 & ->)]; exists (c :: pre), c', post, e'; eexists;
      (split; [reflexivity|split; [|exact U]]); [eapply sv_done|eapply (sv_failed _ _ _ _ _ _ _ n)]; eassumption.
  - exists [], c, prog, e, []. split; [reflexivity|]. split; [constructor|]. pose proof (STEP c s k) as H. rewrite E1 in H. cbn [ends] in H. eauto.
Qed.

Theorem steps_go_on : forall prog s k e, R s e -> Forall fits prog ->
  match steps step prog s k with Ok _ | UB _ => True | Throw _ | OutOfFuel => False end.
Proof.
  induction prog as [|c prog IH]; intros s k e HR F; cbn [steps]; [exact Logic.I|].
  inversion F as [|? ? F1 F2]; subst. pose proof (STEP c s k) as H. pose proof (TOTAL c s e HR F1) as T.
  destruct (step c s k) as [[[s1 k1] ev1]|x|x|] eqn:E1; cbn [bind ends] in *; try contradiction; try exact Logic.I.
  - destruct (one_step _ _ _ _ _ _ _ HR F1 E1) as (e1 & R1 & _). specialize (IH s1 k1 e1 R1 F2).
    destruct (steps step prog s1 k1) as [[[s2 k2] ev2]|x|x|]; cbn [bind]; try contradiction; exact Logic.I.
  - rewrite H in T. contradiction.
Qed.

(** No event failing, a statement does what it does without events. *)
Theorem step_well : forall c s k, (forall n, ok n = true) ->
  match step c s k with
  | Ok (s', _, ev) => exists s0 ev0, base c s = Ok (s0, ev0) /\ alike s0 s' /\ ev = map Saw ev0
  | Throw _ => False
  | UB u => base c s = UB u
  | OutOfFuel => base c s = OutOfFuel
  end.
Proof.
  intros c s k A. pose proof (STEP c s k) as H. destruct (step c s k) as [[[s' k'] ev]|e|u|]; cbn [ends] in H; try exact H.
  destruct H as [(_ & _ & H)|(n & _ & _ & _ & O & _)]; [exact H|]. rewrite A in O. discriminate.
Qed.
End Programs.
