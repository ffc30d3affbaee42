(** Counting the events of calls that return: rules common to the containers. *)
From Coq Require Import ZArith List Bool Lia.
From Verif Require Import Outcome FailModel FailRunModel FailRunSpec IntMemSpec.
Import ListNotations.
Local Open Scope nat_scope.

(** If the call [m] on [s], with event [k] next, returns, then with [Q], given the next event. *)
Definition kwp {St A} (m : xm St A) (s : St) (k : nat) (Q : nat -> A -> St -> Prop) : Prop :=
  match m s k with
  | (XRet a, s', k') => Q k' a s'
  | (XErr _, _, _) => True
  end.

Section Rules.
Context {St : Type} (ok : nat -> bool).

Lemma kwp_mono : forall A (m : xm St A) s k (Q Q' : nat -> A -> St -> Prop), kwp m s k Q -> (forall n a s', Q n a s' -> Q' n a s') -> kwp m s k Q'.
Proof. intros A m s k Q Q' W H. unfold kwp in *. destruct (m s k) as [[[a|f] s'] k']; auto. Qed.
Lemma kwp_ret : forall A (a : A) s k (Q : nat -> A -> St -> Prop), Q k a s -> kwp (xret a) s k Q.
Proof. intros A a s k Q H. exact H. Qed.
Lemma kwp_bind : forall A B (m : xm St A) (f : A -> xm St B) s k Q,
  kwp m s k (fun k' a s' => kwp (f a) s' k' Q) -> kwp (xbind m f) s k Q.
Proof. intros A B m f s k Q W. unfold kwp, xbind in *. destruct (m s k) as [[[a|e] s'] k']; exact W. Qed.
Lemma kwp_get : forall s k (Q : nat -> St -> St -> Prop), Q k s s -> kwp xget s k Q.
Proof. intros s k Q H. exact H. Qed.
Lemma kwp_put : forall s x k (Q : nat -> unit -> St -> Prop), Q k tt x -> kwp (xput x) s k Q.
Proof. intros s x k Q H. exact H. Qed.
Lemma kwp_event : forall s k (Q : nat -> unit -> St -> Prop), Q (S k) tt s -> kwp (xevent ok) s k Q.
Proof. intros s k Q H. unfold kwp, xevent. destruct (ok k); [exact H|exact Logic.I]. Qed.
Lemma kwp_events : forall n s k (Q : nat -> unit -> St -> Prop), Q (k + n) tt s -> kwp (xevents ok n) s k Q.
Proof.
  induction n as [|n IH]; intros s k Q H; cbn [xevents].
  - apply kwp_ret. rewrite Nat.add_0_r in H. exact H.
  - apply kwp_bind, kwp_event, IH. replace (S k + n) with (k + S n) by lia. exact H.
Qed.
Lemma kwp_lift : forall A (o : outcome A) s k (Q : nat -> A -> St -> Prop), (forall a, o = Ok a -> Q k a s) -> kwp (xlift o) s k Q.
Proof. intros A o s k Q H. unfold kwp, xlift. destruct o; try exact Logic.I. auto. Qed.
Lemma kwp_local : forall St' A (x : St') (m : xm St' A) s k (Q : nat -> A * St' -> St -> Prop), kwp m x k (fun n a x' => Q n (a, x') s) -> kwp (xlocal x m) s k Q.
Proof. intros St' A x m s k Q W. unfold kwp, xlocal in *. destruct (m x k) as [[[a|e] s'] k']; exact W. Qed.
Lemma kwp_calm : forall A (f : M St A) s k (Q : nat -> A -> St -> Prop), (forall a s', f s = (Ok a, s') -> Q k a s') -> kwp (xcalm f) s k Q.
Proof. intros A f s k Q H. unfold kwp, xcalm. destruct (f s) as [[a|e|u|] s']; try exact Logic.I. auto. Qed.
End Rules.

Section Statements.
Context {St Ev : Type} (throws : exn -> Ev).

Lemma stopped_calm : forall (s : nat -> St) k f s' k' ev, stopped throws s k f = Ok (s', k', ev) -> calm throws ev -> False.
Proof.
  intros s k f s' k' ev E N. destruct f; cbn [stopped] in E; try discriminate; injection E as <- <- <-.
  - exact (N _ (or_introl eq_refl)).
  - exact (N _ (or_introl eq_refl) e eq_refl).
Qed.
Lemma call_counts : forall A (m : xm St A) s v k out s' k' ev Q, kwp m (s v) k (fun n _ x' => Q n x') ->
  on_object throws s v k m out = Ok (s', k', ev) -> calm throws ev -> Q k' (s' v).
Proof.
  intros A m s v k out s' k' ev Q W E N. unfold on_object in E. unfold kwp in W. destruct (m (s v) k) as [[[a|f] x] k2].
  - injection E as <- <- <-. unfold place. rewrite Nat.eqb_refl. exact W.
  - destruct (stopped_calm _ _ _ _ _ _ E N).
Qed.
Lemma new_counts : forall (m : xm unit St) s u k s' k' ev Q, kwp m tt k (fun n x' _ => Q n x') ->
  new_object throws s u k m = Ok (s', k', ev) -> calm throws ev -> Q k' (s' u).
Proof.
  intros m s u k s' k' ev Q W E N. unfold new_object in E. unfold kwp in W. destruct (m tt k) as [[[a|f] x] k2].
  - injection E as <- <- <-. unfold place. rewrite Nat.eqb_refl. exact W.
  - destruct (stopped_calm _ _ _ _ _ _ E N).
Qed.
Lemma look_counts : forall A (m : xm unit A) (s : nat -> St) k out s' k' ev Q, kwp m tt k (fun n a _ => Q n a) ->
  looking throws s k m out = Ok (s', k', ev) -> calm throws ev -> exists a, Q k' a /\ ev = map Saw (out a).
Proof.
  intros A m s k out s' k' ev Q W E N. unfold looking in E. unfold kwp in W. destruct (m tt k) as [[[a|f] x] k2].
  - injection E as <- <- <-. eauto.
  - destruct (stopped_calm _ _ _ _ _ _ E N).
Qed.
End Statements.

(** ** Runs of events *)
Section Exact.
Context {St : Type} (ok : nat -> bool).
Lemma run_events_ok : forall n (s : St) k, plenty ok k (k + n) -> xevents ok n s k = (XRet tt, s, k + n).
Proof.
  induction n as [|n IH]; intros s k P; cbn [xevents].
  - unfold xret. rewrite Nat.add_0_r. reflexivity.
  - unfold xbind, xevent. rewrite (P k) by lia. rewrite IH; [f_equal; lia|]. intros j H. apply P. lia.
Qed.
Lemma run_events_fail : forall n j (s : St) k, j < n -> plenty ok k (k + j) -> ok (k + j) = false ->
  xevents ok n s k = (XErr (XFail (k + j)), s, S (k + j)).
Proof.
  induction n as [|n IH]; intros j s k L P F; [lia|]. cbn [xevents]. unfold xbind, xevent. destruct j as [|j].
  - rewrite Nat.add_0_r in *. rewrite F. reflexivity.
  - rewrite (P k) by lia. replace (k + S j) with (S k + j) in * by lia. apply IH; [lia| |exact F]. intros i H. apply P. lia.
Qed.
End Exact.
