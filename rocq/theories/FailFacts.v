(** Rules for calls whose events may fail. *)
From Coq Require Import ZArith List Bool Lia.
From Verif Require Import Outcome FailModel IntMemSpec.
Import ListNotations.
Local Open Scope nat_scope.

(** [xwp ok m s Q H E]: whatever event comes next, the call [m] on [s] ends in one of three ways. It returns, no event having
    failed, with [Q]; it stops at the first event that fails, leaving an object with [H]; it stops for another reason, no event
    having failed, with [E]. *)
Definition xwp {St A} (ok : nat -> bool) (m : xm St A) (s : St) (Q : A -> St -> Prop) (H : St -> Prop) (E : xfault -> St -> Prop) : Prop :=
  forall k, match m s k with
            | (XRet a, s', k') => k <= k' /\ plenty ok k k' /\ Q a s'
            | (XErr (XFail n), s', k') => k <= n /\ k' = S n /\ ok n = false /\ plenty ok k n /\ H s'
            | (XErr f, s', k') => k <= k' /\ plenty ok k k' /\ E f s'
            end.

Lemma plenty_nil : forall ok k, plenty ok k k.
Proof. intros ok k j H. lia. Qed.
Lemma plenty_app : forall ok a b c, plenty ok a b -> plenty ok b c -> plenty ok a c.
Proof. intros ok a b c H1 H2 j H. destruct (Nat.lt_ge_cases j b); [apply H1|apply H2]; lia. Qed.

Section Rules.
Context {St : Type} (ok : nat -> bool).

Lemma xwp_mono : forall A (m : xm St A) s (Q Q' : A -> St -> Prop) (H H' : St -> Prop) (E E' : xfault -> St -> Prop), xwp ok m s Q H E ->
  (forall a s', Q a s' -> Q' a s') -> (forall s', H s' -> H' s') -> (forall f s', E f s' -> E' f s') -> xwp ok m s Q' H' E'.
Proof.
  intros A m s Q Q' H H' E E' W HQ HH HE k. specialize (W k).
  destruct (m s k) as [[[a|[n|e|u|]] s'] k']; intuition.
Qed.

Lemma xwp_ret : forall A (a : A) s (Q : A -> St -> Prop) H E, Q a s -> xwp ok (xret a) s Q H E.
Proof. intros A a s Q H E HQ k. cbn. split; [lia|split; [apply plenty_nil|assumption]]. Qed.

Lemma xwp_bind : forall A B (m : xm St A) (f : A -> xm St B) s Q H E,
  xwp ok m s (fun a s' => xwp ok (f a) s' Q H E) H E -> xwp ok (xbind m f) s Q H E.
Proof.
  intros A B m f s Q H E W k. specialize (W k). unfold xbind.
  destruct (m s k) as [[[a|[n|e|u|]] s'] k']; try exact W.
  destruct W as (L & P & W). specialize (W k').
  destruct (f a s' k') as [[[b|[n|e|u|]] s2] k2]; intuition (try lia; eauto using plenty_app).
Qed.

Lemma xwp_get : forall s (Q : St -> St -> Prop) H E, Q s s -> xwp ok xget s Q H E.
Proof. intros s Q H E HQ k. cbn. split; [lia|split; [apply plenty_nil|assumption]]. Qed.
Lemma xwp_put : forall s x (Q : unit -> St -> Prop) H E, Q tt x -> xwp ok (xput x) s Q H E.
Proof. intros s x Q H E HQ k. cbn. split; [lia|split; [apply plenty_nil|assumption]]. Qed.

Lemma xwp_event : forall s (Q : unit -> St -> Prop) (H : St -> Prop) E, Q tt s -> H s -> xwp ok (xevent ok) s Q H E.
Proof.
  intros s Q H E HQ HH k. unfold xevent. destruct (ok k) eqn:O.
  - split; [lia|split; [|assumption]]. intros j Hj. replace j with k by lia. assumption.
  - repeat split; try assumption; try lia. apply plenty_nil.
Qed.
Lemma xwp_events : forall n s (Q : unit -> St -> Prop) (H : St -> Prop) E, Q tt s -> H s -> xwp ok (xevents ok n) s Q H E.
Proof.
  induction n as [|n IH]; intros s Q H E HQ HH; cbn [xevents]; [apply xwp_ret; assumption|].
  apply xwp_bind, xwp_event; [apply IH; assumption|assumption].
Qed.

Lemma xwp_lift : forall A (o : outcome A) s (Q : A -> St -> Prop) (H : St -> Prop) E,
  match o with Ok a => Q a s | Throw e => E (XThrow e) s | UB u => E (XUB u) s | OutOfFuel => E XFuel s end ->
  xwp ok (xlift o) s Q H E.
Proof. intros A o s Q H E HQ k. unfold xlift. destruct o; (split; [lia|split; [apply plenty_nil|assumption]]). Qed.

Lemma xwp_local : forall St' A (x : St') (m : xm St' A) s Q (H : St -> Prop) (E : xfault -> St -> Prop),
  xwp ok m x (fun a x' => Q (a, x') s) (fun _ => H s) (fun f _ => E f s) -> xwp ok (xlocal x m) s Q H E.
Proof.
  intros St' A x m s Q H E W k. specialize (W k). unfold xlocal.
  destruct (m x k) as [[[a|[n|e|u|]] s'] k']; exact W.
Qed.

Lemma xwp_relocate : forall nothrow n s (Q : unit -> St -> Prop) (H : St -> Prop) E, Q tt s -> H s ->
  xwp ok (relocate ok nothrow n) s Q H E.
Proof. intros [|] n s Q H E HQ HH; [apply xwp_ret|apply xwp_events]; assumption. Qed.

Lemma xwp_vnew : forall T (l : list T) s (Q : rvec T -> St -> Prop) (H : St -> Prop) E, (forall r, Q (Rvec l r) s) -> H s ->
  xwp ok (vnew ok l) s Q H E.
Proof.
  intros T l s Q H E HQ HH. unfold vnew. destruct l as [|x l]; [apply xwp_ret, HQ|].
  apply xwp_bind, xwp_event; [|assumption]. apply xwp_bind, xwp_events; [|assumption]. apply xwp_ret, HQ.
Qed.
End Rules.

Section VecRules.
Context {T : Type}.
Variables (ok : nat -> bool) (grow : nat -> nat -> nat) (nothrow : bool) (moved : T -> T).

Lemma xwp_insert1 : forall k x v (Q : unit -> rvec T -> Prop) (H : rvec T -> Prop) E,
  (forall r, Q tt (Rvec (firstn k (relems v) ++ x :: skipn k (relems v)) r)) -> H v ->
  xwp ok (vinsert1 ok grow nothrow k x) v Q H E.
Proof.
  intros k x v Q H E HQ HH. unfold vinsert1. apply xwp_bind, xwp_get. destruct (Nat.ltb _ _).
  - apply xwp_bind, xwp_event; [apply xwp_put, HQ|assumption].
  - apply xwp_bind, xwp_event; [|assumption]. apply xwp_bind, xwp_event; [|assumption].
    apply xwp_bind, xwp_relocate; [apply xwp_put, HQ|assumption].
Qed.

Lemma xwp_push : forall x v (Q : unit -> rvec T -> Prop) (H : rvec T -> Prop) E,
  (forall r, Q tt (Rvec (relems v ++ [x]) r)) -> H v -> xwp ok (vpush ok grow nothrow x) v Q H E.
Proof.
  intros x v Q H E HQ HH. unfold vpush. apply xwp_bind, xwp_get, xwp_insert1; [|assumption].
  intros r. rewrite firstn_all, skipn_all. apply HQ.
Qed.

Lemma xwp_append : forall l v (Q : unit -> rvec T -> Prop) (H : rvec T -> Prop) E,
  (forall r, Q tt (Rvec (relems v ++ l) r)) -> H v -> (nothrow = true -> l <> [] -> forall r, H (Rvec (map moved (relems v)) r)) ->
  xwp ok (vappend ok grow nothrow moved l) v Q H E.
Proof.
  intros l v Q H E HQ HH HM. unfold vappend. destruct l as [|x l].
  { apply xwp_ret. specialize (HQ (rroom v)). rewrite app_nil_r in HQ. destruct v. exact HQ. }
  remember (x :: l) as w eqn:Ew. assert (NE : w <> []) by (subst; discriminate). clear Ew.
  apply xwp_bind, xwp_get. destruct (Nat.leb _ _).
  - apply xwp_bind, xwp_events; [apply xwp_put, HQ|assumption].
  - apply xwp_bind, xwp_event; [|assumption]. apply xwp_bind, xwp_relocate; [|assumption].
    apply xwp_bind. destruct nothrow.
    + apply xwp_put. apply xwp_bind, xwp_events; [apply xwp_put, HQ|]. apply HM; [reflexivity|assumption].
    + apply xwp_ret. apply xwp_bind, xwp_events; [apply xwp_put, HQ|assumption].
Qed.

Lemma xwp_assign_loop : forall n done todo v (Q : unit -> rvec T -> Prop) (H : rvec T -> Prop) E old,
  relems v = done ++ skipn (length done) old -> length done + n <= length old -> n <= length todo ->
  (forall r, Q tt (Rvec (done ++ firstn n todo ++ skipn (length done + n) old) r)) ->
  (forall j r, j < n -> H (Rvec (done ++ firstn j todo ++ skipn (length done + j) old) r)) ->
  xwp ok (vassign_loop ok n done todo) v Q H E.
Proof.
  induction n as [|n IH]; intros done todo v Q H E old Ev Ln Lt HQ HH; cbn [vassign_loop].
  - apply xwp_ret. specialize (HQ (rroom v)). cbn [firstn app] in HQ. rewrite Nat.add_0_r in HQ. rewrite <- Ev in HQ.
    destruct v; exact HQ.
  - destruct todo as [|x todo]; cbn [length] in Lt; [lia|].
    apply xwp_bind, xwp_event.
    2:{ specialize (HH 0%nat (rroom v) ltac:(lia)). cbn [firstn app] in HH. rewrite Nat.add_0_r in HH. rewrite <- Ev in HH. destruct v; exact HH. }
    apply xwp_bind, xwp_get. apply xwp_bind, xwp_put.
    assert (LD : length (done ++ [x]) = S (length done)) by (rewrite app_length; cbn; lia).
    assert (ES : skipn (S (length done)) (relems v) = skipn (length (done ++ [x])) old).
    { rewrite Ev, skipn_app, LD, (skipn_all2 done) by lia. cbn [app].
      replace (S (length done) - length done)%nat with 1%nat by lia.
      generalize (length done). clear. induction old as [|y old IHo]; intros [|m]; try reflexivity. apply (IHo m). }
    apply (IH _ _ _ _ _ _ old).
    + cbn [relems]. rewrite ES. rewrite <- app_assoc. reflexivity.
    + lia.
    + lia.
    + intros r. specialize (HQ r). cbn [firstn] in HQ. rewrite <- app_assoc. cbn [app]. rewrite LD.
      replace (S (length done) + n)%nat with (length done + S n)%nat by lia. exact HQ.
    + intros j r Hj. specialize (HH (S j) r ltac:(lia)). cbn [firstn] in HH. rewrite <- app_assoc. cbn [app]. rewrite LD.
      replace (S (length done) + j)%nat with (length done + S j)%nat by lia. exact HH.
Qed.

Lemma xwp_assign : forall l v (Q : unit -> rvec T -> Prop) (H : rvec T -> Prop) E,
  (forall r, Q tt (Rvec l r)) -> H v ->
  (forall j r, j < length l -> j <= length (relems v) -> H (Rvec (firstn j l ++ skipn j (relems v)) r)) ->
  xwp ok (vassign ok l) v Q H E.
Proof.
  intros l v Q H E HQ HH HM. unfold vassign. apply xwp_bind, xwp_get. destruct (Nat.ltb _ _).
  - apply xwp_bind, xwp_event; [|assumption]. apply xwp_bind, xwp_events; [apply xwp_put, HQ|assumption].
  - apply xwp_bind. apply (xwp_assign_loop _ _ _ _ _ _ _ (relems v)); cbn [app length plus]; try reflexivity; try lia.
    + intros r. apply xwp_bind. destruct (Nat.le_gt_cases (length l) (length (relems v))) as [L|L].
      * replace (length l - length (relems v)) with 0 by lia. apply xwp_ret, xwp_put, HQ.
      * apply xwp_events; [apply xwp_put, HQ|]. apply HM; lia.
    + intros j r Hj. apply HM; lia.
Qed.

Lemma xwp_calm : forall A (f : M (list T) A) v (Q : A -> rvec T -> Prop) (H : rvec T -> Prop) E,
  match f (relems v) with
  | (Ok a, l) => Q a (Rvec l (rroom v))
  | (Throw e, l) => E (XThrow e) (Rvec l (rroom v))
  | (UB u, l) => E (XUB u) (Rvec l (rroom v))
  | (OutOfFuel, l) => E XFuel (Rvec l (rroom v))
  end -> xwp ok (vcalm f) v Q H E.
Proof.
  intros A f v Q H E HQ k. unfold vcalm. destruct (f (relems v)) as [[a|e|u|] l]; (split; [lia|split; [apply plenty_nil|exact HQ]]).
Qed.
End VecRules.
