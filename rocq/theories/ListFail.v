(** Lists whose element copies and allocations may throw: proofs. *)
From Coq Require Import ZArith List Bool Ascii Lia.
From Verif Require Import Outcome ListModel ListProgModel FailModel FailFacts ListFailModel ListSpec ListProgSpec ListFailSpec IntMemSpec ListProg.
Import ListNotations.
Open Scope Z_scope.

Section Members.
Context {T : Type}.
Variables (ok : nat -> bool) (grow : nat -> nat -> nat) (nothrow : bool) (moved : T -> T).
Variables (eqb lt : T -> T -> bool) (show : T -> list ascii) (d : T).
Notation vm := (xm (rvec T)).

(** A stop that is not a failing event is that of the model without events. *)
Definition answers {A} (x : xfault) (r : outcome A * list T) (l : list T) : Prop :=
  match x with
  | XFail _ => False
  | XThrow e => r = (Throw e, l)
  | XUB u => fst r = UB u
  | XFuel => fst r = OutOfFuel
  end.
Definition follows {A} (m : vm A) (f : M (list T) A) (H : list T -> list T -> Prop) : Prop :=
  forall v, xwp ok m v (fun a v' => f (relems v) = (Ok a, relems v')) (fun v' => H (relems v) (relems v'))
                (fun x v' => answers x (f (relems v)) (relems v')).
Definition stops {A} (x : xfault) (o : outcome A) : Prop :=
  match x with
  | XFail _ => False
  | XThrow e => o = Throw e
  | XUB u => o = UB u
  | XFuel => o = OutOfFuel
  end.
Definition produces {St} (m : xm St (rvec T)) (o : outcome (list T)) : Prop :=
  forall s, xwp ok m s (fun v s' => s' = s /\ o = Ok (relems v)) (fun s' => s' = s) (fun x s' => s' = s /\ stops x o).

Definition kept_same (l l' : list T) : Prop := l' = l.

Ltac lifts :=
  repeat match goal with
  | |- xwp _ (xbind xget _) _ _ _ _ => apply xwp_bind, xwp_get
  | |- xwp _ (xbind (xlift ?o) _) _ _ _ _ => apply xwp_bind, xwp_lift; destruct o eqn:?; cbn [bind answers stops fst]; try reflexivity; try (split; reflexivity)
  end.

Lemma calm_follows : forall A (f : M (list T) A), follows (vcalm f) f kept_same.
Proof.
  intros A f v. apply xwp_calm. destruct (f (relems v)) as [[a|e|u|] l]; reflexivity.
Qed.

Lemma assign_follows : forall w, follows (fl_assign ok w) (fun _ => (Ok tt, w))
  (fun l l' => l' = l \/ exists j, (j < length w)%nat /\ (j <= length l)%nat /\ l' = firstn j w ++ skipn j l).
Proof.
  intros w v. apply xwp_assign; [reflexivity|left; reflexivity|]. intros j r L1 L2. right. exists j. auto.
Qed.

Lemma vat_put : forall (l : list T) k x y, vat l k = Ok y -> exists l', vput l k x = Ok l'.
Proof.
  intros l k x y. unfold vat, vput. destruct (k <? 0) eqn:E; [discriminate|].
  destruct (nth_error l (Z.to_nat k)) eqn:N; [|discriminate]. intros _. cbn [orb].
  assert (Z.to_nat k < length l)%nat by (apply nth_error_Some; congruence).
  destruct (len l <=? k) eqn:E2; [unfold len in E2; lia|]. eauto.
Qed.
Lemma vat_bad : forall (l : list T) k x u, vat l k = UB u -> vput l k x = UB u.
Proof.
  intros l k x y. unfold vat, vput. destruct (k <? 0) eqn:E; [intros H; inversion H; reflexivity|].
  destruct (nth_error l (Z.to_nat k)) eqn:N; [discriminate|]. intros H. inversion H. cbn [orb].
  apply nth_error_None in N. destruct (len l <=? k) eqn:E2; [reflexivity|]. unfold len in E2. lia.
Qed.

Lemma set_follows : forall i x, follows (fl_set ok i x) (list_set i x) kept_same.
Proof.
  intros i x v. unfold fl_set, list_set. lifts.
  all: try (match goal with H : vat _ _ = _ |- _ => unfold vat in H; destruct (_ <? _); [discriminate|]; destruct (nth_error _ _); discriminate end).
  - destruct (vat_put _ _ x _ Heqo2) as [l' E]. apply xwp_bind, xwp_event; [|reflexivity]. apply xwp_calm. unfold update. rewrite E. reflexivity.
  - rewrite (vat_bad _ _ x _ Heqo2). reflexivity.
Qed.

Lemma insert_follows : forall i x, follows (fl_insert ok grow nothrow i x) (list_insert i x) kept_same.
Proof.
  intros i x v. unfold fl_insert, list_insert, update. lifts. unfold vinsert.
  destruct (_ || _); [apply xwp_lift; reflexivity|]. apply xwp_insert1; reflexivity.
Qed.

Definition insert_elem (i k : Z) : M (list T) unit := fun l =>
  match list_at l k with
  | Ok x => list_insert i x l
  | Throw e => (Throw e, l)
  | UB u => (UB u, l)
  | OutOfFuel => (OutOfFuel, l)
  end.
Lemma insert_elem_follows : forall i k, follows (fl_insert_elem ok grow nothrow i k) (insert_elem i k) kept_same.
Proof.
  intros i k v. unfold fl_insert_elem, insert_elem. lifts. apply insert_follows.
Qed.

Lemma append_follows : forall x, follows (fl_append ok grow nothrow x) (list_append x) kept_same.
Proof.
  intros x v. unfold fl_append, list_append, update. lifts. apply xwp_push; reflexivity.
Qed.

Definition moved_out (w : list T) (l l' : list T) : Prop := l' = l \/ nothrow = true /\ w <> [] /\ l' = map moved l.
Lemma append_list_follows : forall w self, follows (fl_append_list ok grow nothrow moved w self) (list_append_list w self) (moved_out w).
Proof.
  intros w self v. unfold fl_append_list, list_append_list, update. lifts. destruct self; [apply xwp_lift; reflexivity|].
  apply xwp_append; [reflexivity|left; reflexivity|]. intros N W r. right. auto.
Qed.
Lemma extend_follows : forall w, follows (fl_extend ok grow nothrow moved w) (list_extend w) (moved_out w).
Proof.
  intros w v. apply xwp_append; [reflexivity|left; reflexivity|]. intros N W r. right. auto.
Qed.

Lemma uniq_loop_follows : forall l v, xwp ok (fl_uniq_loop ok grow nothrow eqb l) v (fun _ v' => relems v' = uniq_loop eqb l (relems v)) (fun _ => True) (fun _ _ => False).
Proof.
  induction l as [|x l IH]; intros v; cbn [fl_uniq_loop uniq_loop]; [apply xwp_ret; reflexivity|].
  apply xwp_bind, xwp_get. apply xwp_bind. destruct (Nat.eqb _ _).
  - apply xwp_push; [|trivial]. intros r. apply IH.
  - apply xwp_ret. apply IH.
Qed.
Lemma uniquify_follows : follows (fl_uniquify ok grow nothrow eqb) (list_uniquify eqb) kept_same.
Proof.
  intros v. unfold fl_uniquify. apply xwp_bind, xwp_get. apply xwp_bind, xwp_local.
  eapply xwp_mono; [apply uniq_loop_follows| | |].
  - intros [] b E. cbn [snd]. apply xwp_put. unfold list_uniquify, update. rewrite E. reflexivity.
  - reflexivity.
  - intros x b [].
Qed.

Lemma new_produces : forall St l, produces (St := St) (fl_new ok l) (Ok l).
Proof. intros St l s. apply xwp_vnew; auto. Qed.

Lemma times_loop_follows : forall St (l : list T) n part buffer s,
  xwp ok (fl_times_loop (St := St) ok l n part buffer) s (fun b s' => s' = s /\ times_loop l n part buffer = Ok b) (fun s' => s' = s)
    (fun x s' => s' = s /\ stops x (times_loop l n part buffer)).
Proof.
  intros St l. induction n as [|n IH]; intros part buffer s; cbn [fl_times_loop times_loop]; [apply xwp_ret; auto|].
  lifts. apply xwp_bind, xwp_events; [apply IH|reflexivity].
Qed.
Lemma times_produces : forall St l n, produces (St := St) (fl_times ok d l n) (list_times d l n).
Proof.
  intros St l n s. unfold fl_times, list_times. destruct (n <? 0); [apply xwp_lift; split; reflexivity|]. lifts.
  destruct (a <? 0); [apply xwp_lift; split; reflexivity|].
  apply xwp_bind, xwp_vnew; [|reflexivity]. intros r. cbn [relems].
  apply xwp_bind. eapply xwp_mono; [apply times_loop_follows| | |]; cbv beta.
  - intros b s' [-> E]. rewrite E. apply new_produces.
  - auto.
  - auto.
Qed.
Lemma times_assign_follows : forall n, follows (fl_times_assign ok d n) (list_times_assign d n) kept_same.
Proof.
  intros n v. unfold fl_times_assign, list_times_assign, update. apply xwp_bind, xwp_get. apply xwp_bind.
  eapply xwp_mono; [apply times_produces| | |]; cbv beta.
  - intros r s' [-> E]. apply xwp_put. rewrite E. reflexivity.
  - intros s' ->. reflexivity.
  - intros [m|e|u|] s' [-> E]; cbn in E |- *; try contradiction; rewrite E; reflexivity.
Qed.

Lemma slice_loop_follows : forall l stop step fuel i (v : rvec T),
  xwp ok (fl_slice_loop ok grow nothrow l stop step fuel i) v (fun _ v' => slice_loop l stop step fuel i (relems v) = Ok (relems v')) (fun _ => True)
    (fun x _ => stops x (slice_loop l stop step fuel i (relems v))).
Proof.
  intros l stop step. induction fuel as [|f IH]; intros i v; cbn [fl_slice_loop slice_loop]; [apply xwp_lift; reflexivity|].
  destruct (if 0 <? step then i <? stop else stop <? i); [|apply xwp_ret; reflexivity]. lifts.
  apply xwp_bind, xwp_push; [|trivial]. intros r. lifts. apply (IH _ (Rvec (relems v ++ [a]) r)).
Qed.
Lemma slice_produces : forall St l a b st, produces (St := St) (fl_slice ok grow nothrow l a b st) (list_slice l a b st).
Proof.
  intros St l a b st s. unfold fl_slice, list_slice. destruct (st =? 0); [apply xwp_lift; split; reflexivity|]. lifts.
  apply xwp_bind, xwp_local. eapply xwp_mono; [apply slice_loop_follows| | |]; cbv beta.
  - intros [] v' E. cbn [relems] in E. rewrite E. cbn [snd]. apply new_produces.
  - reflexivity.
  - intros x v' E. split; [reflexivity|exact E].
Qed.

Lemma on_copy_produces : forall St (f : M (list T) unit) m H l, follows m f H -> produces (St := St) (fl_on_copy ok l m) (on_copy f l).
Proof.
  intros St f m H l F s. unfold fl_on_copy, on_copy. apply xwp_bind, xwp_vnew; [|reflexivity]. intros r.
  apply xwp_bind, xwp_local. eapply xwp_mono; [apply F| | |]; cbn [relems]; cbv beta.
  - intros [] v' E. rewrite E. cbn [snd]. apply new_produces.
  - reflexivity.
  - intros [n|e|u|] v' E; cbn in E |- *; try contradiction; split; try reflexivity.
    + rewrite E. reflexivity.
    + destruct (f l) as [o l']. cbn in E. subst. reflexivity.
    + destruct (f l) as [o l']. cbn in E. subst. reflexivity.
Qed.

(** ** filter *)

Definition mixed (p : T -> bool) (orig l : list T) : Prop :=
  exists j, (exists y, nth_error orig j = Some y /\ p y = true) /\ l = filter p (firstn j orig) ++ skipn (length (filter p (firstn j orig))) orig.

Lemma firstn_S_nth : forall A (l : list A) j x, nth_error l j = Some x -> firstn (S j) l = firstn j l ++ [x].
Proof.
  intros A. induction l as [|y l IH]; intros [|j] x E; cbn in *; try discriminate.
  - inversion E. reflexivity.
  - rewrite (IH _ _ E). reflexivity.
Qed.
Lemma skipn_S_nth : forall A (l : list A) j x, nth_error l j = Some x -> skipn j l = x :: skipn (S j) l.
Proof.
  intros A. induction l as [|y l IH]; intros [|j] x E; cbn in *; try discriminate.
  - inversion E. reflexivity.
  - rewrite (IH _ _ E). reflexivity.
Qed.
Lemma kept_le : forall A (p : A -> bool) l, (length (filter p l) <= length l)%nat.
Proof. intros A p. induction l as [|x l IH]; cbn; [lia|]. destruct (p x); cbn; lia. Qed.

Lemma filter_firstn : forall A (p : A -> bool) l i y, nth_error l i = Some y -> p y = true ->
  exists j, (j < length (filter p l))%nat /\ filter p (firstn i l) = firstn j (filter p l).
Proof.
  intros A p l i y N P. exists (length (filter p (firstn i l))).
  assert (E : filter p l = filter p (firstn i l) ++ y :: filter p (skipn (S i) l)).
  { rewrite <- (firstn_skipn i l) at 1. rewrite filter_app, (skipn_S_nth _ _ _ _ N). cbn [filter]. rewrite P. reflexivity. }
  rewrite E, app_length. cbn [length]. split; [lia|]. rewrite firstn_app, firstn_all, Nat.sub_diag. cbn [firstn]. rewrite app_nil_r. reflexivity.
Qed.

Lemma mix_nth : forall (l kept : list T) j, (length kept <= j)%nat -> nth_error (kept ++ skipn (length kept) l) j = nth_error l j.
Proof.
  intros l kept j L. rewrite nth_error_app2 by assumption. rewrite nth_error_skipn_in. f_equal. lia.
Qed.

Lemma filter_loop_follows : forall p orig n j v,
  (j + n = length orig)%nat ->
  relems v = filter p (firstn j orig) ++ skipn (length (filter p (firstn j orig))) orig ->
  xwp ok (fl_filter_loop ok p n (Z.of_nat j) (len (filter p (firstn j orig)))) v
    (fun r v' => std_copy_if_loop p n (Z.of_nat j) (len (filter p (firstn j orig))) (relems v) = Ok (relems v', r))
    (fun v' => mixed p orig (relems v')) (fun _ _ => False).
Proof.
  intros p orig. induction n as [|n IH]; intros j v Ln Ev; cbn [fl_filter_loop std_copy_if_loop]; [apply xwp_ret; reflexivity|].
  set (kept := filter p (firstn j orig)) in *.
  assert (LK : (length kept <= j)%nat).
  { unfold kept. etransitivity; [apply kept_le|]. rewrite firstn_length. lia. }
  destruct (nth_error orig j) as [y|] eqn:Ny; [|apply nth_error_None in Ny; lia].
  assert (VA : vat (relems v) (Z.of_nat j) = Ok y).
  { unfold vat. destruct (Z.of_nat j <? 0) eqn:E; [lia|]. rewrite Nat2Z.id, Ev, mix_nth, Ny by assumption. reflexivity. }
  assert (F1 : firstn (S j) orig = firstn j orig ++ [y]) by (apply firstn_S_nth; assumption).
  apply xwp_bind, xwp_get. rewrite VA. apply xwp_bind, xwp_lift. cbn [bind].
  replace (Z.of_nat j + 1) with (Z.of_nat (S j)) by lia.
  destruct (p y) eqn:Py.
  - assert (K1 : filter p (firstn (S j) orig) = kept ++ [y]) by (rewrite F1, filter_app; cbn; rewrite Py; reflexivity).
    assert (LL : (length kept < length orig)%nat) by (assert (j < length orig)%nat by (apply nth_error_Some; congruence); lia).
    assert (VP : vput (relems v) (len kept) y = Ok (kept ++ y :: skipn (S (length kept)) orig)).
    { unfold vput, len. rewrite Nat2Z.id.
      assert (L1 : length (relems v) = length orig) by (rewrite Ev, app_length, skipn_length; lia).
      destruct (_ || _) eqn:E; [rewrite L1 in E; lia|]. f_equal. rewrite Ev, firstn_app, firstn_all, Nat.sub_diag. cbn [firstn]. rewrite app_nil_r.
      f_equal. f_equal. rewrite skipn_app, (skipn_all2 kept) by lia. cbn [app].
      replace (S (length kept) - length kept)%nat with 1%nat by lia.
      destruct (nth_error orig (length kept)) as [z|] eqn:Nz; [|apply nth_error_None in Nz; lia].
      rewrite (skipn_S_nth _ _ _ _ Nz). reflexivity. }
    apply xwp_bind, xwp_event; [|exists j; split; [eauto|exact Ev]].
    apply xwp_bind, xwp_calm. unfold update. rewrite VP. cbn [bind].
    replace (len kept + 1) with (len (filter p (firstn (S j) orig))) by (rewrite K1; unfold len; rewrite app_length; cbn; lia).
    apply (IH (S j) (Rvec _ _)); [lia|]. cbn [relems]. rewrite K1, app_length, <- app_assoc. cbn [length app].
    rewrite Nat.add_1_r. reflexivity.
  - assert (K1 : filter p (firstn (S j) orig) = kept) by (rewrite F1, filter_app; cbn; rewrite Py, app_nil_r; reflexivity).
    replace (len kept) with (len (filter p (firstn (S j) orig))) by (rewrite K1; reflexivity).
    apply (IH (S j) v); [lia|]. rewrite K1. exact Ev.
Qed.

Lemma filter_follows : forall p, follows (fl_filter ok p) (list_filter false p) (mixed p).
Proof.
  intros p v. unfold fl_filter, list_filter, update. cbn [andb]. apply xwp_bind, xwp_get.
  apply xwp_bind. eapply xwp_mono; [apply (filter_loop_follows p (relems v) (length (relems v)) 0 v); [lia|reflexivity]| | |]; cbv beta.
  - intros r v' E. cbn [filter firstn] in E. change (len []) with 0 in E. change (Z.of_nat 0) with 0 in E. rewrite E. cbn [bind fst snd].
    apply xwp_calm. unfold update. destruct (verase (relems v') r (len (relems v'))) eqn:V; try reflexivity.
    unfold verase in V. destruct (_ || _); discriminate.
  - auto.
  - intros x v' [].
Qed.
End Members.

(** ** Statements *)
Section Steps.
Context {T : Type}.
Variables (ok : nat -> bool) (grow : nat -> nat -> nat) (nothrow : bool) (moved : T -> T).
Variables (eqb lt : T -> T -> bool) (show : T -> list ascii) (d : T).
Notation step := (flstep ok grow nothrow moved eqb lt show d).
Notation lstep := (lstep eqb lt show d).
Notation leftover := (leftover nothrow moved).

Definition tied (c : lstmt T) (s : flstore) (k : nat) (r : flresult) (o : outcome (lstore T * list (levent T))) : Prop :=
  match r with
  | Ok (s', k', ev) =>
      ((k <= k')%nat /\ plenty ok k k' /\ exists e' ev0, o = Ok (e', ev0) /\ same e' (contents s') /\ ev = map FSaw ev0) \/
      (exists n, ev = [FFailed n] /\ (k <= n)%nat /\ k' = S n /\ ok n = false /\ plenty ok k n /\ leftover c (contents s) (contents s'))
  | Throw _ => False
  | UB u => o = UB u
  | OutOfFuel => o = OutOfFuel
  end.

Lemma contents_set : forall s v x, same (lset (contents s) v (relems x)) (contents (flset (T := T) s v x)).
Proof. intros s v x w. unfold contents, flset, lset. destruct (Nat.eqb w v); reflexivity. Qed.
Lemma same_refl : forall e : lstore T, same e e.
Proof. intros e v. reflexivity. Qed.

Lemma call_tied : forall A (m : xm (rvec T) A) f H c s v k out, follows ok m f H ->
  (forall x', H (relems (s v)) (relems x') -> leftover c (contents s) (contents (flset s v x'))) ->
  tied c s k (flcall s v k m out) (call (contents s) v f out).
Proof.
  intros A m f H c s v k out F L. unfold flcall, call. specialize (F (s v) k).
  destruct (m (s v) k) as [[[a|[n|e|u|]] x'] k']; cbn [flend tied] in *.
  - destruct F as (L1 & P & E). left. split; [assumption|split; [assumption|]].
    exists (lset (contents s) v (relems x')), (out a). unfold contents at 1. rewrite E.
    split; [reflexivity|split; [apply contents_set|reflexivity]].
  - destruct F as (L1 & -> & O & P & HH). right. exists n. repeat split; auto.
  - destruct F as (L1 & P & E). cbn in E. left. split; [assumption|split; [assumption|]].
    exists (lset (contents s) v (relems x')), [LThrow e]. unfold contents at 1. rewrite E.
    split; [reflexivity|split; [apply contents_set|reflexivity]].
  - destruct F as (_ & _ & E). cbn in E. unfold contents at 1. destruct (f (relems (s v))) as [o l]. cbn in E. subst o. reflexivity.
  - destruct F as (_ & _ & E). cbn in E. unfold contents at 1. destruct (f (relems (s v))) as [o l]. cbn in E. subst o. reflexivity.
Qed.

Lemma kept_leftover : forall c s v x', kept_same (relems (s v)) (relems x') -> leftover c (contents s) (contents (flset s v x')).
Proof.
  intros c s v x' E. apply lo_same. intros w. unfold contents, flset. destruct (Nat.eqb w v) eqn:W; [|reflexivity].
  apply Nat.eqb_eq in W. subst. exact E.
Qed.

Lemma assign_tied : forall (m : xm unit (rvec T)) o c s u k, produces ok m o -> tied c s k (flassign s u k m) (lassign (contents s) u o).
Proof.
  intros m o c s u k F. unfold flassign, lassign. specialize (F tt k).
  destruct (m tt k) as [[[x|[n|e|y|]] x'] k']; cbn [flend tied] in *.
  - destruct F as (L1 & P & _ & ->). left. split; [assumption|split; [assumption|]].
    exists (lset (contents s) u (relems x)), []. split; [reflexivity|split; [apply contents_set|reflexivity]].
  - destruct F as (L1 & -> & O & P & _). right. exists n. repeat split; auto. apply lo_same, same_refl.
  - destruct F as (L1 & P & _ & E). cbn in E. subst o. left. split; [assumption|split; [assumption|]].
    exists (contents s), [LThrow e]. split; [reflexivity|split; [apply same_refl|reflexivity]].
  - destruct F as (_ & _ & _ & E). cbn in E. subst o. reflexivity.
  - destruct F as (_ & _ & _ & E). cbn in E. subst o. reflexivity.
Qed.

Lemma emit_tied : forall A (o : outcome A) ev c s k, tied c s k (flemit s k o ev) (lemit (contents s) o ev).
Proof.
  intros A o ev c s k. unfold flemit, lemit. destruct o as [a|e|u|]; cbn; try reflexivity;
  (left; split; [lia|split; [apply plenty_nil|]]; eexists; eexists; split; [reflexivity|split; [apply same_refl|reflexivity]]).
Qed.

Lemma still_tied : forall c s k s' e', same e' (contents s') -> tied c s k (Ok (s', k, [])) (Ok (e', [])).
Proof.
  intros c s k s' e' E. left. split; [lia|split; [apply plenty_nil|]]. exists e', []. auto.
Qed.

Theorem step_tied : forall c s k, tied c s k (step c s k) (lstep c (contents s)).
Proof.
  intros c s k.
  destruct c; cbn [flstep ListProgModel.lstep];
  try apply emit_tied;
  try (apply assign_tied; first [apply times_produces | apply slice_produces | unfold fl_plus, fl_plus_list, fl_minus, fl_over]);
  try (eapply on_copy_produces; first [apply append_follows|apply append_list_follows|apply calm_follows]);
  try (eapply call_tied; [first [apply calm_follows|apply set_follows|apply insert_follows|apply append_follows
                                |apply times_assign_follows|apply uniquify_follows|apply insert_elem_follows]|intros x'; apply kept_leftover]).
  - apply (assign_tied _ (Ok xs)). apply new_produces.
  - destruct (Nat.eqb v w) eqn:W.
    + apply still_tied. apply Nat.eqb_eq in W. subst. intros u. unfold contents, lset. destruct (Nat.eqb u w) eqn:U; [|reflexivity].
      apply Nat.eqb_eq in U. subst. reflexivity.
    + refine (call_tied _ _ _ _ (LCopy v w) s v k silent (assign_follows ok (relems (s w))) _).
      intros x' [E|(j & L1 & L2 & E)]; [apply kept_leftover; exact E|].
      apply (lo_copy _ _ v w j); [exact L1|exact L2|].
      change (same (lset (contents s) v (firstn j (relems (s w)) ++ skipn j (relems (s v)))) (contents (flset s v x'))).
      rewrite <- E. apply contents_set.
  - destruct (Nat.eqb v w) eqn:W; [reflexivity|]. apply still_tied.
    intros u. unfold contents, lset, flset. destruct (Nat.eqb u w), (Nat.eqb u v); reflexivity.
  - eapply call_tied; [apply append_list_follows|]. intros x' [E|(N & W & E)]; [apply kept_leftover; exact E|].
    apply lo_append; [exact N|exact W|]. 
    change (same (lset (contents s) v (map moved (relems (s v)))) (contents (flset s v x'))). rewrite <- E. apply contents_set.
  - eapply call_tied; [apply filter_follows|]. intros x' (i & (y & Ny & Py) & E). destruct (filter_firstn _ p (relems (s v)) i y Ny Py) as (j & Lj & Ej).
    apply (lo_filter _ _ v p j); [exact Lj|].
    change (same (lset (contents s) v (firstn j (filter p (relems (s v))) ++ skipn j (relems (s v)))) (contents (flset s v x'))).
    rewrite Ej in E. rewrite firstn_length_le in E by (apply Nat.lt_le_incl; exact Lj). rewrite <- E. apply contents_set.
  - unfold contents at 1 2. destruct (size (relems (s w)) <=? INT_MAX - size (relems (s v))).
    + destruct (Nat.eqb v w); [reflexivity|]. eapply call_tied; [apply extend_follows|].
      intros x' [E|(N & W & E)]; [apply kept_leftover; exact E|].
      apply lo_extend; [exact N|exact W|]. 
    change (same (lset (contents s) v (map moved (relems (s v)))) (contents (flset s v x'))). rewrite <- E. apply contents_set.
    + apply still_tied, same_refl.
Qed.

(** The three ways a statement can end. *)
Theorem step_done : forall c s k s' k' ev, step c s k = Ok (s', k', ev) ->
  ((k <= k')%nat /\ plenty ok k k' /\ exists e' ev0, lstep c (contents s) = Ok (e', ev0) /\ same e' (contents s') /\ ev = map FSaw ev0) \/
  (exists n, ev = [FFailed n] /\ (k <= n)%nat /\ k' = S n /\ ok n = false /\ plenty ok k n /\ leftover c (contents s) (contents s')).
Proof. intros c s k s' k' ev E. pose proof (step_tied c s k) as H. rewrite E in H. exact H. Qed.
Theorem step_ub : forall c s k u, step c s k = UB u -> lstep c (contents s) = UB u.
Proof. intros c s k u E. pose proof (step_tied c s k) as H. rewrite E in H. exact H. Qed.

Theorem steady_same : forall c e e', steady nothrow c -> leftover c e e' -> same e e'.
Proof.
  intros c e e' S L. destruct L; cbn in S; try assumption; try contradiction; try congruence.
  subst w. intros u. rewrite H1. unfold lset. rewrite firstn_skipn. destruct (Nat.eqb u v) eqn:E; [|reflexivity].
  apply Nat.eqb_eq in E. subst. reflexivity.
Qed.

Theorem steady_fails : forall c s k s' k' n ev, steady nothrow c -> step c s k = Ok (s', k', FFailed n :: ev) -> same (contents s) (contents s').
Proof.
  intros c s k s' k' n ev S E. destruct (step_done _ _ _ _ _ _ E) as [(_ & _ & e' & ev0 & _ & _ & H)|(m & H & _ & _ & _ & _ & L)].
  - destruct ev0; discriminate.
  - eapply steady_same; eassumption.
Qed.

Theorem no_events : forall c s k, eventless c ->
  match step c s k with
  | Ok (s', k', ev) => k' = k /\ exists e' ev0, lstep c (contents s) = Ok (e', ev0) /\ same e' (contents s') /\ ev = map FSaw ev0
  | Throw _ => False
  | UB u => lstep c (contents s) = UB u
  | OutOfFuel => lstep c (contents s) = OutOfFuel
  end.
Proof.
  intros c s k N. pose proof (step_tied c s k) as H.
  assert (K : forall s' k' ev, step c s k = Ok (s', k', ev) -> k' = k).
  { intros s' k' ev. destruct c; cbn in N; try contradiction; cbn [flstep]; try subst w; try rewrite Nat.eqb_refl;
    unfold flemit, flcall, fl_remove, fl_subtract, fl_divide, fl_shr, fl_shl, fl_reverse, fl_sort, fl_erase, fl_map, fl_clear, vcalm;
    try (match goal with |- context [match ?f ?l with _ => _ end] => destruct (f l) as [[?|?|?|] ?] end);
    try (match goal with |- context [match ?o with Ok _ => _ | _ => _ end] => destruct o as [?|?|?|] end);
    try (destruct (Nat.eqb v w)); cbn [flend]; intros E; try discriminate; injection E as <- <- <-; reflexivity. }
  unfold tied in H. destruct (step c s k) as [[[s' k'] ev]|e|u|]; try exact H.
  specialize (K _ _ _ eq_refl). split; [exact K|]. destruct H as [(_ & _ & H)|(n & _ & L & E & _)]; [exact H|lia].
Qed.

(** No event failing, a statement does what it does in ListProgModel. *)
Theorem all_well : forall c s k, (forall n, ok n = true) ->
  match step c s k with
  | Ok (s', _, ev) => exists e' ev0, lstep c (contents s) = Ok (e', ev0) /\ same e' (contents s') /\ ev = map FSaw ev0
  | Throw _ => False
  | UB u => lstep c (contents s) = UB u
  | OutOfFuel => lstep c (contents s) = OutOfFuel
  end.
Proof.
  intros c s k A. pose proof (step_tied c s k) as H. unfold tied in H.
  destruct (step c s k) as [[[s' k'] ev]|e|u|]; try exact H.
  destruct H as [(_ & _ & H)|(n & _ & _ & _ & O & _)]; [exact H|]. rewrite A in O. discriminate.
Qed.

(** ** Programs *)
Hypothesis WEAK : strict_weak lt.
Hypothesis DEC : decides eqb.
Notation run := (flrun ok grow nothrow moved eqb lt show d).
Notation hrun := (hrun eqb lt show nothrow moved).

Lemma leftover_sized : forall c e e', leftover c e e' -> sized e -> sized e'.
Proof.
  intros c e e' L Z. destruct L; intros u.
  1: rewrite (H u); apply Z.
  all: match goal with H : same _ _ |- _ => rewrite (H u) end; unfold lset; destruct (Nat.eqb u v) eqn:U; [|apply Z].
  - rewrite app_length, firstn_length, skipn_length. specialize (Z v). lia.
  - rewrite app_length, firstn_length, skipn_length. pose proof (kept_le _ p (e v)). specialize (Z v). lia.
  - rewrite map_length. apply Z.
  - rewrite map_length. apply Z.
Qed.

Lemma same_sized : forall e e' : lstore T, same e e' -> sized e -> sized e'.
Proof. intros e e' S Z v. rewrite (S v). apply Z. Qed.

Lemma step_store : forall c s k s' k' ev, sized (contents s) -> int_stmt c -> step c s k = Ok (s', k', ev) -> sized (contents s').
Proof.
  intros c s k s' k' ev Z I E. destruct (step_done _ _ _ _ _ _ E) as [(_ & _ & e' & ev0 & L & S & _)|(n & _ & _ & _ & _ & _ & L)].
  - eapply same_sized; [exact S|]. eapply step_sized; eassumption.
  - eapply leftover_sized; eassumption.
Qed.

Theorem run_ok : forall prog s k s' k' ev, sized (contents s) -> Forall int_stmt prog -> run prog s k = Ok (s', k', ev) ->
  hrun prog (contents s) (contents s') ev /\ sized (contents s').
Proof.
  induction prog as [|c prog IH]; intros s k s' k' ev Z F E; cbn [flrun] in E.
  - injection E as <- <- <-. split; [constructor|assumption].
  - inversion F as [|? ? I F']; subst.
    destruct (step c s k) as [[[s1 k1] ev1]| | |] eqn:E1; cbn [bind] in E; try discriminate.
    destruct (run prog s1 k1) as [[[s2 k2] ev2]| | |] eqn:E2; cbn [bind] in E; try discriminate.
    injection E as <- <- <-. pose proof (step_store _ _ _ _ _ _ Z I E1) as Z1.
    destruct (IH _ _ _ _ _ Z1 F' E2) as (H2 & Z2). split; [|exact Z2].
    destruct (step_done _ _ _ _ _ _ E1) as [(_ & _ & e' & ev0 & L & S & ->)|(n & -> & _ & _ & _ & _ & L)].
    + eapply h_done; [|exact S|exact H2]. apply (step_exact eqb lt show d DEC WEAK); assumption.
    + cbn [app]. eapply h_failed; eassumption.
Qed.

Theorem run_undefined : forall prog s k u, sized (contents s) -> Forall int_stmt prog -> run prog s k = UB u ->
  exists pre c post e ev, prog = pre ++ c :: post /\ hrun pre (contents s) e ev /\ lundef c e.
Proof.
  induction prog as [|c prog IH]; intros s k u Z F E; cbn [flrun] in E; [discriminate|].
  inversion F as [|? ? I F']; subst.
  destruct (step c s k) as [[[s1 k1] ev1]|x|x|] eqn:E1; cbn [bind] in E; try discriminate.
  - destruct (run prog s1 k1) as [[[s2 k2] ev2]|x|x|] eqn:E2; cbn [bind] in E; try discriminate.
    injection E as <-. pose proof (step_store _ _ _ _ _ _ Z I E1) as Z1.
    destruct (IH _ _ _ Z1 F' E2) as (pre & c' & post & e & ev & -> & H & U).
    destruct (step_done _ _ _ _ _ _ E1) as [(_ & _ & e' & ev0 & L & S & ->)|(n & -> & _ & _ & _ & _ & L)].
    + exists (c :: pre), c', post, e, (map FSaw ev0 ++ ev). split; [reflexivity|]. split; [|exact U].
      eapply h_done; [|exact S|exact H]. apply (step_exact eqb lt show d DEC WEAK); assumption.
    + exists (c :: pre), c', post, e, (FFailed n :: ev). split; [reflexivity|]. split; [|exact U]. eapply h_failed; eassumption.
  - exists [], c, prog, (contents s), []. split; [reflexivity|]. split; [constructor|].
    apply step_ub in E1. apply (undefined_exact eqb lt show d DEC WEAK); eauto.
Qed.

Theorem run_goes_on : forall prog s k, sized (contents s) -> Forall int_stmt prog ->
  match run prog s k with Ok _ | UB _ => True | Throw _ | OutOfFuel => False end.
Proof.
  induction prog as [|c prog IH]; intros s k Z F; cbn [flrun]; [exact Logic.I|].
  inversion F as [|? ? I F']; subst. pose proof (step_tied c s k) as H. unfold tied in H.
  destruct (step c s k) as [[[s1 k1] ev1]|x|x|] eqn:E1; cbn [bind]; try contradiction; try exact Logic.I.
  - pose proof (step_store _ _ _ _ _ _ Z I E1) as Z1. specialize (IH s1 k1 Z1 F').
    destruct (run prog s1 k1) as [[[s2 k2] ev2]|x|x|]; cbn [bind]; try contradiction; exact Logic.I.
  - destruct (sound eqb lt show d DEC WEAK c (contents s) Z I) as [(s2 & ev & Q & _)|(_ & u & Q)]; [|congruence].
    apply (complete eqb lt show d DEC WEAK) in Q; [congruence|assumption|assumption].
Qed.
End Steps.
