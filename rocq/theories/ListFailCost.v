(** Lists whose element copies and allocations may throw: exactly which event stops a call with which remains, and how many
    events a call causes. *)
From Coq Require Import ZArith List Bool Ascii Lia.
From Verif Require Import Outcome ListModel ListProgModel FailModel FailFacts ListFailModel ListSpec ListProgSpec ListFailSpec IntMemSpec ListProg ListFail ListFacts ListMore.
Import ListNotations.
Open Scope Z_scope.

Section Runs.
Context {St : Type} (ok : nat -> bool).

Lemma plenty_head : forall k n, plenty ok k (k + S n)%nat -> ok k = true /\ plenty ok (S k) (S k + n)%nat.
Proof. intros k n P. split; [apply P; lia|]. intros j H. apply P. lia. Qed.

Lemma events_ok : forall n (s : St) k, plenty ok k (k + n)%nat -> xevents ok n s k = (XRet tt, s, (k + n)%nat).
Proof.
  induction n as [|n IH]; intros s k P; cbn [xevents].
  - unfold xret. rewrite Nat.add_0_r. reflexivity.
  - destruct (plenty_head _ _ P) as [O P']. unfold xbind, xevent. rewrite O. rewrite (IH s (S k) P'). f_equal. lia.
Qed.
Lemma events_fail : forall n j (s : St) k, (j < n)%nat -> plenty ok k (k + j)%nat -> ok (k + j)%nat = false ->
  xevents ok n s k = (XErr (XFail (k + j)), s, S (k + j)).
Proof.
  induction n as [|n IH]; intros j s k L P F; [lia|]. cbn [xevents]. unfold xbind, xevent. destruct j as [|j].
  - rewrite Nat.add_0_r in *. rewrite F. reflexivity.
  - destruct (plenty_head _ _ P) as [O P']. rewrite O. rewrite (IH j s (S k)); [|lia|exact P'|].
    + replace (S k + j)%nat with (k + S j)%nat by lia. reflexivity.
    + replace (S k + j)%nat with (k + S j)%nat by lia. exact F.
Qed.
End Runs.

Section Exact.
Context {T : Type}.
Variables (ok : nat -> bool) (grow : nat -> nat -> nat) (nothrow : bool) (moved : T -> T).
Variables (eqb lt : T -> T -> bool) (show : T -> list ascii) (d : T).
Notation step := (flstep ok grow nothrow moved eqb lt show d).

Lemma skipn_1 : forall m (old : list T), skipn 1 (skipn m old) = skipn (S m) old.
Proof. induction m as [|m IH]; intros [|y old]; try reflexivity. apply IH. Qed.

Lemma assign_loop_ok : forall n done todo (v : rvec T) old k,
  relems v = done ++ skipn (length done) old -> (n <= length todo)%nat -> plenty ok k (k + n)%nat ->
  vassign_loop ok n done todo v k = (XRet tt, Rvec (done ++ firstn n todo ++ skipn (length done + n) old) (rroom v), (k + n)%nat).
Proof.
  induction n as [|n IH]; intros done todo v old k Ev L P; cbn [vassign_loop].
  - unfold xret. cbn [firstn app]. rewrite !Nat.add_0_r, <- Ev. destruct v; reflexivity.
  - destruct todo as [|x todo]; cbn [length] in L; [lia|]. destruct (plenty_head _ _ _ P) as [O P'].
    unfold xbind at 1, xevent. rewrite O. unfold xbind at 1, xget. unfold xbind at 1, xput.
    assert (LD : length (done ++ [x]) = S (length done)) by (rewrite app_length; cbn; lia).
    assert (ES : skipn (S (length done)) (relems v) = skipn (length (done ++ [x])) old).
    { rewrite Ev, skipn_app, LD, (skipn_all2 done) by lia. cbn [app].
      replace (S (length done) - length done)%nat with 1%nat by lia. apply skipn_1. }
    rewrite (IH (done ++ [x]) todo _ old (S k)).
    + cbn [rroom]. rewrite LD, <- app_assoc. cbn [app firstn].
      replace (S (length done) + n)%nat with (length done + S n)%nat by lia. f_equal. lia.
    + cbn [relems]. rewrite ES. rewrite <- app_assoc. reflexivity.
    + lia.
    + exact P'.
Qed.
Lemma assign_loop_fail : forall n j done todo (v : rvec T) old k,
  relems v = done ++ skipn (length done) old -> (n <= length todo)%nat -> (j < n)%nat -> plenty ok k (k + j)%nat -> ok (k + j)%nat = false ->
  vassign_loop ok n done todo v k =
    (XErr (XFail (k + j)), Rvec (done ++ firstn j todo ++ skipn (length done + j) old) (rroom v), S (k + j)).
Proof.
  induction n as [|n IH]; intros j done todo v old k Ev L J P F; [lia|]. cbn [vassign_loop].
  destruct todo as [|x todo]; cbn [length] in L; [lia|]. unfold xbind at 1, xevent. destruct j as [|j].
  - rewrite Nat.add_0_r in *. rewrite F. cbn [firstn app]. rewrite Nat.add_0_r, <- Ev. destruct v; reflexivity.
  - destruct (plenty_head _ _ _ P) as [O P']. rewrite O. unfold xbind at 1, xget. unfold xbind at 1, xput.
    assert (LD : length (done ++ [x]) = S (length done)) by (rewrite app_length; cbn; lia).
    assert (ES : skipn (S (length done)) (relems v) = skipn (length (done ++ [x])) old).
    { rewrite Ev, skipn_app, LD, (skipn_all2 done) by lia. cbn [app].
      replace (S (length done) - length done)%nat with 1%nat by lia. apply skipn_1. }
    rewrite (IH j (done ++ [x]) todo _ old (S k)).
    + cbn [rroom]. rewrite LD, <- app_assoc. cbn [app firstn].
      replace (S (length done) + j)%nat with (length done + S j)%nat by lia. replace (S k + j)%nat with (k + S j)%nat by lia. reflexivity.
    + cbn [relems]. rewrite ES. rewrite <- app_assoc. reflexivity.
    + lia.
    + lia.
    + exact P'.
    + replace (S k + j)%nat with (k + S j)%nat by lia. exact F.
Qed.

(** [v = w], the storage of [v] being large enough, stopped at the copy of element [j] of [w] *)
Theorem copy_stopped : forall v w s k j, v <> w -> (length (contents s w) <= rroom (s v))%nat -> (j < length (contents s w))%nat ->
  plenty ok k (k + j)%nat -> ok (k + j)%nat = false ->
  let i := Nat.min j (length (contents s v)) in
  exists s', step (LCopy v w) s k = Ok (s', S (k + j), [FFailed (k + j)]) /\
             same (lset (contents s) v (firstn i (contents s w) ++ skipn i (contents s v))) (contents s').
Proof.
  intros v w s k j N R J P F i. unfold contents in R, J, i.
  exists (flset s v (Rvec (firstn i (relems (s w)) ++ skipn i (relems (s v))) (rroom (s v)))). split.
  2:{ intros u. unfold contents, flset, lset. destruct (Nat.eqb u v); reflexivity. }
  cbn [flstep]. rewrite (proj2 (Nat.eqb_neq v w) N). unfold flcall, fl_assign, vassign. unfold xbind at 1, xget.
  replace (Nat.ltb (rroom (s v)) (length (relems (s w)))) with false by (symmetry; apply Nat.ltb_ge; lia).
  unfold xbind at 1. set (n := length (relems (s v))) in *. set (m := length (relems (s w))) in *.
  destruct (Nat.lt_ge_cases j n) as [L|L].
  - rewrite (assign_loop_fail _ j [] _ _ (relems (s v)) k); try assumption; try reflexivity; try (fold m; lia).
    cbn [app length plus]. unfold i. rewrite Nat.min_l by lia. reflexivity.
  - rewrite (assign_loop_ok _ [] _ _ (relems (s v)) k); try reflexivity; try (fold m; lia).
    2:{ intros y H. apply P. lia. }
    cbn [app length plus]. replace (Nat.min n m) with n by lia. unfold xbind.
    rewrite (events_fail ok _ (j - n)); [|lia| |].
    + replace (k + n + (j - n))%nat with (k + j)%nat by lia. unfold i. rewrite Nat.min_r by lia. reflexivity.
    + replace (k + n + (j - n))%nat with (k + j)%nat by lia. intros y H. apply P. lia.
    + replace (k + n + (j - n))%nat with (k + j)%nat by lia. exact F.
Qed.

(** [v.filter(p)] stopped at the copy of the [j]th element to be kept *)
Lemma filter_loop_fail : forall (p : T -> bool) orig n i v k j,
  (i + n = length orig)%nat ->
  relems v = filter p (firstn i orig) ++ skipn (length (filter p (firstn i orig))) orig ->
  (j < length (filter p (skipn i orig)))%nat -> plenty ok k (k + j)%nat -> ok (k + j)%nat = false ->
  exists r, fl_filter_loop ok p n (Z.of_nat i) (len (filter p (firstn i orig))) v k =
    (XErr (XFail (k + j)), Rvec (filter p (firstn i orig) ++ firstn j (filter p (skipn i orig)) ++ skipn (length (filter p (firstn i orig)) + j) orig) r, S (k + j)).
Proof.
  intros p orig. induction n as [|n IH]; intros i v k j Ln Ev J P F; cbn [fl_filter_loop].
  { rewrite skipn_all2 in J by lia. cbn in J. lia. }
  set (kept := filter p (firstn i orig)) in *.
  assert (LK : (length kept <= i)%nat) by (unfold kept; etransitivity; [apply kept_le|]; rewrite firstn_length; lia).
  destruct (nth_error orig i) as [y|] eqn:Ny; [|apply nth_error_None in Ny; lia].
  assert (VA : vat (relems v) (Z.of_nat i) = Ok y).
  { unfold vat. destruct (Z.of_nat i <? 0) eqn:E; [lia|]. rewrite Nat2Z.id, Ev, mix_nth, Ny by assumption. reflexivity. }
  assert (F1 : firstn (S i) orig = firstn i orig ++ [y]) by (apply firstn_S_nth; assumption).
  unfold xbind at 1, xget. unfold xbind at 1, xlift. rewrite VA.
  replace (Z.of_nat i + 1) with (Z.of_nat (S i)) by lia.
  rewrite (skipn_S_nth _ _ _ _ Ny) in J |- *. cbn [filter] in J |- *.
  destruct (p y) eqn:Py.
  - assert (K1 : filter p (firstn (S i) orig) = kept ++ [y]) by (rewrite F1, filter_app; cbn; rewrite Py; reflexivity).
    assert (LL : (length kept < length orig)%nat) by (assert (i < length orig)%nat by (apply nth_error_Some; congruence); lia).
    unfold xbind at 1, xevent. destruct j as [|j].
    { rewrite Nat.add_0_r in *. rewrite F. exists (rroom v). cbn [firstn app]. rewrite Nat.add_0_r, <- Ev. destruct v; reflexivity. }
    destruct (plenty_head _ _ _ P) as [O P']. rewrite O.
    assert (VP : vput (relems v) (len kept) y = Ok (kept ++ y :: skipn (S (length kept)) orig)).
    { unfold vput, len. rewrite Nat2Z.id.
      assert (L1 : length (relems v) = length orig) by (rewrite Ev, app_length, skipn_length; lia).
      destruct (_ || _) eqn:E; [rewrite L1 in E; lia|]. f_equal. rewrite Ev, firstn_app, firstn_all, Nat.sub_diag. cbn [firstn]. rewrite app_nil_r.
      f_equal. f_equal. rewrite skipn_app, (skipn_all2 kept) by lia. cbn [app].
      replace (S (length kept) - length kept)%nat with 1%nat by lia. apply skipn_1. }
    unfold xbind at 1, vcalm, update. rewrite VP.
    replace (len kept + 1) with (len (filter p (firstn (S i) orig))) by (rewrite K1; unfold len; rewrite app_length; cbn; lia).
    destruct (IH (S i) (Rvec (kept ++ y :: skipn (S (length kept)) orig) (rroom v)) (S k) j) as (r & E).
    + lia.
    + cbn [relems]. rewrite K1, app_length, <- app_assoc. cbn [length app]. rewrite Nat.add_1_r. reflexivity.
    + cbn [length] in J. lia.
    + exact P'.
    + replace (S k + j)%nat with (k + S j)%nat by lia. exact F.
    + exists r. rewrite E, K1, <- app_assoc, app_length. cbn [app firstn length].
      replace (length kept + 1 + j)%nat with (length kept + S j)%nat by lia. replace (S k + j)%nat with (k + S j)%nat by lia. reflexivity.
  - assert (K1 : filter p (firstn (S i) orig) = kept) by (rewrite F1, filter_app; cbn; rewrite Py, app_nil_r; reflexivity).
    replace (len kept) with (len (filter p (firstn (S i) orig))) by (rewrite K1; reflexivity).
    destruct (IH (S i) v k j) as (r & E); [lia|rewrite K1; exact Ev|exact J|exact P|exact F|].
    exists r. rewrite E, K1. reflexivity.
Qed.

Theorem filter_stopped : forall v p s k j, (j < length (filter p (contents s v)))%nat -> plenty ok k (k + j)%nat -> ok (k + j)%nat = false ->
  exists s', step (LFilter v p) s k = Ok (s', S (k + j), [FFailed (k + j)]) /\
             same (lset (contents s) v (firstn j (filter p (contents s v)) ++ skipn j (contents s v))) (contents s').
Proof.
  intros v p s k j J P F. unfold contents in J.
  destruct (filter_loop_fail p (relems (s v)) (length (relems (s v))) 0 (s v) k j) as (r & E); [lia|reflexivity|exact J|exact P|exact F|].
  exists (flset s v (Rvec (firstn j (filter p (relems (s v))) ++ skipn j (relems (s v))) r)). split.
  - cbn [flstep]. unfold flcall, fl_filter. unfold xbind at 1, xget. unfold xbind. 
    cbn [firstn filter] in E. change (len []) with 0 in E. change (Z.of_nat 0) with 0 in E. rewrite E. reflexivity.
  - intros u. unfold contents, flset, lset. destruct (Nat.eqb u v); reflexivity.
Qed.

(** [v += w] and [v.extend(w)], the storage of [v] being too small and the elements movable, stopped at the copy of element [j] of [w] *)
Lemma append_fail : forall (w : list T) (x : rvec T) k j, nothrow = true -> (rroom x < length (relems x) + length w)%nat -> (j < length w)%nat ->
  plenty ok k (k + S j)%nat -> ok (k + S j)%nat = false ->
  vappend ok grow nothrow moved w x k = (XErr (XFail (k + S j)), Rvec (map moved (relems x)) (rroom x), S (k + S j)).
Proof.
  intros w x k j N R J P F. unfold vappend. destruct w as [|y w]; [cbn in J; lia|].
  remember (y :: w) as w' eqn:Ew. clear Ew. unfold xbind at 1, xget.
  replace (Nat.leb (length (relems x) + length w') (rroom x)) with false by (symmetry; apply Nat.leb_gt; lia).
  destruct (plenty_head _ _ _ P) as [O P']. unfold xbind at 1, xevent. rewrite O. rewrite N. unfold relocate, xbind at 1, xret. unfold xbind at 1, xput.
  unfold xbind. replace (k + S j)%nat with (S k + j)%nat in * by lia.
  rewrite (events_fail ok _ j); auto.
Qed.
Lemma append_kept : forall (w : list T) (x : rvec T) k n x' k', (length (relems x) + length w <= rroom x)%nat \/ ok k = false \/ nothrow = false ->
  vappend ok grow nothrow moved w x k = (XErr (XFail n), x', k') -> relems x' = relems x.
Proof.
  intros w x k n x' k' H E. unfold vappend in E. destruct w as [|y w]; [discriminate|].
  remember (y :: w) as w' eqn:Ew. clear Ew. unfold xbind at 1, xget in E.
  destruct (Nat.leb (length (relems x) + length w') (rroom x)) eqn:R.
  - pose proof (xwp_events ok (length w') x (fun _ _ => True) (fun s => s = x) (fun _ _ => False) Logic.I eq_refl k) as W.
    unfold xbind in E. destruct (xevents ok (length w') x k) as [[[[]|[m|m|m|]] s'] k2] eqn:EV; try (exfalso; intuition congruence).
    + unfold xput in E. discriminate.
    + injection E as <- <- <-. destruct W as (_ & _ & _ & _ & ->). reflexivity.
  - apply Nat.leb_gt in R. destruct H as [H|H]; [lia|]. unfold xbind at 1, xevent in E. destruct (ok k) eqn:O; [|injection E as <- <- <-; reflexivity].
    destruct H as [H|H]; [discriminate|]. rewrite H in E. unfold relocate in E.
    match type of E with ?m _ _ = _ => assert (W : xwp ok m x (fun _ _ => True) (fun s => s = x) (fun _ _ => False)) end.
    { apply xwp_bind, xwp_events; [|reflexivity]. apply xwp_bind, xwp_ret. apply xwp_bind, xwp_events; [|reflexivity]. apply xwp_put. exact Logic.I. }
    specialize (W (S k)). rewrite E in W. destruct W as (_ & _ & _ & _ & ->). reflexivity.
Qed.

Lemma append_check : forall (l w : list T), len l <= INT_MAX -> len w <= INT_MAX -> len l / 2 + len w / 2 < INT_MAX / 2 ->
  check_full (Z.quot (size l) 2 + Z.quot (size w) 2) (Z.quot INT_MAX 2) = Ok tt.
Proof.
  intros l w L1 L2 H. rewrite !size_ok by assumption. rewrite !Z.quot_div_nonneg by (unfold INT_MAX, len; lia).
  unfold check_full. match goal with |- context [if ?b then _ else _] => destruct b eqn:E end; [lia|reflexivity].
Qed.

Theorem append_stopped : forall v w s k j, v <> w -> nothrow = true -> sized (contents s) ->
  Z.of_nat (length (contents s v)) / 2 + Z.of_nat (length (contents s w)) / 2 < INT_MAX / 2 ->
  (rroom (s v) < length (contents s v) + length (contents s w))%nat -> (j < length (contents s w))%nat ->
  plenty ok k (k + S j)%nat -> ok (k + S j)%nat = false ->
  exists s', step (LAppendList v w) s k = Ok (s', S (k + S j), [FFailed (k + S j)]) /\
             same (lset (contents s) v (map moved (contents s v))) (contents s').
Proof.
  intros v w s k j V N Z H R J P F. pose proof (Z v) as Zv. pose proof (Z w) as Zw. unfold contents in H, R, J, Zv, Zw.
  exists (flset s v (Rvec (map moved (relems (s v))) (rroom (s v)))). split.
  - cbn [flstep]. unfold flcall, fl_append_list. unfold xbind at 1, xget. unfold xbind, xlift. rewrite append_check by assumption.
    rewrite (proj2 (Nat.eqb_neq v w) V). rewrite (append_fail _ _ _ j); auto.
  - intros u. unfold contents, flset, lset. destruct (Nat.eqb u v); reflexivity.
Qed.

Theorem extend_stopped : forall v w s k j, v <> w -> nothrow = true -> sized (contents s) ->
  Z.of_nat (length (contents s v)) + Z.of_nat (length (contents s w)) <= INT_MAX ->
  (rroom (s v) < length (contents s v) + length (contents s w))%nat -> (j < length (contents s w))%nat ->
  plenty ok k (k + S j)%nat -> ok (k + S j)%nat = false ->
  exists s', step (LExtend v w) s k = Ok (s', S (k + S j), [FFailed (k + S j)]) /\
             same (lset (contents s) v (map moved (contents s v))) (contents s').
Proof.
  intros v w s k j V N Z H R J P F. pose proof (Z v) as Zv. pose proof (Z w) as Zw. unfold contents in H, R, J, Zv, Zw.
  exists (flset s v (Rvec (map moved (relems (s v))) (rroom (s v)))). split.
  - cbn [flstep]. rewrite !size_ok by assumption. destruct (_ <=? _) eqn:E; [|unfold len in E; lia]. rewrite (proj2 (Nat.eqb_neq v w) V).
    unfold flcall, fl_extend. rewrite (append_fail _ _ _ j); auto.
  - intros u. unfold contents, flset, lset. destruct (Nat.eqb u v); reflexivity.
Qed.

(** With room enough, or when the allocation is what fails, [v += w] and [v.extend(w)] leave everything as it was. *)
Theorem append_unharmed : forall c v w s k s' k' n, c = LAppendList v w \/ c = LExtend v w ->
  (length (contents s v) + length (contents s w) <= rroom (s v))%nat \/ n = k ->
  step c s k = Ok (s', k', [FFailed n]) -> same (contents s) (contents s').
Proof.
  intros c v w s k s' k' n C H E.
  assert (K : forall m x k2, vappend ok grow nothrow moved (relems (s w)) (s v) k = (XErr (XFail m), x, k2) -> m = n -> relems x = relems (s v)).
  { intros m x k2 V ->. eapply append_kept; [|exact V]. destruct H as [H|H]; [left; exact H|]. right. left. subst n.
    pose proof (xwp_append ok grow nothrow moved (relems (s w)) (s v) (fun _ _ => True) (fun _ => True) (fun _ _ => False)
      (fun _ => Logic.I) Logic.I (fun _ _ _ => Logic.I) k) as W. rewrite V in W. tauto. }
  assert (G : forall x, relems x = relems (s v) -> same (contents s) (contents (flset s v x))).
  { intros x X u. unfold contents, flset. destruct (Nat.eqb u v) eqn:U; [|reflexivity]. apply Nat.eqb_eq in U. subst. exact X. }
  destruct C as [-> | ->]; cbn [flstep] in E.
  - unfold flcall, fl_append_list in E. unfold xbind at 1, xget in E. unfold xbind, xlift in E.
    destruct (check_full _ _); cbn [flend] in E; try discriminate.
    destruct (Nat.eqb v w); [discriminate|].
    destruct (vappend ok grow nothrow moved (relems (s w)) (s v) k) as [[[[]|[m|m|m|]] x] k2] eqn:V; cbn [flend] in E; try discriminate.
    injection E as <- <- <-. apply G. eapply K; [reflexivity|reflexivity].
  - destruct (_ <=? _); [|discriminate]. destruct (Nat.eqb v w); [discriminate|]. unfold flcall, fl_extend in E.
    destruct (vappend ok grow nothrow moved (relems (s w)) (s v) k) as [[[[]|[m|m|m|]] x] k2] eqn:V; cbn [flend] in E; try discriminate.
    injection E as <- <- <-. apply G. eapply K; [reflexivity|reflexivity].
Qed.
End Exact.

(** ** Counting *)
Definition cwp {St A} (m : xm St A) (s : St) (Q : nat -> A -> St -> Prop) : Prop :=
  forall k, match m s k with
            | (XRet a, s', k') => exists n, k' = (k + n)%nat /\ Q n a s'
            | (XErr _, _, _) => True
            end.

Section CRules.
Context {St : Type} (ok : nat -> bool).

Lemma cwp_mono : forall A (m : xm St A) s (Q Q' : nat -> A -> St -> Prop), cwp m s Q -> (forall n a s', Q n a s' -> Q' n a s') -> cwp m s Q'.
Proof.
  intros A m s Q Q' W H k. specialize (W k). destruct (m s k) as [[[a|f] s'] k']; [|exact W].
  destruct W as (n & E & W). exists n. auto.
Qed.
Lemma cwp_ret : forall A (a : A) s (Q : nat -> A -> St -> Prop), Q 0%nat a s -> cwp (xret a) s Q.
Proof. intros A a s Q H k. cbn. exists 0%nat. split; [lia|assumption]. Qed.
Lemma cwp_bind : forall A B (m : xm St A) (f : A -> xm St B) s Q,
  cwp m s (fun n a s' => cwp (f a) s' (fun n' b s2 => Q (n + n')%nat b s2)) -> cwp (xbind m f) s Q.
Proof.
  intros A B m f s Q W k. specialize (W k). unfold xbind. destruct (m s k) as [[[a|e] s'] k']; [|exact W].
  destruct W as (n & -> & W). specialize (W (k + n)%nat). destruct (f a s' (k + n)%nat) as [[[b|e] s2] k2]; [|exact W].
  destruct W as (n' & -> & W). exists (n + n')%nat. split; [lia|exact W].
Qed.
Lemma cwp_get : forall s (Q : nat -> St -> St -> Prop), Q 0%nat s s -> cwp xget s Q.
Proof. intros s Q H k. cbn. exists 0%nat. split; [lia|assumption]. Qed.
Lemma cwp_put : forall s x (Q : nat -> unit -> St -> Prop), Q 0%nat tt x -> cwp (xput x) s Q.
Proof. intros s x Q H k. cbn. exists 0%nat. split; [lia|assumption]. Qed.
Lemma cwp_event : forall s (Q : nat -> unit -> St -> Prop), Q 1%nat tt s -> cwp (xevent ok) s Q.
Proof. intros s Q H k. unfold xevent. destruct (ok k); [|exact Logic.I]. exists 1%nat. split; [lia|assumption]. Qed.
Lemma cwp_events : forall n s (Q : nat -> unit -> St -> Prop), Q n tt s -> cwp (xevents ok n) s Q.
Proof.
  induction n as [|n IH]; intros s Q H; cbn [xevents]; [apply cwp_ret; assumption|].
  apply cwp_bind, cwp_event, IH. exact H.
Qed.
Lemma cwp_lift : forall A (o : outcome A) s (Q : nat -> A -> St -> Prop), (forall a, o = Ok a -> Q 0%nat a s) -> cwp (xlift o) s Q.
Proof. intros A o s Q H k. unfold xlift. destruct o; try exact Logic.I. exists 0%nat. split; [lia|auto]. Qed.
Lemma cwp_local : forall St' A (x : St') (m : xm St' A) s (Q : nat -> A * St' -> St -> Prop), cwp m x (fun n a x' => Q n (a, x') s) -> cwp (xlocal x m) s Q.
Proof. intros St' A x m s Q W k. specialize (W k). unfold xlocal. destruct (m x k) as [[[a|e] s'] k']; exact W. Qed.
Lemma cwp_relocate : forall nothrow n s (Q : nat -> unit -> St -> Prop), Q (bringing nothrow n) tt s -> cwp (relocate ok nothrow n) s Q.
Proof. intros [|] n s Q H; [apply cwp_ret|apply cwp_events]; exact H. Qed.
Lemma cwp_vnew : forall T (l : list T) s (Q : nat -> rvec T -> St -> Prop), Q (creating (length l)) (Rvec l (length l)) s -> cwp (vnew ok l) s Q.
Proof.
  intros T l s Q H. unfold vnew. destruct l as [|x l]; [apply cwp_ret; exact H|].
  apply cwp_bind, cwp_event, cwp_bind, cwp_events, cwp_ret. cbn [length] in *. cbn [creating] in H. rewrite Nat.add_0_r. exact H.
Qed.
End CRules.

Section Counts.
Context {T : Type}.
Variables (ok : nat -> bool) (grow : nat -> nat -> nat) (nothrow : bool) (moved : T -> T).
Variables (eqb lt : T -> T -> bool) (show : T -> list ascii) (d : T).
Notation step := (flstep ok grow nothrow moved eqb lt show d).
Notation inserting := (inserting nothrow).
Notation appending := (appending nothrow).
Notation pushing := (pushing grow nothrow).
Notation event_count := (event_count grow nothrow).

Lemma ltb_Z : forall a b, (Z.of_nat a <? Z.of_nat b) = Nat.ltb a b.
Proof. intros a b. destruct (Nat.ltb_spec a b); destruct (Z.ltb_spec (Z.of_nat a) (Z.of_nat b)); try reflexivity; lia. Qed.
Lemma leb_Z : forall a b, (Z.of_nat a <=? Z.of_nat b) = Nat.leb a b.
Proof. intros a b. destruct (Nat.leb_spec a b); destruct (Z.leb_spec (Z.of_nat a) (Z.of_nat b)); try reflexivity; lia. Qed.

Lemma cwp_insert1 : forall i x (v : rvec T) (Q : nat -> unit -> rvec T -> Prop),
  Q (inserting (length (relems v)) (rroom v)) tt
    (Rvec (firstn i (relems v) ++ x :: skipn i (relems v)) (if Nat.ltb (length (relems v)) (rroom v) then rroom v else grow (length (relems v)) 1%nat)) ->
  cwp (vinsert1 ok grow nothrow i x) v Q.
Proof.
  intros i x v Q H. unfold vinsert1. unfold ListFailSpec.inserting in H. rewrite ltb_Z in H. apply cwp_bind, cwp_get. destruct (Nat.ltb _ _).
  - apply cwp_bind, cwp_event, cwp_put. exact H.
  - apply cwp_bind, cwp_event, cwp_bind, cwp_event, cwp_bind, cwp_relocate, cwp_put. rewrite Nat.add_0_r. exact H.
Qed.
Lemma cwp_push : forall x (v : rvec T) (Q : nat -> unit -> rvec T -> Prop),
  Q (inserting (length (relems v)) (rroom v)) tt
    (Rvec (relems v ++ [x]) (if Nat.ltb (length (relems v)) (rroom v) then rroom v else grow (length (relems v)) 1%nat)) ->
  cwp (vpush ok grow nothrow x) v Q.
Proof.
  intros x v Q H. unfold vpush. apply cwp_bind, cwp_get, cwp_insert1. rewrite firstn_all, skipn_all. exact H.
Qed.
Lemma cwp_append : forall l (v : rvec T) (Q : nat -> unit -> rvec T -> Prop),
  (forall r, Q (appending (length (relems v)) (rroom v) (length l)) tt (Rvec (relems v ++ l) r)) ->
  cwp (vappend ok grow nothrow moved l) v Q.
Proof.
  intros l v Q H. unfold vappend. destruct l as [|x l].
  { apply cwp_ret. specialize (H (rroom v)). rewrite app_nil_r in H. destruct v. exact H. }
  remember (x :: l) as w eqn:Ew. assert (AP : forall n r, appending n r (length w) = if (Z.of_nat (n + length w) <=? Z.of_nat r) then length w else S (bringing nothrow n + length w)) by (intros; subst w; reflexivity).
  clear Ew. rewrite AP, leb_Z in H. apply cwp_bind, cwp_get. destruct (Nat.leb _ _).
  - apply cwp_bind, cwp_events, cwp_put. rewrite Nat.add_0_r. apply H.
  - apply cwp_bind, cwp_event, cwp_bind, cwp_relocate, cwp_bind.
    destruct nothrow.
    + apply cwp_put, cwp_bind, cwp_events, cwp_put. specialize (H (grow (length (relems v)) (length w))). cbn [bringing] in *.
      rewrite Nat.add_0_r. exact H.
    + apply cwp_ret, cwp_bind, cwp_events, cwp_put. specialize (H (grow (length (relems v)) (length w))). cbn [bringing] in *.
      rewrite Nat.add_0_r. exact H.
Qed.
Lemma cwp_assign_loop : forall n done todo (v : rvec T) (Q : nat -> unit -> rvec T -> Prop), (n <= length todo)%nat ->
  (forall v', rroom v' = rroom v -> Q n tt v') -> cwp (vassign_loop ok n done todo) v Q.
Proof.
  induction n as [|n IH]; intros done todo v Q L H; cbn [vassign_loop]; [apply cwp_ret, H; reflexivity|].
  destruct todo as [|x todo]; cbn [length] in L; [lia|].
  apply cwp_bind, cwp_event, cwp_bind, cwp_get, cwp_bind, cwp_put, IH; [lia|]. intros v' R. cbn [plus]. apply H. exact R.
Qed.
Lemma cwp_assign : forall l (v : rvec T) (Q : nat -> unit -> rvec T -> Prop),
  (forall v', Q (if Nat.leb (length l) (rroom v) then length l else S (length l)) tt v') -> cwp (vassign ok l) v Q.
Proof.
  intros l v Q H. unfold vassign. apply cwp_bind, cwp_get. rewrite Nat.ltb_antisym. destruct (Nat.leb _ _); cbn [negb].
  - apply cwp_bind, cwp_assign_loop; [lia|]. intros v' R. apply cwp_bind, cwp_events, cwp_put.
    match goal with |- Q ?n _ _ => replace n with (length l) by lia end. apply H.
  - apply cwp_bind, cwp_event, cwp_bind, cwp_events, cwp_put. rewrite Nat.add_0_r. apply H.
Qed.
Lemma cwp_calm : forall A (f : M (list T) A) (v : rvec T) (Q : nat -> A -> rvec T -> Prop),
  (forall a l, f (relems v) = (Ok a, l) -> Q 0%nat a (Rvec l (rroom v))) -> cwp (vcalm f) v Q.
Proof.
  intros A f v Q H k. unfold vcalm. destruct (f (relems v)) as [[a|e|u|] l]; try exact Logic.I.
  exists 0%nat. split; [lia|]. apply H. reflexivity.
Qed.

Ltac lifted := repeat match goal with
  | |- cwp (xbind xget _) _ _ => apply cwp_bind, cwp_get
  | |- cwp (xbind (xlift _) _) _ _ => apply cwp_bind, cwp_lift; intros ? ?
  end.

Lemma set_count : forall i x (v : rvec T), cwp (fl_set ok i x) v (fun n _ _ => n = 1%nat).
Proof. intros i x v. unfold fl_set. lifted. apply cwp_bind, cwp_event, cwp_calm. reflexivity. Qed.
Lemma insert_count : forall i x (v : rvec T), cwp (fl_insert ok grow nothrow i x) v (fun n _ _ => n = inserting (length (relems v)) (rroom v)).
Proof.
  intros i x v. unfold fl_insert. lifted. destruct (_ || _); [apply cwp_lift; discriminate|]. apply cwp_insert1. reflexivity.
Qed.
Lemma insert_elem_count : forall i k (v : rvec T), cwp (fl_insert_elem ok grow nothrow i k) v (fun n _ _ => n = inserting (length (relems v)) (rroom v)).
Proof. intros i k v. unfold fl_insert_elem. lifted. apply insert_count. Qed.
Lemma append_count : forall x (v : rvec T), cwp (fl_append ok grow nothrow x) v (fun n _ v' => n = inserting (length (relems v)) (rroom v) /\ relems v' = relems v ++ [x]).
Proof. intros x v. unfold fl_append. lifted. apply cwp_push. auto. Qed.
Lemma append_list_count : forall w self (v : rvec T), cwp (fl_append_list ok grow nothrow moved w self) v
  (fun n _ v' => n = appending (length (relems v)) (rroom v) (length w) /\ relems v' = relems v ++ w).
Proof.
  intros w self v. unfold fl_append_list. lifted. destruct self; [apply cwp_lift; discriminate|]. apply cwp_append. auto.
Qed.
Lemma filter_count : forall p (v : rvec T), cwp (fl_filter ok p) v (fun n _ _ => n = length (filter p (relems v))).
Proof.
  intros p v. unfold fl_filter. apply cwp_bind, cwp_get, cwp_bind.
  assert (G : forall n i x, (i + n = length (relems v))%nat -> relems x = filter p (firstn i (relems v)) ++ skipn (length (filter p (firstn i (relems v)))) (relems v) ->
    cwp (fl_filter_loop ok p n (Z.of_nat i) (len (filter p (firstn i (relems v))))) x (fun m _ _ => m = length (filter p (skipn i (relems v))))).
  { intros n. induction n as [|n IH]; intros i x Ln Ev; cbn [fl_filter_loop].
    { apply cwp_ret. rewrite skipn_all2 by lia. reflexivity. }
    set (kept := filter p (firstn i (relems v))) in *.
    assert (LK : (length kept <= i)%nat) by (unfold kept; etransitivity; [apply kept_le|]; rewrite firstn_length; lia).
    destruct (nth_error (relems v) i) as [y|] eqn:Ny; [|apply nth_error_None in Ny; lia].
    assert (VA : vat (relems x) (Z.of_nat i) = Ok y).
    { unfold vat. destruct (Z.of_nat i <? 0) eqn:E; [lia|]. rewrite Nat2Z.id, Ev, mix_nth, Ny by assumption. reflexivity. }
    assert (F1 : firstn (S i) (relems v) = firstn i (relems v) ++ [y]) by (apply firstn_S_nth; assumption).
    apply cwp_bind, cwp_get, cwp_bind, cwp_lift. rewrite VA. intros a Ea. injection Ea as <-.
    rewrite (skipn_S_nth _ _ _ _ Ny). cbn [filter]. replace (Z.of_nat i + 1) with (Z.of_nat (S i)) by lia.
    destruct (p y) eqn:Py.
    - assert (K1 : filter p (firstn (S i) (relems v)) = kept ++ [y]) by (rewrite F1, filter_app; cbn; rewrite Py; reflexivity).
      assert (LL : (length kept < length (relems v))%nat) by (assert (i < length (relems v))%nat by (apply nth_error_Some; congruence); lia).
      assert (VP : vput (relems x) (len kept) y = Ok (kept ++ y :: skipn (S (length kept)) (relems v))).
      { unfold vput, len. rewrite Nat2Z.id.
        assert (L1 : length (relems x) = length (relems v)) by (rewrite Ev, app_length, skipn_length; lia).
        destruct (_ || _) eqn:E; [rewrite L1 in E; lia|]. f_equal. rewrite Ev, firstn_app, firstn_all, Nat.sub_diag. cbn [firstn]. rewrite app_nil_r.
        f_equal. f_equal. rewrite skipn_app, (skipn_all2 kept) by lia. cbn [app].
        replace (S (length kept) - length kept)%nat with 1%nat by lia. apply skipn_1. }
      apply cwp_bind, cwp_event, cwp_bind, cwp_calm. intros [] l'. unfold update. rewrite VP. intros X.
      assert (El : l' = kept ++ y :: skipn (S (length kept)) (relems v)) by congruence. subst l'.
      replace (len kept + 1) with (len (filter p (firstn (S i) (relems v)))) by (rewrite K1; unfold len; rewrite app_length; cbn; lia).
      eapply cwp_mono; [apply (IH (S i))|].
      + lia.
      + cbn [relems]. rewrite K1, app_length, <- app_assoc. cbn [length app]. rewrite Nat.add_1_r. reflexivity.
      + intros m a s' ->. cbn [length]. lia.
    - assert (K1 : filter p (firstn (S i) (relems v)) = kept) by (rewrite F1, filter_app; cbn; rewrite Py, app_nil_r; reflexivity).
      replace (len kept) with (len (filter p (firstn (S i) (relems v)))) by (rewrite K1; reflexivity).
      eapply cwp_mono; [apply (IH (S i)); [lia|rewrite K1; exact Ev]|]. intros m a s' ->. reflexivity. }
  eapply cwp_mono; [apply (G (length (relems v)) 0%nat v); [lia|reflexivity]|]. intros m a s' ->. apply cwp_calm. intros _ l' _. rewrite Nat.add_0_r. reflexivity.
Qed.

(** Pushing one after the other *)
Definition room_after (b : rvec T) : nat := if Nat.ltb (length (relems b)) (rroom b) then rroom b else grow (length (relems b)) 1%nat.
Lemma uniq_count : forall l (b : rvec T), cwp (fl_uniq_loop ok grow nothrow eqb l) b
  (fun n _ b' => exists m, length (relems b') = (length (relems b) + m)%nat /\ n = pushing m (length (relems b)) (rroom b)).
Proof.
  induction l as [|x l IH]; intros b; cbn [fl_uniq_loop]; [apply cwp_ret; exists 0%nat; split; [lia|reflexivity]|].
  apply cwp_bind, cwp_get, cwp_bind. destruct (Nat.eqb _ _).
  - apply cwp_push. eapply cwp_mono; [apply IH|]. cbv beta. intros n a b' (m & L & ->). exists (S m). cbn [relems rroom] in *.
    rewrite app_length in *. cbn [length] in *. split; [lia|]. cbn [ListFailSpec.pushing]. rewrite ltb_Z. rewrite Nat.add_1_r. reflexivity.
  - apply cwp_ret. apply IH.
Qed.
Lemma uniquify_count : forall (v : rvec T), cwp (fl_uniquify ok grow nothrow eqb) v (fun n _ v' => n = pushing (length (relems v')) 0 0).
Proof.
  intros v. unfold fl_uniquify. apply cwp_bind, cwp_get, cwp_bind, cwp_local. eapply cwp_mono; [apply uniq_count|].
  cbv beta. intros n [] b (m & L & ->). apply cwp_put. cbn [snd relems length rroom] in *. rewrite L. rewrite Nat.add_0_r. reflexivity.
Qed.
Lemma slice_loop_count : forall l stop st fuel i (b : rvec T), cwp (fl_slice_loop ok grow nothrow l stop st fuel i) b
  (fun n _ b' => exists m, length (relems b') = (length (relems b) + m)%nat /\ n = pushing m (length (relems b)) (rroom b)).
Proof.
  intros l stop st. induction fuel as [|f IH]; intros i b; cbn [fl_slice_loop]; [apply cwp_lift; discriminate|].
  destruct (if 0 <? st then i <? stop else stop <? i); [|apply cwp_ret; exists 0%nat; split; [lia|reflexivity]]. lifted.
  apply cwp_bind, cwp_push. lifted. eapply cwp_mono; [apply IH|]. cbv beta. intros n a' b' (m & L & ->). exists (S m). cbn [relems rroom] in *.
  rewrite app_length in *. cbn [length] in *. split; [lia|]. cbn [ListFailSpec.pushing]. rewrite ltb_Z. rewrite Nat.add_1_r. cbn [plus]. reflexivity.
Qed.
Lemma slice_count : forall St (l : list T) a b st (s : St), cwp (fl_slice ok grow nothrow l a b st) s
  (fun n r _ => n = (pushing (length (relems r)) 0 0 + creating (length (relems r)))%nat).
Proof.
  intros St l a b st s. unfold fl_slice. destruct (st =? 0); [apply cwp_lift; discriminate|]. lifted.
  apply cwp_bind, cwp_local. eapply cwp_mono; [apply slice_loop_count|]. cbv beta. intros n [] x (m & L & ->). apply cwp_vnew.
  cbn [snd relems length rroom plus] in *. rewrite L. reflexivity.
Qed.

Lemma times_loop_count : forall St (l : list T) n part buffer (s : St), cwp (fl_times_loop ok l n part buffer) s
  (fun m b _ => m = (n * length l)%nat /\ length b = length buffer).
Proof.
  intros St l. induction n as [|n IH]; intros part buffer s; cbn [fl_times_loop]; [apply cwp_ret; auto|]. lifted.
  apply cwp_bind, cwp_events. eapply cwp_mono; [apply IH|]. cbv beta. intros m b s' (-> & L). cbn [plus]. split; [lia|]. rewrite L.
  match goal with H : std_copy _ _ _ = Ok _ |- _ => unfold std_copy in H; destruct (_ || _) eqn:E in H; [discriminate|]; injection H as <- end.
  unfold len in *. rewrite !app_length, firstn_length, skipn_length. lia.
Qed.
Lemma times_count : forall St (l : list T) n (s : St), len l <= INT_MAX -> cwp (fl_times ok d l n) s
  (fun m _ _ => m = (2 * creating (Z.to_nat n * length l) + Z.to_nat n * length l)%nat).
Proof.
  intros St l n s L. unfold fl_times. destruct (n <? 0) eqn:N; [apply cwp_lift; discriminate|]. lifted.
  destruct (a <? 0) eqn:A; [apply cwp_lift; discriminate|].
  assert (EA : Z.to_nat a = (Z.to_nat n * length l)%nat).
  { rewrite size_ok in * by assumption. unfold chk32 in *. destruct (in_int (len l * n)); [|discriminate]. match goal with H : Ok _ = Ok a |- _ => injection H as <- end. unfold len. lia. }
  apply cwp_bind, cwp_vnew. cbn [relems]. apply cwp_bind. eapply cwp_mono; [apply times_loop_count|]. cbv beta. intros m b s' (-> & Lb).
  apply cwp_vnew. rewrite Lb, repeat_length, EA. lia.
Qed.

Lemma on_copy_count : forall St (m : xm (rvec T) unit) (l : list T) (s : St) (P : nat -> nat -> Prop),
  (cwp m (Rvec l (length l)) (fun n _ v' => P n (length (relems v')))) ->
  cwp (fl_on_copy ok l m) s (fun n r _ => exists i, P i (length (relems r)) /\ n = (creating (length l) + i + creating (length (relems r)))%nat).
Proof.
  intros St m l s P W. unfold fl_on_copy. apply cwp_bind, cwp_vnew, cwp_bind, cwp_local. eapply cwp_mono; [apply W|].
  cbv beta. intros n [] v' H. apply cwp_vnew. cbn [snd relems]. exists n. split; [exact H|lia].
Qed.

(** ** Statements *)
Lemma call_count : forall A (m : xm (rvec T) A) s v k out s' k' ev Q, cwp m (s v) (fun n _ x' => Q n x') ->
  flcall s v k m out = Ok (s', k', ev) -> normal ev -> exists n, k' = (k + n)%nat /\ Q n (s' v).
Proof.
  intros A m s v k out s' k' ev Q W E N. unfold flcall in E. specialize (W k). destruct (m (s v) k) as [[[a|f] x] k2].
  - injection E as <- <- <-. destruct W as (n & -> & W). exists n. split; [reflexivity|]. unfold flset. rewrite Nat.eqb_refl. exact W.
  - destruct f; cbn [flend] in E; try discriminate; injection E as <- <- <-; destruct (N _ (or_introl eq_refl)).
Qed.
Lemma assign_count : forall (m : xm unit (rvec T)) s u k s' k' ev Q, cwp m tt (fun n x' _ => Q n x') ->
  flassign s u k m = Ok (s', k', ev) -> normal ev -> exists n, k' = (k + n)%nat /\ Q n (s' u).
Proof.
  intros m s u k s' k' ev Q W E N. unfold flassign in E. specialize (W k). destruct (m tt k) as [[[a|f] x] k2].
  - injection E as <- <- <-. destruct W as (n & -> & W). exists n. split; [reflexivity|]. unfold flset. rewrite Nat.eqb_refl. exact W.
  - destruct f; cbn [flend] in E; try discriminate; injection E as <- <- <-; destruct (N _ (or_introl eq_refl)).
Qed.

Theorem counted : forall c s k s' k' ev, sized (contents s) -> step c s k = Ok (s', k', ev) -> normal ev -> k' = (k + event_count c s s')%nat.
Proof.
  intros c s k s' k' ev Z E N.
  assert (CA : eventless c -> k' = k).
  { intros X. pose proof (no_events ok grow nothrow moved eqb lt show d c s k X) as H. rewrite E in H. tauto. }
  destruct c; cbn [ListFailSpec.event_count];
  try (rewrite Nat.add_0_r; apply CA; exact Logic.I); cbn [flstep] in E.
  - eapply (assign_count _ _ _ _ _ _ _ (fun n _ => n = creating (length xs))) in E; [|apply cwp_vnew; reflexivity|exact N]. destruct E as (n & -> & ->). reflexivity.
  - destruct (Nat.eqb v w); [injection E as <- <- <-; lia|]. rewrite leb_Z.
    eapply (call_count _ _ _ _ _ _ _ _ _ (fun n _ => n = _)) in E; [|apply cwp_assign; intros; reflexivity|exact N]. destruct E as (n & -> & ->). reflexivity.
  - eapply (call_count _ _ _ _ _ _ _ _ _ (fun n _ => n = _)) in E; [|apply set_count|exact N]. destruct E as (n & -> & ->). reflexivity.
  - eapply (call_count _ _ _ _ _ _ _ _ _ (fun n _ => n = _)) in E; [|apply insert_count|exact N]. destruct E as (n & -> & ->). reflexivity.
  - eapply (call_count _ _ _ _ _ _ _ _ _ (fun n _ => n = _)) in E; [|apply insert_elem_count|exact N]. destruct E as (n & -> & ->). reflexivity.
  - eapply (call_count _ _ _ _ _ _ _ _ _ (fun n _ => n = _)) in E; [|eapply cwp_mono; [apply append_count|]; intros n a x' (H & _); exact H|exact N]. destruct E as (n & -> & ->). reflexivity.
  - eapply (call_count _ _ _ _ _ _ _ _ _ (fun n _ => n = _)) in E; [|eapply cwp_mono; [apply append_list_count|]; intros n a x' (H & _); exact H|exact N]. destruct E as (m & -> & ->). reflexivity.
  - eapply (call_count _ _ _ _ _ _ _ _ _ (fun n _ => n = _)) in E; [| |exact N].
    2:{ unfold fl_times_assign. apply cwp_bind, cwp_get, cwp_bind. eapply cwp_mono; [apply times_count; apply Z|]. cbv beta. intros m r x' H.
        apply cwp_put. cbn [plus]. rewrite Nat.add_0_r. exact H. }
    destruct E as (m & -> & ->). reflexivity.
  - eapply (call_count _ _ _ _ _ _ _ _ _ (fun n x' => n = pushing (length (relems x')) 0 0)) in E; [|apply uniquify_count|exact N]. destruct E as (m & -> & ->). reflexivity.
  - eapply (call_count _ _ _ _ _ _ _ _ _ (fun n _ => n = _)) in E; [|apply filter_count|exact N]. destruct E as (m & -> & ->). reflexivity.
  - pose proof (Z v) as Zv. pose proof (Z w) as Zw. unfold contents in Zv, Zw. rewrite !size_ok in E by assumption.
    destruct (_ <=? _) eqn:H.
    + destruct (Nat.eqb v w); [discriminate|]. destruct (_ <? _) eqn:H'; [unfold len in *; lia|].
      eapply (call_count _ _ _ _ _ _ _ _ _ (fun n _ => n = _)) in E; [|apply cwp_append; intros; reflexivity|exact N]. destruct E as (m & -> & ->). reflexivity.
    + injection E as <- <- <-. destruct (_ <? _) eqn:H'; [lia|unfold len in *; lia].
  - eapply (assign_count _ _ _ _ _ _ _ (fun n x' => n = (pushing (length (relems x')) 0 0 + creating (length (relems x')))%nat)) in E; [|apply slice_count|exact N]. destruct E as (m & -> & ->). reflexivity.
  - eapply (assign_count _ _ _ _ _ _ _ _) in E; [| |exact N].
    2:{ apply (on_copy_count _ _ _ _ (fun i n => i = appending (length (relems (s v))) (length (relems (s v))) (length (relems (s w))) /\ n = (length (relems (s v)) + length (relems (s w)))%nat)).
        eapply cwp_mono; [apply append_list_count|]. cbv beta. intros n a x' (-> & ->). split; [reflexivity|]. cbn [relems]. apply app_length. }
    destruct E as (m & -> & i & (-> & L) & ->). rewrite L. reflexivity.
  - eapply (assign_count _ _ _ _ _ _ _ _) in E; [| |exact N].
    2:{ apply (on_copy_count _ _ _ _ (fun i n => i = inserting (length (relems (s v))) (length (relems (s v))) /\ n = S (length (relems (s v))))).
        eapply cwp_mono; [apply append_count|]. cbv beta. intros n a x' (-> & ->). split; [reflexivity|]. cbn [relems]. rewrite app_length. cbn. lia. }
    destruct E as (m & -> & i & (-> & L) & ->). rewrite L. reflexivity.
  - eapply (assign_count _ _ _ _ _ _ _ _) in E; [| |exact N].
    2:{ apply (on_copy_count _ _ _ _ (fun i n => i = 0%nat)). apply cwp_calm. reflexivity. }
    destruct E as (m & -> & i & -> & ->). lia.
  - eapply (assign_count _ _ _ _ _ _ _ _) in E; [| |exact N].
    2:{ apply (on_copy_count _ _ _ _ (fun i n => i = 0%nat)). apply cwp_calm. reflexivity. }
    destruct E as (m & -> & i & -> & ->). lia.
  - eapply (assign_count _ _ _ _ _ _ _ (fun n _ => n = _)) in E; [|apply times_count; apply Z|exact N]. destruct E as (m & -> & ->). reflexivity.
Qed.
End Counts.

(** ** Particular cases and witnesses *)
Section Particular.
Context {T : Type}.
Variables (ok : nat -> bool) (grow : nat -> nat -> nat) (nothrow : bool) (moved : T -> T).
Variables (eqb lt : T -> T -> bool) (show : T -> list ascii) (d : T).
Notation step := (flstep ok grow nothrow moved eqb lt show d).

Theorem plus_counted : forall u v x s k s' k' ev, sized (contents s) -> nothrow = true -> contents s v <> [] ->
  step (LPlusElem u v x) s k = Ok (s', k', ev) -> normal ev -> k' = (k + 2 * length (contents s v) + 5)%nat.
Proof.
  intros u v x s k s' k' ev Z N NE E No. apply counted in E; [|assumption|assumption]. rewrite E. unfold contents in *.
  cbn [event_count]. unfold inserting, bringing. rewrite N, ltb_Z. destruct (Nat.ltb_spec (length (relems (s v))) (length (relems (s v)))); [lia|].
  destruct (relems (s v)) as [|y l]; [contradiction|]. cbn [length creating]. lia.
Qed.
Theorem times_counted : forall v n s k s' k' ev, sized (contents s) -> 0 < n -> contents s v <> [] ->
  step (LTimes v n) s k = Ok (s', k', ev) -> normal ev -> k' = (k + 3 * (Z.to_nat n * length (contents s v)) + 2)%nat.
Proof.
  intros v n s k s' k' ev Z N NE E No. apply counted in E; [|assumption|assumption]. rewrite E. unfold contents in *. cbn [event_count].
  assert (P : (0 < Z.to_nat n * length (relems (s v)))%nat).
  { destruct (relems (s v)); [contradiction|]. cbn [length]. lia. }
  destruct (Z.to_nat n * length (relems (s v)))%nat; [lia|]. cbn [creating]. lia.
Qed.
End Particular.

Lemma copy_witness : exists ok grow moved (s : flstore) s' k' n,
  (forall v, (length (relems (s v)) <= rroom (s v))%nat) /\
  flstep ok grow true moved Z.eqb Z.ltb (fun _ => []) 0 (LCopy 0%nat 1%nat) s 0%nat = Ok (s', k', [FFailed n]) /\
  contents s 0%nat = [1; 2; 3] /\ contents s 1%nat = [4; 5] /\ contents s' 0%nat = [4; 2; 3].
Proof.
  exists (fun k => negb (Nat.eqb k 1)), (fun n m => (n + m)%nat), (fun _ => 0), (fun v => match v with O => Rvec [1; 2; 3] 3 | _ => Rvec [4; 5] 2 end).
  do 3 eexists. split; [intros [|v]; cbn; lia|]. split; [reflexivity|]. split; [reflexivity|]. split; reflexivity.
Qed.
Lemma filter_witness : exists ok grow moved (s : flstore) s' k' n,
  (forall v, (length (relems (s v)) <= rroom (s v))%nat) /\
  flstep ok grow true moved Z.eqb Z.ltb (fun _ => []) 0 (LFilter 0%nat Z.even) s 0%nat = Ok (s', k', [FFailed n]) /\
  contents s 0%nat = [1; 2; 4; 5] /\ contents s' 0%nat = [2; 2; 4; 5].
Proof.
  exists (fun k => negb (Nat.eqb k 1)), (fun n m => (n + m)%nat), (fun _ => 0), (fun v => Rvec [1; 2; 4; 5] 4).
  do 3 eexists. split; [intros v; cbn; lia|]. split; [reflexivity|]. split; reflexivity.
Qed.
Lemma append_witness : exists ok grow (s : flstore) n,
  (forall v, (length (relems (s v)) <= rroom (s v))%nat) /\ contents s 0%nat = [1; 2] /\ contents s 1%nat = [3] /\
  (exists s' k', flstep ok grow true (fun _ => 0) Z.eqb Z.ltb (fun _ => []) 0 (LAppendList 0%nat 1%nat) s 0%nat = Ok (s', k', [FFailed n]) /\ contents s' 0%nat = [0; 0]) /\
  (exists s' k', flstep ok grow true (fun _ => 0) Z.eqb Z.ltb (fun _ => []) 0 (LExtend 0%nat 1%nat) s 0%nat = Ok (s', k', [FFailed n]) /\ contents s' 0%nat = [0; 0]).
Proof.
  exists (fun k => negb (Nat.eqb k 1)), (fun n m => (n + m)%nat), (fun v => match v with O => Rvec [1; 2] 2 | _ => Rvec [3] 1 end), 1%nat.
  split; [intros [|v]; cbn; lia|]. split; [reflexivity|]. split; [reflexivity|].
  split; (do 2 eexists; split; [vm_compute; reflexivity|reflexivity]).
Qed.
