(** Proofs about references into Deques. *)
From Coq Require Import ZArith List Bool Ascii Lia.
From Verif Require Import Outcome ListModel ListSpec ListFacts ListMore ListProg DequeModel DequeSpec DequeFacts ListRefModel ListRefSpec ListRef
  DequeRefModel DequeRefSpec UndefSpec UndefFacts.
Import ListNotations.
Open Scope Z_scope.

Section Ref.
Context {T : Type} (eqb : T -> T -> bool) (show : T -> list ascii).
Hypothesis D : decides eqb.
Notation state := (qstate T).
Implicit Types (h : state) (s t : dstore T) (P : nat -> lptr).
Notation step := (dstep eqb show).
Notation spec := (qstep show).

(** ** The statements look at the contents of the variables only *)

Lemma dset_same : forall s v x u, dset s v x u = if Nat.eqb u v then x else s u.
Proof. reflexivity. Qed.
Lemma dset_ext : forall s t v x, (forall u, s u = t u) -> forall u, dset s v x u = dset t v x u.
Proof. intros s t v x E u. rewrite !dset_same, E. auto. Qed.
Lemma dset_other : forall s v x u, u <> v -> dset s v x u = s u.
Proof. intros s v x u N. rewrite dset_same. destruct (Nat.eqb_spec u v); congruence. Qed.

Definition dalike (o o' : outcome (dstore T * list (devent T))) : Prop :=
  match o, o' with
  | Ok (s, ev), Ok (t, ev') => (forall u, s u = t u) /\ ev = ev'
  | Throw e, Throw e' => e = e'
  | UB a, UB b => a = b
  | OutOfFuel, OutOfFuel => True
  | _, _ => False
  end.
Lemma dalike_call : forall A s t v (m : M (list T) A) out, (forall u, s u = t u) -> dalike (dcall s v m out) (dcall t v m out).
Proof.
  intros A s t v m out E. unfold dcall. rewrite E. destruct (m (t v)) as [[a|e|u|] l]; cbn [dalike]; auto using dset_ext.
Qed.
Lemma dalike_emit : forall A s t (o : outcome A) ev, (forall u, s u = t u) -> dalike (demit s o ev) (demit t o ev).
Proof. intros A s t o ev E. unfold demit. destruct o; cbn [dalike]; auto. Qed.

Lemma dstep_alike : forall c s t, (forall u, s u = t u) -> dalike (step c s) (step c t).
Proof.
  intros c s t E. destruct c; cbn [dstep]; rewrite <- ?E; try (apply dalike_call; exact E); try (apply dalike_emit; exact E).
  - cbn [dalike]. auto using dset_ext.
  - cbn [dalike]. auto using dset_ext.
  - destruct (Nat.eqb v w); cbn [dalike]; auto. split; auto. intros u. apply dset_ext, dset_ext. auto.
  - destruct (_ <=? _); [|cbn [dalike]; auto]. destruct (Nat.eqb v w); [reflexivity|apply dalike_call; exact E].
  - destruct (_ <=? _); [|cbn [dalike]; auto]. destruct (Nat.eqb v w); [reflexivity|apply dalike_call; exact E].
Qed.
Lemma dstep_ext : forall c s t s' ev, (forall u, s u = t u) -> step c s = Ok (s', ev) -> exists t', step c t = Ok (t', ev) /\ forall u, s' u = t' u.
Proof.
  intros c s t s' ev E R. pose proof (dstep_alike c s t E) as A. rewrite R in A. cbn [dalike] in A.
  destruct (step c t) as [[t' ev']|?|?|]; try contradiction. destruct A as (A & ->). eauto.
Qed.
Lemma dstep_ext_ub : forall c s t u, (forall u, s u = t u) -> step c s = UB u -> step c t = UB u.
Proof.
  intros c s t u E R. pose proof (dstep_alike c s t E) as A. rewrite R in A. cbn [dalike] in A.
  destruct (step c t) as [[t' ev']|?|?|]; try contradiction. congruence.
Qed.

Lemma dop_ext : forall c s t, (forall u, s u = t u) -> dop_of c s = dop_of c t.
Proof. intros c s t E. destruct c; cbn [dop_of]; rewrite ?E; auto. Qed.
Lemma dapply_ext : forall o s t h, (forall u, s u = t u) -> dapply o s h = dapply o t h.
Proof. intros o s t h E. destruct o; cbn [dapply]; rewrite ?E; auto. Qed.

(** ** Objects *)

Definition qptr_ok h (p : lptr) (o : option nat) : Prop :=
  match p with
  | LNull => o = None
  | LTo v i => exists a, o = Some a /\ nth_error (qa h v) i = Some a
  | LGone => exists a, o = Some a /\ ql h a = false /\ (a < qn h)%nat
  end.
Record qgood h : Prop := {
  qg_live : forall v a, In a (qa h v) -> ql h a = true;
  qg_one : forall v w i j a, nth_error (qa h v) i = Some a -> nth_error (qa h w) j = Some a -> v = w /\ i = j;
  qg_old : forall a, ql h a = true -> (a < qn h)%nat
}.
Lemma qstands_good : forall h s P, qstands h s P -> qgood h.
Proof. intros h s P []. constructor; auto. Qed.
Lemma qstands_len : forall h s P v, qstands h s P -> length (qa h v) = length (s v).
Proof. intros h s P v S. rewrite <- (qs_view _ _ _ S v). unfold dview. rewrite map_length. auto. Qed.
Lemma qgood_nodup : forall h v, qgood h -> NoDup (qa h v).
Proof.
  intros h v G. apply NoDup_nth_error. intros i j L E. destruct (nth_error (qa h v) i) as [a|] eqn:N.
  - apply (qg_one h G v v i j a); auto.
  - apply nth_error_None in N. lia.
Qed.

(** The addresses after [keep]. *)
Definition qnews (v lo n front : nat) (xs : list T) h : list nat :=
  seq (qn h) front ++ firstn n (skipn lo (qa h v)) ++ seq (qn h + front) (length xs - front - n).
Lemma qa_keep : forall v lo n front xs h u, qa (keep v lo n front xs h) u = if Nat.eqb u v then qnews v lo n front xs h else qa h u.
Proof. reflexivity. Qed.

Lemma in_window : forall (l : list nat) lo n a, In a (firstn n (skipn lo l)) -> In a l.
Proof. intros l lo n a I. apply in_firstn in I. apply in_skipn in I. auto. Qed.

Lemma in_qnews : forall v lo n front xs h a, In a (qnews v lo n front xs h) ->
  In a (seq (qn h) (front + (length xs - front - n))) \/ In a (firstn n (skipn lo (qa h v))).
Proof.
  intros v lo n front xs h a I. unfold qnews in I. apply in_app_or in I. rewrite seq_app. destruct I as [I|I].
  - left. apply in_or_app. auto.
  - apply in_app_or in I. destruct I as [I|I]; auto. left. apply in_or_app. auto.
Qed.

Lemma q_old_not_new : forall h v a b n, qgood h -> In a (qa h v) -> (qn h <= b)%nat -> ~ In a (seq b n).
Proof. intros h v a b n G I L J. apply (qg_live h G) in I. apply (qg_old h G) in I. apply in_seq in J. lia. Qed.

Lemma skipn_nodup : forall A (l : list A) k, NoDup l -> NoDup (skipn k l).
Proof. induction l as [|x l IH]; intros [|k] N; cbn [skipn]; auto. inversion N; subst. auto. Qed.

Lemma qnews_nodup : forall v lo n front xs h, qgood h -> NoDup (qnews v lo n front xs h).
Proof.
  intros v lo n front xs h G. unfold qnews. apply nodup_app; [apply seq_NoDup|apply nodup_app|].
  - apply firstn_nodup, skipn_nodup, qgood_nodup; auto.
  - apply seq_NoDup.
  - intros a I. apply in_window in I. eapply q_old_not_new; eauto. lia.
  - intros a I J. apply in_app_or in J. destruct J as [J|J].
    + apply in_window in J. eapply q_old_not_new; eauto.
    + apply in_seq in I. apply in_seq in J. lia.
Qed.
Lemma qnews_len : forall v lo n front xs h, (lo + n <= length (qa h v))%nat -> (front + n <= length xs)%nat ->
  length (qnews v lo n front xs h) = length xs.
Proof. intros v lo n front xs h A B. unfold qnews. rewrite !app_length, firstn_length, skipn_length, !seq_length. lia. Qed.

Lemma qnews_other : forall v lo n front xs h u a, qgood h -> u <> v -> In a (qa h u) -> ~ In a (qnews v lo n front xs h).
Proof.
  intros v lo n front xs h u a G N I J. apply in_qnews in J. destruct J as [J|J]; [eapply q_old_not_new; eauto|].
  apply in_window in J. apply In_nth_error in I. destruct I as (i & I). apply In_nth_error in J. destruct J as (j & J).
  destruct (qg_one h G _ _ _ _ _ I J). auto.
Qed.

Lemma view_keep : forall v lo n front xs h, qgood h -> (lo + n <= length (qa h v))%nat -> (front + n <= length xs)%nat ->
  forall u, dview (keep v lo n front xs h) u = if Nat.eqb u v then xs else dview h u.
Proof.
  intros v lo n front xs h G A B u. unfold dview at 1. rewrite qa_keep. destruct (Nat.eqb_spec u v) as [->|N].
  - cbn [keep qm]. apply store_map; [apply qnews_nodup; auto|apply qnews_len; auto].
  - unfold dview. apply map_ext_in. intros a I. cbn [keep qm]. apply store_other. eapply qnews_other; eauto.
Qed.

(** An object of the window is not among those that end. *)
Lemma window_apart : forall (l : list nat) lo n a, NoDup l -> In a (firstn n (skipn lo l)) -> ~ In a (firstn lo l ++ skipn (lo + n) l).
Proof.
  intros l lo n a N I J. apply in_app_or in J. destruct J as [J|J].
  - apply (firstn_skipn_apart _ l lo a N J). eapply in_firstn; eauto.
  - replace (skipn (lo + n) l) with (skipn n (skipn lo l)) in J by (rewrite skipn_skipn; f_equal; lia).
    apply (firstn_skipn_apart _ (skipn lo l) n a); auto. apply skipn_nodup; auto.
Qed.

Lemma good_keep : forall v lo n front xs h, qgood h -> (lo + n <= length (qa h v))%nat -> (front + n <= length xs)%nat -> qgood (keep v lo n front xs h).
Proof.
  intros v lo n front xs h G A B. constructor.
  - intros u a I. rewrite qa_keep in I. cbn [keep ql]. destruct (Nat.eqb_spec u v) as [->|N].
    + apply in_qnews in I. destruct I as [I|I].
      * apply orb_true_iff. left. apply among_In. auto.
      * apply orb_true_iff. right. rewrite (qg_live h G v) by (eapply in_window; eauto). cbn [andb].
        apply negb_true_iff, among_not. apply window_apart; auto. apply qgood_nodup; auto.
    + apply orb_true_iff. right. rewrite (qg_live h G u) by auto. cbn [andb]. apply negb_true_iff, among_not. intros J.
      assert (J' : In a (qa h v)). { apply in_app_or in J. destruct J as [J|J]; [eapply in_firstn|eapply in_skipn]; eauto. }
      apply In_nth_error in I. destruct I as (i & I). apply In_nth_error in J'. destruct J' as (j & J').
      destruct (qg_one h G _ _ _ _ _ I J'). auto.
  - assert (X : forall i u j a, u <> v -> nth_error (qnews v lo n front xs h) i = Some a -> nth_error (qa h u) j = Some a -> False).
    { intros i u j a N I J. apply nth_error_In in I. apply nth_error_In in J. eapply qnews_other; eauto. }
    intros u w i j a I J. rewrite qa_keep in I, J. destruct (Nat.eqb_spec u v) as [->|Nu]; destruct (Nat.eqb_spec w v) as [->|Nw].
    + split; auto. pose proof (qnews_nodup v lo n front xs h G) as N. rewrite NoDup_nth_error in N. apply N; [|congruence].
      apply nth_error_Some. congruence.
    + exfalso. eapply X; eauto.
    + exfalso. eapply X; eauto.
    + eapply qg_one; eauto.
  - intros a I. cbn [keep ql qn] in *. apply orb_true_iff in I. destruct I as [I|I].
    + apply among_In, in_seq in I. lia.
    + apply andb_true_iff in I. destruct I as (I & _). apply (qg_old h G) in I. lia.
Qed.

Lemma nth_qnews : forall v lo n front xs h i a, (lo + n <= length (qa h v))%nat -> (lo <= i < lo + n)%nat -> nth_error (qa h v) i = Some a ->
  nth_error (qnews v lo n front xs h) (i - lo + front) = Some a.
Proof.
  intros v lo n front xs h i a A B N. unfold qnews. rewrite nth_error_app2 by (rewrite seq_length; lia). rewrite seq_length.
  rewrite nth_error_app1 by (rewrite firstn_length, skipn_length; lia).
  replace (i - lo + front - front)%nat with (i - lo)%nat by lia. rewrite nth_error_firstn_in by lia. rewrite nth_error_skipn_in.
  replace (lo + (i - lo))%nat with i by lia. auto.
Qed.

(** A pointer into the window moves with it; the other pointers into [v] are gone. *)
Definition win_ptr (v lo n front : nat) (p p' : lptr) : Prop :=
  match p with
  | LTo u i => (u = v /\ (lo <= i < lo + n)%nat /\ p' = LTo v (i - lo + front)) \/
               (u = v /\ ~ (lo <= i < lo + n)%nat /\ p' = LGone) \/ (u <> v /\ p' = LTo u i)
  | _ => p' = p
  end.

Lemma ptr_keep : forall v lo n front xs h p p' o, qgood h -> (lo + n <= length (qa h v))%nat -> (front + n <= length xs)%nat ->
  win_ptr v lo n front p p' -> qptr_ok h p o -> qptr_ok (keep v lo n front xs h) p' o.
Proof.
  intros v lo n front xs h p p' o G A B M O. destruct p as [|u i|]; cbn [win_ptr] in M.
  - subst p'. exact O.
  - destruct O as (a & -> & O). destruct M as [(-> & L & ->)|[(-> & L & ->)|(N & ->)]].
    + exists a. split; auto. rewrite qa_keep, Nat.eqb_refl. apply nth_qnews; auto.
    + exists a. split; auto. cbn [keep ql qn]. assert (I : In a (qa h v)) by (eapply nth_error_In; eauto). split.
      * apply orb_false_iff. split; [apply among_not; eapply q_old_not_new; eauto|].
        apply andb_false_iff. right. apply negb_false_iff, among_In. apply in_or_app.
        destruct (Nat.lt_ge_cases i lo) as [C|C].
        -- left. apply (nth_error_In (firstn lo (qa h v)) i). rewrite nth_error_firstn_in; auto.
        -- right. apply (nth_skipn _ (qa h v) (lo + n) i a); auto; lia.
      * apply (qg_live h G), (qg_old h G) in I. lia.
    + exists a. split; auto. rewrite qa_keep. destruct (Nat.eqb_spec u v); [contradiction|auto].
  - subst p'. destruct O as (a & -> & O & L). exists a. split; auto. cbn [keep ql qn]. split; [|lia].
    rewrite O. cbn [andb orb]. rewrite orb_false_r. apply among_not. intros I. apply in_seq in I. lia.
Qed.

(** ** Statements *)

Lemma keep_stands : forall v lo n front xs h s P s' P', qstands h s P -> dsized s' -> (lo + n <= length (s v))%nat -> (front + n <= length xs)%nat ->
  s' v = xs -> (forall u, u <> v -> s' u = s u) -> (forall r, win_ptr v lo n front (P r) (P' r)) -> qstands (keep v lo n front xs h) s' P'.
Proof.
  intros v lo n front xs h s P s' P' S Z A B X1 X2 M. pose proof (qstands_good _ _ _ S) as G.
  rewrite <- (qstands_len _ _ _ v S) in A. pose proof (good_keep v lo n front xs h G A B) as G'. constructor; try apply G'; auto.
  - intros u. rewrite view_keep by auto. destruct (Nat.eqb_spec u v) as [->|N]; auto. rewrite (qs_view _ _ _ S). symmetry. auto.
  - intros r. apply (ptr_keep v lo n front xs h (P r)); auto. apply S.
Qed.

Lemma dstay_stands : forall h s P s' P', qstands h s P -> (forall u, s' u = s u) -> dmeets DStay P P' -> qstands h s' P'.
Proof.
  intros h s P s' P' S X M. destruct S. constructor; auto.
  - intros v. rewrite X. auto.
  - intros v. rewrite X. auto.
  - intros r. specialize (M r). specialize (qs_ptr r). destruct (P r); rewrite M; auto.
Qed.

Lemma to_in : forall h s P r v i, qstands h s P -> P r = LTo v i -> (i < length (s v))%nat.
Proof.
  intros h s P r v i S E. pose proof (qs_ptr _ _ _ S r) as O. rewrite E in O. destruct O as (a & _ & O).
  rewrite <- (qstands_len _ _ _ v S). apply nth_error_Some. congruence.
Qed.

Lemma dmove_stands : forall v w h s P s' P', v <> w -> qstands h s P -> s' v = s w -> s' w = [] -> (forall u, u <> v -> u <> w -> s' u = s u) ->
  dmeets (DGiven v w) P P' -> qstands (dapply (KMove v w) s' h) s' P'.
Proof.
  intros v w h s P s' P' N S X1 X2 X3 M. cbn [dapply].
  assert (A : forall u, vset (vset (qa h) v (qa h w)) w [] u = if Nat.eqb u w then [] else if Nat.eqb u v then qa h w else qa h u) by reflexivity.
  pose proof (qstands_good _ _ _ S) as G. constructor; cbn [qa qm ql qn qr].
  - intros u. unfold dview. cbn [qa qm]. rewrite A. destruct (Nat.eqb_spec u w) as [->|Nw]; [cbn [map]; auto|].
    destruct (Nat.eqb_spec u v) as [->|Nv]; [rewrite X1|rewrite X3 by auto]; apply S.
  - intros u. destruct (Nat.eq_dec u w) as [->|Nw]; [rewrite X2; cbn; unfold INT_MAX; lia|].
    destruct (Nat.eq_dec u v) as [->|Nv]; [rewrite X1|rewrite X3 by auto]; apply S.
  - intros u a I. rewrite A in I. destruct (Nat.eqb_spec u w) as [->|Nw]; [contradiction|].
    assert (exists u', u' <> v /\ In a (qa h u')) as (u' & Nu & I') by (destruct (Nat.eqb_spec u v) as [->|Nv]; eauto).
    rewrite (qg_live h G u') by auto. cbn [andb]. apply negb_true_iff, among_not. intros J.
    apply In_nth_error in I'. destruct I' as (i & I'). apply In_nth_error in J. destruct J as (j & J). destruct (qg_one h G _ _ _ _ _ I' J). auto.
  - intros u u' i j a I J. rewrite A in I, J.
    destruct (Nat.eqb_spec u w) as [->|Nw]; [destruct i; discriminate|]. destruct (Nat.eqb_spec u' w) as [->|Nw']; [destruct j; discriminate|].
    destruct (Nat.eqb_spec u v) as [->|Nv]; destruct (Nat.eqb_spec u' v) as [->|Nv']; destruct (qg_one h G _ _ _ _ _ I J); subst; auto; congruence.
  - intros a I. apply andb_true_iff in I. destruct I as (I & _). apply (qg_old h G); auto.
  - intros r. specialize (M r). pose proof (qs_ptr _ _ _ S r) as O. destruct (P r) as [|u i|].
    + rewrite M. auto.
    + destruct O as (a & O & I). destruct M as [(-> & ->)|[(-> & M & ->)|(M1 & M2 & ->)]].
      * exists a. split; auto. apply nth_error_In in I. split.
        -- apply andb_false_iff. right. apply negb_false_iff, among_In. auto.
        -- apply (qg_old h G), (qg_live h G v). auto.
      * exists a. split; auto. rewrite A. destruct (Nat.eqb_spec v w); [congruence|]. rewrite Nat.eqb_refl. auto.
      * exists a. split; auto. rewrite A. destruct (Nat.eqb_spec u w); [congruence|]. destruct (Nat.eqb_spec u v); [congruence|]. auto.
    + rewrite M. destruct O as (a & O & L & B). exists a. split; auto. rewrite L. auto.
Qed.

Lemma q_do_apply : forall c h s P s' ev, qstands h s P -> dint_stmt c -> spec c s s' ev ->
  q_do eqb show c h = Ok (if dthrew ev then h else dapply (dop_of c s) s' h, ev).
Proof.
  intros c h s P s' ev S A H. pose proof (qcomplete eqb show D c s s' ev (qs_sized _ _ _ S) A H) as R.
  assert (E : forall u, s u = dview h u) by (intros u; symmetry; apply S).
  destruct (dstep_ext c s (dview h) s' ev E R) as (t' & R' & E'). unfold q_do. rewrite R'.
  rewrite (dop_ext c (dview h) s) by (intros; symmetry; auto). rewrite (dapply_ext _ t' s') by (intros; symmetry; auto). auto.
Qed.

Lemma dset_id : forall s v u, dset s v (s v) u = s u.
Proof. intros s v u. rewrite dset_same. destruct (Nat.eqb_spec u v); congruence. Qed.
Lemma dset_id_nil : forall s v u, s v = [] -> dset s v [] u = s u.
Proof. intros s v u E. rewrite <- E. apply dset_id. Qed.

(** All pointers stay as they are, or move with the window. *)
Lemma stay_win : forall h s P P' v, qstands h s P -> dmeets DStay P P' -> forall r, win_ptr v 0 (length (s v)) 0 (P r) (P' r).
Proof.
  intros h s P P' v S M r. specialize (M r). pose proof (to_in h s P r) as I. destruct (P r) as [|u i|]; cbn [win_ptr]; auto.
  specialize (I u i S eq_refl). destruct (Nat.eq_dec u v) as [->|]; [left|auto].
  split; auto. split; [lia|]. rewrite M. f_equal. lia.
Qed.
Lemma up_win : forall h s P P' v n, qstands h s P -> dmeets (DUp v n) P P' -> forall r, win_ptr v 0 (length (s v)) n (P r) (P' r).
Proof.
  intros h s P P' v n S M r. specialize (M r). pose proof (to_in h s P r) as I. destruct (P r) as [|u i|]; cbn [win_ptr]; auto.
  specialize (I u i S eq_refl). destruct M as [(-> & ->)|(N & ->)]; [left|auto]. split; auto. split; [lia|]. f_equal. lia.
Qed.
Lemma drop_win : forall P P' v, dmeets (DDrop v) P P' -> forall r, win_ptr v 0 0 0 (P r) (P' r).
Proof.
  intros P P' v M r. specialize (M r). destruct (P r) as [|u i|]; cbn [win_ptr]; auto.
  destruct M as [(-> & ->)|(N & ->)]; auto. right. left. split; auto. split; auto. lia.
Qed.

Ltac keeps := eapply keep_stands; eauto; try apply dset_eq; try (intros u N; apply dset_other; auto); try (cbn [length]; lia).

Theorem q_do_ok : forall c h s P s' ev f P', qstands h s P -> dint_stmt c -> spec c s s' ev -> deffect c s ev f -> dmeets f P P' ->
  exists h', q_do eqb show c h = Ok (h', ev) /\ qstands h' s' P'.
Proof.
  intros c h s P s' ev f P' S A H F M. eexists. split; [eapply q_do_apply; eauto|].
  pose proof (qcomplete eqb show D c s s' ev (qs_sized _ _ _ S) A H) as R.
  pose proof (dstep_sized eqb show D _ _ _ _ (qs_sized _ _ _ S) A R) as Z.
  assert (SZ : forall v, size (s v) = len (s v)) by (intros; apply size_ok; apply S).
  pose proof (stay_win h s P P') as SW. pose proof (up_win h s P P') as UW. pose proof (drop_win P P') as DW.
  destruct H; cbn [dthrew]; inversion F; subst; try contradiction;
    try (eapply dstay_stands; eauto; intros; (apply dset_id || apply dset_id_nil; assumption)); cbn [dop_of dapply].
  all: try (eapply dstay_stands; eauto; fail).
  all: try (rewrite dset_eq).
  all: try (eapply keep_stands; eauto; [|apply dset_eq|intros u N; apply dset_other; auto]; cbn [length]; repeat rewrite app_length; cbn [length]; lia).
  - keeps.
  - destruct (Nat.eqb_spec v w); [contradiction|]. cbn [dapply]. rewrite dset_eq.
    keeps.
  - rewrite Nat.eqb_refl. cbn [dapply]. eapply dstay_stands; eauto. intros. apply dset_id.
  - apply (dmove_stands v w h s P); auto.
    + rewrite dset_other by auto. apply dset_eq.
    + apply dset_eq.
    + intros u N1 N2. rewrite !dset_other; auto.
  - (* set back *)
    match goal with E : s v = _ |- _ => rename E into Ev end.
    keeps; rewrite Ev, !app_length; cbn [length]; lia.
  - (* set front *)
    match goal with E : s v = _ |- _ => rename E into Ev end.
    keeps; rewrite Ev; cbn [length]; lia.
  - (* set *)
    match goal with E : cut (s v) _ _ _ |- _ => destruct E as (Ev & _) end.
    keeps; rewrite Ev, !app_length; cbn [length]; lia.
  - (* push front *)
    keeps.
  - (* pop back *)
    match goal with E : s v = a ++ [x], E' : s v = _ ++ [x] |- _ => rename E into Ev; rewrite Ev in E'; apply app_inj_tail in E'; destruct E' as (<- & _) end.
    assert (L : length (s v) = Datatypes.S (length a)) by (rewrite Ev, app_length; cbn [length]; lia).
    keeps.
    intros r. specialize (M r). pose proof (to_in h s P r) as I. destruct (P r) as [|u i|]; cbn [win_ptr]; auto.
    specialize (I u i S eq_refl). destruct M as [(-> & -> & ->)|(N & ->)].
    + right. left. split; auto. split; auto. lia.
    + destruct (Nat.eq_dec u v) as [->|]; auto. left. split; auto. split; [lia|]. f_equal. lia.
  - (* pop front *)
    match goal with E : s v = _ |- _ => rename E into Ev end.
    assert (L : length (s v) = Datatypes.S (length a)) by (rewrite Ev; reflexivity).
    keeps.
    intros r. specialize (M r). pose proof (to_in h s P r) as I. destruct (P r) as [|u i|]; cbn [win_ptr]; auto.
    specialize (I u i S eq_refl). destruct M as [(-> & -> & ->)|[(-> & N & ->)|(N & ->)]]; auto.
    + right. left. split; auto. split; auto. lia.
    + left. split; auto. split; [lia|]. f_equal. lia.
  - (* extend back *)
    destruct (Z.leb_spec (size (s w)) (INT_MAX - size (s v))) as [C|C]; rewrite !SZ in C; unfold len in C; [|lia].
    cbn [dapply]. rewrite dset_eq. keeps; rewrite app_length; cbn [length]; lia.
  - destruct (Z.leb_spec (size (s w)) (INT_MAX - size (s v))) as [C|C]; rewrite !SZ in C; unfold len in C; [lia|].
    cbn [dapply]. eapply dstay_stands; eauto.
  - (* extend front *)
    destruct (Z.leb_spec (size (s w)) (INT_MAX - size (s v))) as [C|C]; rewrite !SZ in C; unfold len in C; [|lia].
    cbn [dapply]. rewrite dset_eq. keeps; rewrite app_length; cbn [length]; lia.
  - lia.
  - lia.
  - destruct (Z.leb_spec (size (s w)) (INT_MAX - size (s v))) as [C|C]; rewrite !SZ in C; unfold len in C; [lia|].
    cbn [dapply]. eapply dstay_stands; eauto.
  - match goal with E : rotated _ _ _ |- _ => destruct E as (Er & _) end.
    keeps; cbn [length]; lia.
  - match goal with E : rotated _ _ _ |- _ => destruct E as (Er & _) end.
    keeps; cbn [length]; lia.
  - keeps; rewrite rev_length; cbn [length]; lia.
Qed.

(** ** Every statement of the specification says what happens to the pointers *)
Definition move_dptr (f : dfate) (p : lptr) : lptr :=
  match p with
  | LTo u i =>
      match f with
      | DStay => p
      | DDrop v => if Nat.eqb u v then LGone else p
      | DUp v n => if Nat.eqb u v then LTo v (i + n) else p
      | DDown v => if Nat.eqb u v then match i with O => LGone | Datatypes.S j => LTo v j end else p
      | DLose v k => if Nat.eqb u v && Nat.eqb i k then LGone else p
      | DGiven v w => if Nat.eqb u v then LGone else if Nat.eqb u w then LTo v i else p
      end
  | _ => p
  end.
Lemma dmeets_total : forall f P, dmeets f P (fun r => move_dptr f (P r)).
Proof.
  intros f P r. destruct (P r) as [|u i|]; cbn [move_dptr]; auto. destruct f as [|v|v n|v|v k|v w]; auto.
  - destruct (Nat.eqb_spec u v); auto.
  - destruct (Nat.eqb_spec u v); auto.
  - destruct (Nat.eqb_spec u v); auto. destruct i; auto. right. left. split; auto. split; [lia|]. f_equal. lia.
  - destruct (Nat.eqb_spec u v), (Nat.eqb_spec i k); cbn [andb]; auto.
  - destruct (Nat.eqb_spec u v), (Nat.eqb_spec u w); auto.
Qed.
Lemma deffect_total : forall c s s' ev, spec c s s' ev -> exists f, deffect c s ev f.
Proof.
  intros c s s' ev H. destruct H; try (eexists; apply f_throw); try (eexists; apply f_read; exact Logic.I); try (eexists; apply f_values; exact Logic.I);
    try (eexists; constructor; (assumption || fail)); try (eexists; econstructor; eauto; fail).
  - destruct (Nat.eq_dec v w) as [->|N]; eexists; [apply f_copy_self|apply f_copy; auto].
Qed.

(** ** Pointer statements *)
Lemma qat_to : forall h s P r v i, qstands h s P -> P r = LTo v i ->
  exists a x, q_at h r = Ok a /\ nth_error (qa h v) i = Some a /\ nth_error (s v) i = Some x /\ qm h a = x.
Proof.
  intros h s P r v i S E. pose proof (qs_ptr _ _ _ S r) as O. rewrite E in O. destruct O as (a & O & N).
  exists a, (qm h a). unfold q_at. rewrite O. rewrite (qs_live _ _ _ S v a) by (eapply nth_error_In; eauto).
  split; auto. split; auto. split; auto. rewrite <- (qs_view _ _ _ S v). unfold dview. rewrite nth_error_map, N. auto.
Qed.
Lemma qat_gone : forall h s P r, qstands h s P -> (forall v i, P r <> LTo v i) -> q_at h r = UB BadDeref.
Proof.
  intros h s P r S E. pose proof (qs_ptr _ _ _ S r) as O. unfold q_at. destruct (P r) as [|v i|].
  - rewrite O. auto.
  - destruct (E v i). auto.
  - destruct O as (a & -> & -> & _). auto.
Qed.
Lemma qat_holds : forall h s P r x, qstands h s P -> dholds s P r x -> exists a, q_at h r = Ok a /\ qm h a = x.
Proof.
  intros h s P r x S (v & i & E & N). destruct (qat_to h s P r v i S E) as (a & y & A & _ & B & C). exists a. split; auto. congruence.
Qed.
Lemma qbind_stands : forall h s P P' r p o, qstands h s P -> lpoints P r p P' -> qptr_ok h p o -> qstands (q_bind r o h) s P'.
Proof.
  intros h s P P' r p o S (Q1 & Q2) O. constructor; try apply S. intros q. cbn [q_bind qr qa ql qn]. unfold vset.
  destruct (Nat.eqb_spec q r) as [->|N]; [rewrite Q1; exact O|]. rewrite Q2 by auto. apply S.
Qed.
Lemma qaddr_len : forall h s P v, qstands h s P -> len (qa h v) = len (s v).
Proof. intros. unfold len. erewrite qstands_len; eauto. Qed.

Notation ws := (wstep show).
Notation qstp := (q_step eqb show).

Theorem q_step_ok : forall c h s P s' P' ev, qstands h s P -> qint_stmt c -> ws c s P s' P' ev ->
  exists h', qstp c h = Ok (h', ev) /\ qstands h' s' P'.
Proof.
  assert (DO : forall c h s P s' P' ev, qstands h s P -> dint_stmt c -> ws (QDo c) s P s' P' ev ->
    exists h', q_do eqb show c h = Ok (h', ev) /\ qstands h' s' P').
  { intros c h s P s' P' ev S A H. inversion H; subst. eapply q_do_ok; eauto. }
  assert (SZ : forall h s P v, qstands h s P -> size (qa h v) = len (s v)).
  { intros h s P v S. rewrite <- (qaddr_len _ _ _ v S). apply size_ok. rewrite (qaddr_len _ _ _ v S). apply S. }
  assert (ET : forall l : list T, l <> [] -> check_empty (len l) = Ok tt).
  { intros l N. apply empty_ok. destruct l; [congruence|]. unfold len. cbn [length]. lia. }
  assert (NE : forall h s P v, qstands h s P -> qa h v = [] -> s v = []).
  { intros h s P v S E. pose proof (qstands_len _ _ _ v S) as L. rewrite E in L. destruct (s v); auto; discriminate. }
  intros c h s P s' P' ev S A H. destruct H; cbn [q_step qint_stmt q_take] in *.
  - eapply q_do_ok; eauto.
  - rewrite deq_at_list. pose proof (qaddr_len _ _ _ v S) as L. pose proof (at_spec _ (qa h v) i) as Q. rewrite L in Q. unfold len in Q at 2.
    rewrite H in Q. destruct Q as (a & N & ->); [apply S|]. eexists. split; [reflexivity|]. eapply qbind_stands; eauto. exists a. auto.
  - rewrite deq_at_list. pose proof (qaddr_len _ _ _ v S) as L. pose proof (at_spec _ (qa h v) i) as Q. rewrite L in Q. unfold len in Q at 2.
    rewrite H in Q. rewrite Q by apply S. eexists. split; [reflexivity|auto].
  - unfold deq_front. rewrite (SZ _ _ _ _ S), ET by auto. cbn [bind]. destruct (qa h v) as [|a l] eqn:E; [destruct H; eauto|].
    cbn [q_take]. eexists. split; [reflexivity|]. eapply qbind_stands; eauto. exists a. rewrite E. auto.
  - unfold deq_front. rewrite (SZ _ _ _ _ S), H. eexists. split; [reflexivity|auto].
  - assert (N : s v <> []) by (rewrite H; destruct a; discriminate).
    unfold deq_back. rewrite (SZ _ _ _ _ S), ET by auto. cbn [bind].
    destruct (snoc_cases (qa h v)) as [E|(la & y & E)]; [destruct N; eauto|]. rewrite E, rev_app_distr. cbn [rev app q_take].
    eexists. split; [reflexivity|]. eapply qbind_stands; eauto. exists y. split; auto. rewrite E.
    pose proof (qstands_len _ _ _ v S) as L. rewrite E, H, !app_length in L. cbn [length] in L.
    rewrite nth_error_app2 by lia. replace (length a - length la)%nat with 0%nat by lia. auto.
  - unfold deq_back. rewrite (SZ _ _ _ _ S), H. eexists. split; [reflexivity|auto].
  - eexists. split; [reflexivity|]. eapply qbind_stands; eauto. apply (qs_ptr _ _ _ S).
  - destruct (qat_holds _ _ _ _ _ S H) as (a & -> & <-). cbn [bind]. eauto.
  - destruct (qat_to _ _ _ _ _ _ S H) as (a0 & y0 & -> & N & B & V). cbn [bind]. eexists. split; [reflexivity|].
    destruct H0 as (E & L). apply Nat2Z.inj in L. pose proof (qstands_good _ _ _ S) as G.
    assert (E' : map (qm h) (qa h v) = a ++ y :: b) by (rewrite <- E; apply S).
    apply map_eq_app in E'. destruct E' as (la & l2 & Ev & E1 & E2). apply map_eq_cons in E2. destruct E2 as (ay & lb & -> & E3 & E4).
    assert (ay = a0). { rewrite Ev in N. rewrite <- L, <- E1, map_length, nth_error_app2, Nat.sub_diag in N by lia. cbn in N. congruence. } subst ay.
    pose proof (qgood_nodup h v G) as ND. rewrite Ev in ND. apply NoDup_remove_2 in ND.
    assert (Sm : forall l, ~ In a0 l -> map (vset (qm h) a0 x) l = map (qm h) l).
    { intros l I. apply map_ext_in. intros b0 J. unfold vset. destruct (Nat.eqb_spec b0 a0); auto. subst. contradiction. }
    destruct S. constructor; auto.
    + intros u. unfold dview. cbn [q_store qa qm]. destruct (Nat.eq_dec u v) as [->|Nu].
      * rewrite dset_eq, Ev, map_app. cbn [map]. rewrite !Sm by (intros I; apply ND; apply in_or_app; auto). rewrite E1, E4.
        unfold vset. rewrite Nat.eqb_refl. auto.
      * rewrite dset_other by auto. rewrite Sm; [apply qs_view|]. intros I. apply In_nth_error in I. destruct I as (j & I).
        destruct (qs_one _ _ _ _ _ N I). auto.
    + apply dsized_set; auto. specialize (qs_sized v). rewrite E in qs_sized. unfold len. rewrite !app_length in *. auto.
  - destruct (qat_holds _ _ _ _ _ S H) as (a & -> & E). cbn [bind]. rewrite E. eapply DO; eauto; exact Logic.I.
  - destruct (qat_holds _ _ _ _ _ S H) as (a & -> & E). cbn [bind]. rewrite E. eapply DO; eauto; exact Logic.I.
Qed.

(** A statement has an answer on sequences, or it is undefined for a known reason. *)
Definition qrisky (c : qstmt T) s P : Prop :=
  (exists c', c = QDo c' /\ dundef c' s) \/ (exists r, dderefs c r /\ forall v i, P r <> LTo v i).

Lemma qstmt_total : forall c s P s' ev, spec c s s' ev -> exists P', ws (QDo c) s P s' P' ev.
Proof.
  intros c s P s' ev H. destruct (deffect_total c s s' ev H) as (f & F). exists (fun r => move_dptr f (P r)).
  econstructor; eauto. apply dmeets_total.
Qed.
Lemma q_do_total : forall c s P, dsized s -> dint_stmt c -> ~ dundef c s -> exists s' P' ev, ws (QDo c) s P s' P' ev.
Proof.
  intros c s P Z A N. destruct (qsound eqb show D c s Z A) as [(s' & ev & H & _)|U]; [|destruct N; eapply dundef_exact; eauto].
  destruct (qstmt_total c s P s' ev H) as (P' & V). eauto.
Qed.

Theorem q_step_cases : forall c h s P, qstands h s P -> qint_stmt c ->
  (exists s' P' ev, ws c s P s' P' ev) \/ (qrisky c s P /\ exists u, qstp c h = UB u).
Proof.
  intros c h s P S A. pose proof (qs_sized _ _ _ S) as Z.
  assert (PT : forall r, (forall v i, P r <> LTo v i) -> dderefs c r -> qrisky c s P /\ (q_at h r = UB BadDeref)).
  { intros r N L. split; [right; eauto|]. eapply qat_gone; eauto. }
  destruct c as [c|r v i|r v|r v|r q|r|r x|v r|v r]; cbn [q_step qint_stmt dderefs] in *;
    try (match goal with |- context [q_at _ ?r] => destruct (to_dec (P r)) as [(v' & i' & E)|N];
      [|right; destruct (PT r N eq_refl) as (R & ->); split; [exact R|cbn [bind]; eauto]] end;
      destruct (qat_to _ _ _ _ _ _ S E) as (a & x' & Ea & N & B & V);
      assert (HO : dholds s P r x') by (exists v', i'; auto); left).
  - destruct (qsound eqb show D c s Z A) as [(s' & ev & H & _)|(u & R)].
    + left. destruct (qstmt_total c s P s' ev H) as (P' & V). eauto.
    + right. split; [left; exists c; split; auto; eapply dundef_exact; eauto|]. exists u. unfold q_do.
      rewrite (dstep_ext_ub c s (dview h) u); auto. intros w. symmetry. apply S.
  - left. destruct (position (Z.of_nat (length (s v))) i) as [k|] eqn:E.
    + destruct (points_total P r (LTo v k)) as (P' & Q). do 3 eexists. eapply w_addr; eauto.
    + do 3 eexists. eapply w_addr_bad; eauto.
  - left. destruct (s v) as [|x l] eqn:E.
    + do 3 eexists. eapply w_front_empty; eauto.
    + destruct (points_total P r (LTo v 0)) as (P' & Q). do 3 eexists. eapply w_front; eauto. congruence.
  - left. destruct (snoc_cases (s v)) as [E|(a & x & E)].
    + do 3 eexists. eapply w_back_empty; eauto.
    + destruct (points_total P r (LTo v (length a))) as (P' & Q). do 3 eexists. eapply w_back; eauto.
  - left. destruct (points_total P r (P q)) as (P' & Q). do 3 eexists. eapply w_same; eauto.
  - do 3 eexists. eapply w_read; eauto.
  - apply nth_error_split in B. destruct B as (a1 & b1 & B & L). do 3 eexists. eapply w_write; [exact E|split; [exact B|lia]].
  - destruct (q_do_total (DPushBack v x') s P Z Logic.I) as (s' & P' & ev & H); [cbn [dundef]; auto|]. do 3 eexists. eapply w_push_back; eauto.
  - destruct (q_do_total (DPushFront v x') s P Z Logic.I) as (s' & P' & ev & H); [cbn [dundef]; auto|]. do 3 eexists. eapply w_push_front; eauto.
Qed.

(** ** Programs *)
Notation wr := (wrun show).
Notation run := (q_run eqb show).

Theorem q_run_complete : forall prog h s P s' P' ev, qstands h s P -> Forall qint_stmt prog -> wr prog s P s' P' ev ->
  exists h', run prog h = Ok (h', ev) /\ qstands h' s' P'.
Proof.
  induction prog as [|c prog]; intros h s P s' P' ev S A H; cbn [q_run]; inversion H as [|c0 p0 ? ? ? ? ? ? ev1 ev2 V1 V2]; subst; [eauto|].
  inversion A as [|c1 p1 A1 A2]; subst. destruct (q_step_ok _ _ _ _ _ _ _ S A1 V1) as (h1 & -> & S1).
  cbn [bind fst snd]. destruct (IHprog _ _ _ _ _ _ S1 A2 V2) as (h2 & -> & S2). cbn [bind fst snd]. eauto.
Qed.

Theorem q_run_cases : forall prog h s P, qstands h s P -> Forall qint_stmt prog ->
  (exists h' s' P' ev, run prog h = Ok (h', ev) /\ wr prog s P s' P' ev /\ qstands h' s' P') \/ (exists u, run prog h = UB u).
Proof.
  induction prog as [|c prog]; intros h s P S A; cbn [q_run].
  - left. do 4 eexists. split; [reflexivity|]. split; [constructor|eauto].
  - inversion A as [|c0 p0 A1 A2]; subst. destruct (q_step_cases c h s P S A1) as [(s1 & P1 & ev1 & V)|(_ & u & ->)]; [|right; cbn [bind]; eauto].
    destruct (q_step_ok _ _ _ _ _ _ _ S A1 V) as (h1 & -> & S1). cbn [bind fst snd].
    destruct (IHprog h1 s1 P1 S1 A2) as [(h2 & s2 & P2 & ev2 & -> & V2 & S2)|(u & ->)]; [left|right; cbn [bind]; eauto].
    cbn [bind fst snd]. do 4 eexists. split; [reflexivity|]. split; [econstructor; eauto|auto].
Qed.

Theorem q_run_refines : forall prog h s P h' ev, qstands h s P -> Forall qint_stmt prog -> run prog h = Ok (h', ev) ->
  exists s' P', wr prog s P s' P' ev /\ qstands h' s' P'.
Proof.
  intros prog h s P h' ev S A R. destruct (q_run_cases prog h s P S A) as [(h2 & s2 & P2 & ev2 & R2 & V & S2)|(u & R2)]; [|congruence].
  rewrite R in R2. inversion R2; subst. eauto.
Qed.

Theorem q_step_ub : forall c h s P, qstands h s P -> qint_stmt c ->
  ((exists u, qstp c h = UB u) <-> ~ exists s' P' ev, ws c s P s' P' ev).
Proof.
  intros c h s P S A. split.
  - intros (u & R) (s' & P' & ev & V). destruct (q_step_ok _ _ _ _ _ _ _ S A V) as (h' & R' & _). congruence.
  - intros N. destruct (q_step_cases c h s P S A) as [V|(_ & U)]; [contradiction|auto].
Qed.

Theorem q_step_risky : forall c h s P u, qstands h s P -> qint_stmt c -> qstp c h = UB u ->
  (exists c', c = QDo c' /\ dundef c' s) \/ (exists r, dderefs c r /\ forall v i, P r <> LTo v i).
Proof.
  intros c h s P u S A R. destruct (q_step_cases c h s P S A) as [(s' & P' & ev & V)|(X & _)]; [|exact X].
  destruct (q_step_ok _ _ _ _ _ _ _ S A V) as (h' & R' & _). congruence.
Qed.

(** ** Clients *)
Lemma q_run_app : forall p q h, run (p ++ q) h = (he <- run p h ;; he' <- run q (fst he) ;; Ok (fst he', snd he ++ snd he')).
Proof.
  induction p as [|c p IH]; intros q h; cbn [app q_run bind fst snd].
  - destruct (run q h) as [[h' ev]|?|?|]; reflexivity.
  - destruct (qstp c h) as [[h1 ev1]|?|?|]; cbn [bind fst snd]; auto. rewrite IH.
    destruct (run p h1) as [[h2 ev2]|?|?|]; cbn [bind fst snd]; auto.
    destruct (run q h2) as [[h3 ev3]|?|?|]; cbn [bind fst snd]; auto. rewrite app_assoc. auto.
Qed.
Lemma q_addr_ok : forall h s P r v i k, qstands h s P -> INT_MIN <= i <= INT_MAX -> position (len (s v)) i = Some k ->
  exists h1, qstp (QAddr r v i) h = Ok (h1, []) /\ qstands h1 s (vset P r (LTo v k)).
Proof.
  intros h s P r v i k S A E. eapply q_step_ok; eauto. eapply w_addr; eauto.
  unfold lpoints, vset. rewrite Nat.eqb_refl. split; auto. intros q N. destruct (Nat.eqb_spec q r); congruence.
Qed.
Lemma q_read_ok : forall h s P r v k y, qstands h s P -> P r = LTo v k -> nth_error (s v) k = Some y -> qstp (QRead r) h = Ok (h, [DElem y]).
Proof.
  intros h s P r v k y S E N. cbn [q_step]. destruct (qat_holds h s P r y S) as (a & -> & <-); [exists v, k; auto|]. auto.
Qed.
Lemma q_read_gone : forall h s P r, qstands h s P -> P r = LGone -> qstp (QRead r) h = UB BadDeref.
Proof.
  intros h s P r S E. cbn [q_step]. rewrite (qat_gone h s P r S); auto. intros v i. rewrite E. discriminate.
Qed.

(** Rotating moves the values, not the objects. *)
Theorem rotate_moves : forall h s P r v i k n l' y, qstands h s P -> INT_MIN <= i <= INT_MAX -> INT_MIN <= n <= INT_MAX -> position (len (s v)) i = Some k ->
  rotated (s v) l' n -> nth_error l' k = Some y ->
  exists h', run [QAddr r v i; QDo (DShl v n); QRead r] h = Ok (h', [DElem y]).
Proof.
  intros h s P r v i k n l' y S A B E Q N. destruct (q_addr_ok h s P r v i k S A E) as (h1 & R1 & S1).
  assert (ws (QDo (DShl v n)) s (vset P r (LTo v k)) (dset s v l') (vset P r (LTo v k)) []) as V.
  { eapply w_stmt; [apply q_shl; exact Q|apply f_values; exact Logic.I|]. intros q. destruct (vset P r (LTo v k) q); auto. }
  destruct (q_step_ok (QDo (DShl v n)) _ _ _ _ _ _ S1 B V) as (h2 & R2 & S2).
  cbn [q_run]. rewrite R1. cbn [bind fst snd]. rewrite R2. cbn [bind fst snd].
  rewrite (q_read_ok h2 _ _ r v k y S2); [|apply vset_eq|rewrite dset_eq; auto]. cbn [bind fst snd app]. eauto.
Qed.

(** Pushing at either end, any number of times, ends no reference. *)
Lemma pushes_to : forall ops h s P v r k y, qstands h s P -> P r = LTo v k -> nth_error (s v) k = Some y ->
  exists h' s' P' ev j, run (map (push_stmt v) ops) h = Ok (h', ev) /\ qstands h' s' P' /\ P' r = LTo v j /\ nth_error (s' v) j = Some y.
Proof.
  induction ops as [|[[|] x] ops IH]; intros h s P v r k y S E N; cbn [map q_run];
    try change (push_stmt v (true, x)) with (QDo (DPushFront v x)); try change (push_stmt v (false, x)) with (QDo (DPushBack v x)).
  - exists h, s, P, [], k. auto.
  - destruct (Z.eq_dec (len (s v)) INT_MAX) as [F|F].
    + assert (V : ws (QDo (DPushFront v x)) s P (dset s v (s v)) P [DThrow ContainerFull]).
      { eapply w_stmt; [apply q_push_front_full; exact F|apply f_throw|]. intros q. destruct (P q); auto. }
      destruct (q_step_ok (QDo (DPushFront v x)) _ _ _ _ _ _ S Logic.I V) as (h1 & -> & S1). cbn [bind fst snd].
      destruct (IH h1 _ P v r k y S1 E ltac:(rewrite dset_eq; auto)) as (h2 & s2 & P2 & ev & j & -> & R2).
      cbn [bind fst snd]. do 5 eexists. split; [reflexivity|]. exact R2.
    + assert (V : ws (QDo (DPushFront v x)) s P (dset s v (x :: s v)) (fun q => move_dptr (DUp v 1) (P q)) []).
      { eapply w_stmt; [apply q_push_front|apply f_push_front|apply dmeets_total]. pose proof (qs_sized _ _ _ S v). unfold len in F. lia. }
      destruct (q_step_ok (QDo (DPushFront v x)) _ _ _ _ _ _ S Logic.I V) as (h1 & -> & S1). cbn [bind fst snd].
      assert (E1 : move_dptr (DUp v 1) (P r) = LTo v (k + 1)) by (rewrite E; cbn [move_dptr]; rewrite Nat.eqb_refl; auto).
      destruct (IH h1 _ _ v r (k + 1)%nat y S1 E1 ltac:(rewrite dset_eq, Nat.add_1_r; auto)) as (h2 & s2 & P2 & ev & j & -> & R2).
      cbn [bind fst snd]. do 5 eexists. split; [reflexivity|]. exact R2.
  - destruct (Z.eq_dec (len (s v)) INT_MAX) as [F|F].
    + assert (V : ws (QDo (DPushBack v x)) s P (dset s v (s v)) P [DThrow ContainerFull]).
      { eapply w_stmt; [apply q_push_back_full; exact F|apply f_throw|]. intros q. destruct (P q); auto. }
      destruct (q_step_ok (QDo (DPushBack v x)) _ _ _ _ _ _ S Logic.I V) as (h1 & -> & S1). cbn [bind fst snd].
      destruct (IH h1 _ P v r k y S1 E ltac:(rewrite dset_eq; auto)) as (h2 & s2 & P2 & ev & j & -> & R2).
      cbn [bind fst snd]. do 5 eexists. split; [reflexivity|]. exact R2.
    + assert (V : ws (QDo (DPushBack v x)) s P (dset s v (s v ++ [x])) P []).
      { eapply w_stmt; [apply q_push_back|apply f_push_back|]; [pose proof (qs_sized _ _ _ S v); unfold len in F; lia|]. intros q. destruct (P q); auto. }
      destruct (q_step_ok (QDo (DPushBack v x)) _ _ _ _ _ _ S Logic.I V) as (h1 & -> & S1). cbn [bind fst snd].
      assert (N1 : nth_error (dset s v (s v ++ [x]) v) k = Some y).
      { rewrite dset_eq. rewrite nth_error_app1; auto. apply nth_error_Some. congruence. }
      destruct (IH h1 _ P v r k y S1 E N1) as (h2 & s2 & P2 & ev & j & -> & R2).
      cbn [bind fst snd]. do 5 eexists. split; [reflexivity|]. exact R2.
Qed.
Theorem pushes_keep : forall ops h s P r v i k y, qstands h s P -> INT_MIN <= i <= INT_MAX -> position (len (s v)) i = Some k -> nth_error (s v) k = Some y ->
  exists h' ev, run (QAddr r v i :: map (push_stmt v) ops ++ [QRead r]) h = Ok (h', ev ++ [DElem y]).
Proof.
  intros ops h s P r v i k y S A E N. destruct (q_addr_ok h s P r v i k S A E) as (h1 & R1 & S1).
  destruct (pushes_to ops h1 s _ v r k y S1 (vset_eq _ _ _ _) N) as (h2 & s2 & P2 & ev & j & R2 & S2 & E2 & N2).
  cbn [q_run]. rewrite R1. cbn [bind fst snd]. rewrite q_run_app, R2. cbn [bind fst snd q_run].
  rewrite (q_read_ok h2 s2 P2 r v j y); auto. cbn [bind fst snd app]. eauto.
Qed.

(** A queue: a reference lives until its element has been popped. *)
Lemma queue_gone : forall ops h s P v r, qstands h s P -> P r = LGone ->
  exists h' s' P' ev, run (map (queue_stmt v) ops) h = Ok (h', ev) /\ qstands h' s' P' /\ P' r = LGone.
Proof.
  induction ops as [|o ops IH]; intros h s P v r S E; cbn [map q_run].
  - exists h, s, P, []. auto.
  - assert (exists c, queue_stmt v o = QDo c /\ dint_stmt c /\ ~ dundef c s) as (c & Ec & A & U) 
      by (destruct o; (eexists; split; [reflexivity|split; [exact Logic.I|intros []]])).
    destruct (q_do_total c s P (qs_sized _ _ _ S) A U) as (s1 & P1 & ev1 & V). rewrite Ec.
    destruct (q_step_ok (QDo c) _ _ _ _ _ _ S A V) as (h1 & -> & S1). cbn [bind fst snd].
    assert (E1 : P1 r = LGone). { inversion V as [? ? ? ? ? ? ? ? ? M| | | | | | | | | | |]; subst. specialize (M r). rewrite E in M. exact M. }
    destruct (IH h1 s1 P1 v r S1 E1) as (h2 & s2 & P2 & ev & -> & R2).
    cbn [bind fst snd]. do 4 eexists. split; [reflexivity|]. exact R2.
Qed.
Lemma queue_to : forall ops h s P v r k y, qstands h s P -> P r = LTo v k -> nth_error (s v) k = Some y ->
  exists h' s' P' ev, run (map (queue_stmt v) ops) h = Ok (h', ev) /\ qstands h' s' P' /\
    ((pops ops <= k)%nat -> P' r = LTo v (k - pops ops) /\ nth_error (s' v) (k - pops ops) = Some y) /\ ((k < pops ops)%nat -> P' r = LGone).
Proof.
  induction ops as [|[x|] ops IH]; intros h s P v r k y S E N; cbn [map q_run].
  - exists h, s, P, []. split; auto. split; auto. cbn. rewrite Nat.sub_0_r. split; auto. lia.
  - assert (exists h1 s1 ev1, qstp (queue_stmt v (Some x)) h = Ok (h1, ev1) /\ qstands h1 s1 P /\ nth_error (s1 v) k = Some y) as (h1 & s1 & ev1 & -> & S1 & N1).
    { destruct (Z.eq_dec (len (s v)) INT_MAX) as [F|F].
      + assert (V : ws (QDo (DPushBack v x)) s P (dset s v (s v)) P [DThrow ContainerFull]).
        { eapply w_stmt; [apply q_push_back_full; exact F|apply f_throw|]. intros q. destruct (P q); auto. }
        destruct (q_step_ok (QDo (DPushBack v x)) _ _ _ _ _ _ S Logic.I V) as (h1 & R & S1). do 3 eexists. split; [exact R|]. split; [exact S1|]. rewrite dset_eq. auto.
      + assert (V : ws (QDo (DPushBack v x)) s P (dset s v (s v ++ [x])) P []).
        { eapply w_stmt; [apply q_push_back|apply f_push_back|]; [pose proof (qs_sized _ _ _ S v); unfold len in F; lia|]. intros q. destruct (P q); auto. }
        destruct (q_step_ok (QDo (DPushBack v x)) _ _ _ _ _ _ S Logic.I V) as (h1 & R & S1). do 3 eexists. split; [exact R|]. split; [exact S1|].
        rewrite dset_eq. rewrite nth_error_app1; auto. apply nth_error_Some. congruence. }
    cbn [bind fst snd]. destruct (IH h1 s1 P v r k y S1 E N1) as (h2 & s2 & P2 & ev & -> & R2).
    cbn [bind fst snd]. do 4 eexists. split; [reflexivity|]. exact R2.
  - destruct (s v) as [|z l] eqn:Ev; [destruct k; discriminate|].
    assert (V : ws (QDo (DPopFront v)) s P (dset s v l) (fun q => move_dptr (DDown v) (P q)) [DElem z]).
    { eapply w_stmt; [apply q_pop_front; exact Ev|apply f_pop_front|apply dmeets_total]. }
    destruct (q_step_ok (QDo (DPopFront v)) _ _ _ _ _ _ S Logic.I V) as (h1 & R1 & S1). unfold queue_stmt at 1. rewrite R1. cbn [bind fst snd].
    assert (PO : pops (None :: ops) = Datatypes.S (pops ops)) by reflexivity.
    destruct k as [|k].
    + assert (E1 : move_dptr (DDown v) (P r) = LGone) by (rewrite E; cbn [move_dptr]; rewrite Nat.eqb_refl; auto).
      destruct (queue_gone ops h1 _ _ v r S1 E1) as (h2 & s2 & P2 & ev & -> & S2 & E2).
      cbn [bind fst snd]. do 4 eexists. split; [reflexivity|]. split; [exact S2|]. split; auto. lia.
    + assert (E1 : move_dptr (DDown v) (P r) = LTo v k) by (rewrite E; cbn [move_dptr]; rewrite Nat.eqb_refl; auto).
      destruct (IH h1 _ _ v r k y S1 E1 ltac:(rewrite dset_eq; auto)) as (h2 & s2 & P2 & ev & -> & S2 & E2 & E3).
      cbn [bind fst snd]. do 4 eexists. split; [reflexivity|]. split; [exact S2|]. rewrite PO. cbn [Nat.sub]. split; intros; [apply E2|apply E3]; lia.
Qed.
Theorem queue_exact : forall ops h s P r v i k y, qstands h s P -> INT_MIN <= i <= INT_MAX -> position (len (s v)) i = Some k -> nth_error (s v) k = Some y ->
  ((pops ops <= k)%nat -> exists h' ev, run (QAddr r v i :: map (queue_stmt v) ops ++ [QRead r]) h = Ok (h', ev ++ [DElem y])) /\
  ((k < pops ops)%nat -> run (QAddr r v i :: map (queue_stmt v) ops ++ [QRead r]) h = UB BadDeref).
Proof.
  intros ops h s P r v i k y S A E N. destruct (q_addr_ok h s P r v i k S A E) as (h1 & R1 & S1).
  destruct (queue_to ops h1 s _ v r k y S1 (vset_eq _ _ _ _) N) as (h2 & s2 & P2 & ev & R2 & S2 & E2 & E3).
  cbn [q_run]. rewrite R1. cbn [bind fst snd]. rewrite q_run_app, R2. cbn [bind fst snd q_run]. split; intros C.
  - destruct (E2 C) as (X & Y). rewrite (q_read_ok h2 s2 P2 r v _ y S2 X Y). cbn [bind fst snd app]. eauto.
  - rewrite (q_read_gone h2 s2 P2 r S2); auto.
Qed.
End Ref.
