(** Proofs about references into Lists. *)
From Coq Require Import ZArith List Bool Ascii Lia.
From Verif Require Import Outcome ListModel ListSpec ListFacts ListMore ListAlias ListProgModel ListProgSpec ListProg ListRefModel ListRefSpec.
Import ListNotations.
Open Scope Z_scope.

Section Ref.
Context {T : Type} (eqb lt : T -> T -> bool) (show : T -> list ascii) (d : T) (grow : Z -> Z -> Z).
Hypothesis (D : decides eqb) (W : strict_weak lt).
Notation state := (vstate T).
Implicit Types (h : state) (s t : lstore T) (K : nat -> Z) (P : nat -> lptr).
Notation step := (lstep eqb lt show d).
Notation spec := (sstep eqb lt show).

(** ** The statements look at the contents of the variables only *)

Lemma lset_same : forall s v x u, lset s v x u = if Nat.eqb u v then x else s u.
Proof. reflexivity. Qed.

Lemma lset_ext : forall s t v x, (forall u, s u = t u) -> forall u, lset s v x u = lset t v x u.
Proof. intros s t v x E u. rewrite !lset_same, E. auto. Qed.

Definition alike (o o' : outcome (lstore T * list (levent T))) : Prop :=
  match o, o' with
  | Ok (s, ev), Ok (t, ev') => (forall u, s u = t u) /\ ev = ev'
  | Throw e, Throw e' => e = e'
  | UB a, UB b => a = b
  | OutOfFuel, OutOfFuel => True
  | _, _ => False
  end.

Lemma alike_call : forall A s t v (m : M (list T) A) out, (forall u, s u = t u) -> alike (call s v m out) (call t v m out).
Proof.
  intros A s t v m out E. unfold call. rewrite E. destruct (m (t v)) as [[a|e|u|] l]; cbn [alike]; auto using lset_ext.
Qed.
Lemma alike_assign : forall s t v o, (forall u, s u = t u) -> alike (lassign s v o) (lassign t v o).
Proof. intros s t v o E. unfold lassign. destruct o; cbn [alike]; auto using lset_ext. Qed.
Lemma alike_emit : forall A s t (o : outcome A) ev, (forall u, s u = t u) -> alike (lemit s o ev) (lemit t o ev).
Proof. intros A s t o ev E. unfold lemit. destruct o; cbn [alike]; auto. Qed.

Lemma step_alike : forall c s t, (forall u, s u = t u) -> alike (step c s) (step c t).
Proof.
  intros c s t E. destruct c; cbn [lstep]; rewrite <- ?E; try (apply alike_call; exact E); try (apply alike_assign; exact E);
    try (apply alike_emit; exact E).
  - cbn [alike]. auto using lset_ext.
  - cbn [alike]. auto using lset_ext.
  - destruct (Nat.eqb v w); cbn [alike]; auto. split; auto. intros u. apply lset_ext, lset_ext. auto.
  - destruct (_ <=? _); [|cbn [alike]; auto]. destruct (Nat.eqb v w); [reflexivity|apply alike_call; exact E].
Qed.

Lemma step_ext : forall c s t s' ev, (forall u, s u = t u) -> step c s = Ok (s', ev) -> exists t', step c t = Ok (t', ev) /\ forall u, s' u = t' u.
Proof.
  intros c s t s' ev E R. pose proof (step_alike c s t E) as A. rewrite R in A. cbn [alike] in A.
  destruct (step c t) as [[t' ev']|?|?|]; try contradiction. destruct A as (A & ->). eauto.
Qed.
Lemma step_ext_ub : forall c s t u, (forall u, s u = t u) -> step c s = UB u -> step c t = UB u.
Proof.
  intros c s t u E R. pose proof (step_alike c s t E) as A. rewrite R in A. cbn [alike] in A.
  destruct (step c t) as [[t' ev']|?|?|]; try contradiction. congruence.
Qed.

(** The variables that a statement may change. *)
Definition writes (c : lstmt T) (u : nat) : Prop :=
  match c with
  | LInit v _ | LCopy v _ | LSet v _ _ | LInsert v _ _ | LInsertElem v _ _ | LRemove v _ | LAppend v _ | LAppendList v _ | LSub v _
  | LTimes v _ | LDiv v _ | LShr v _ | LShl v _ | LReverse v | LUniquify v | LSort v | LErase v _ _ | LMap v _ | LFilter v _
  | LExtend v _ | LClear v | LSlice v _ _ _ _ | LPlus v _ _ | LPlusElem v _ _ | LMinus v _ _ | LOver v _ _ | LMult v _ _ => u = v
  | LMove v w => u = v \/ u = w
  | _ => False
  end.

Lemma lset_other : forall s v x u, u <> v -> lset s v x u = s u.
Proof. intros s v x u N. rewrite lset_same. destruct (Nat.eqb_spec u v); congruence. Qed.

Lemma call_frame : forall A s v (m : M (list T) A) out s' ev u, call s v m out = Ok (s', ev) -> u <> v -> s' u = s u.
Proof. intros A s v m out s' ev u R N. unfold call in R. destruct (m (s v)) as [[a|e|w|] l]; inversion R; subst; apply lset_other; auto. Qed.
Lemma assign_frame : forall s v o s' ev u, lassign s v o = Ok (s', ev) -> u <> v -> s' u = s u.
Proof. intros s v o s' ev u R N. unfold lassign in R. destruct o; inversion R; subst; auto. apply lset_other; auto. Qed.
Lemma emit_frame : forall A s (o : outcome A) f s' ev (u : nat), lemit s o f = Ok (s', ev) -> s' u = s u.
Proof. intros A s o f s' ev u R. unfold lemit in R. destruct o; inversion R; subst; auto. Qed.

Lemma step_frame : forall c s s' ev u, step c s = Ok (s', ev) -> ~ writes c u -> s' u = s u.
Proof.
  intros c s s' ev u R N. destruct c; cbn [lstep writes] in *;
    try (eapply call_frame; eassumption); try (eapply assign_frame; eassumption); try (eapply emit_frame; eassumption).
  - inversion R; subst. apply lset_other; auto.
  - inversion R; subst. apply lset_other; auto.
  - destruct (Nat.eqb v w); inversion R; subst. rewrite !lset_other; auto.
  - destruct (_ <=? _); [|inversion R; subst; auto]. destruct (Nat.eqb v w); [discriminate|]. eapply call_frame; eassumption.
Qed.

Lemma vop_ext : forall c s t s' t', (forall u, s u = t u) -> (forall u, s' u = t' u) -> vop_of eqb c s s' = vop_of eqb c t t'.
Proof. intros c s t s' t' E E'. destruct c; cbn [vop_of]; rewrite ?E, ?E'; auto. Qed.
Lemma apply_ext : forall o s t h, (forall u, s u = t u) -> apply grow o s h = apply grow o t h.
Proof. intros o s t h E. destruct o; cbn [apply]; rewrite ?E; auto. Qed.

(** ** Objects *)

Definition ptr_ok h (p : lptr) (o : option nat) : Prop :=
  match p with
  | LNull => o = None
  | LTo v i => exists a, o = Some a /\ nth_error (va h v) i = Some a
  | LGone => exists a, o = Some a /\ vl h a = false /\ (a < vn h)%nat
  end.

Record good h : Prop := {
  gd_live : forall v a, In a (va h v) -> vl h a = true;
  gd_one : forall v w i j a, nth_error (va h v) i = Some a -> nth_error (va h w) j = Some a -> v = w /\ i = j;
  gd_old : forall a, vl h a = true -> (a < vn h)%nat
}.

Lemma stands_good : forall h s K P, vstands h s K P -> good h.
Proof. intros h s K P []. constructor; auto. Qed.

Lemma stands_len : forall h s K P v, vstands h s K P -> length (va h v) = length (s v).
Proof. intros h s K P v S. rewrite <- (vs_view _ _ _ _ S v). unfold lview. rewrite map_length. auto. Qed.

Lemma good_nodup : forall h v, good h -> NoDup (va h v).
Proof.
  intros h v G. apply NoDup_nth_error. intros i j L E. destruct (nth_error (va h v) i) as [a|] eqn:N.
  - apply (gd_one h G v v i j a); auto.
  - apply nth_error_None in N. lia.
Qed.

Lemma among_In : forall l a, among l a = true <-> In a l.
Proof.
  intros l a. unfold among. rewrite existsb_exists. split.
  - intros (b & I & E). apply Nat.eqb_eq in E. subst. auto.
  - intros I. exists a. split; auto. apply Nat.eqb_refl.
Qed.
Lemma among_not : forall l a, among l a = false <-> ~ In a l.
Proof. intros l a. rewrite <- among_In. destruct (among l a); split; congruence. Qed.

Lemma store_other : forall l xs (m : nat -> T) a, ~ In a l -> store_all l xs m a = m a.
Proof.
  induction l as [|b l IH]; intros [|x xs] m a N; cbn [store_all]; auto. rewrite IH by (intros I; apply N; right; auto).
  unfold vset. destruct (Nat.eqb_spec a b); auto. subst. destruct N. left. auto.
Qed.
Lemma store_map : forall l xs (m : nat -> T), NoDup l -> length l = length xs -> map (store_all l xs m) l = xs.
Proof.
  induction l as [|b l IH]; intros [|x xs] m N L; cbn [length] in L; try discriminate; auto. inversion N; subst.
  cbn [store_all map]. rewrite IH by auto. rewrite store_other by auto. unfold vset. rewrite Nat.eqb_refl. auto.
Qed.

(** The addresses after [place]. *)
Definition news (v k : nat) (xs : list T) h : list nat := firstn k (va h v) ++ seq (vn h) (length xs - k).

Lemma va_place : forall v k xs h u, va (place v k xs h) u = if Nat.eqb u v then news v k xs h else va h u.
Proof. reflexivity. Qed.

Lemma in_firstn : forall A (l : list A) k a, In a (firstn k l) -> In a l.
Proof. intros A l k a I. rewrite <- (firstn_skipn k l). apply in_or_app. auto. Qed.
Lemma in_skipn : forall A (l : list A) k a, In a (skipn k l) -> In a l.
Proof. intros A l k a I. rewrite <- (firstn_skipn k l). apply in_or_app. auto. Qed.

Lemma old_not_new : forall h v a n, good h -> In a (va h v) -> ~ In a (seq (vn h) n).
Proof. intros h v a n G I J. apply (gd_live h G) in I. apply (gd_old h G) in I. apply in_seq in J. lia. Qed.

Lemma nodup_app : forall A (l m : list A), NoDup l -> NoDup m -> (forall a, In a l -> ~ In a m) -> NoDup (l ++ m).
Proof.
  induction l as [|x l IH]; intros m L M X; cbn [app]; auto. inversion L; subst. constructor.
  - intros I. apply in_app_or in I. destruct I as [I|I]; auto. apply (X x); auto. left. auto.
  - apply IH; auto. intros a I. apply X. right. auto.
Qed.

Lemma firstn_nodup : forall A (l : list A) k, NoDup l -> NoDup (firstn k l).
Proof.
  induction l as [|x l IH]; intros [|k] N; cbn [firstn]; try constructor; inversion N; subst.
  - intros I. apply in_firstn in I. contradiction.
  - auto.
Qed.
Lemma firstn_skipn_apart : forall A (l : list A) k a, NoDup l -> In a (firstn k l) -> ~ In a (skipn k l).
Proof.
  induction l as [|x l IH]; intros [|k] a N I J; cbn [firstn skipn] in *; try contradiction. inversion N; subst.
  destruct I as [->|I]; [apply in_skipn in J; contradiction|]. eapply IH; eauto.
Qed.

Lemma news_nodup : forall v k xs h, good h -> NoDup (news v k xs h).
Proof.
  intros v k xs h G. apply nodup_app; [apply firstn_nodup, good_nodup; auto|apply seq_NoDup|].
  intros a I. apply in_firstn in I. eapply old_not_new; eauto.
Qed.
Lemma news_len : forall v k xs h, (k <= length (va h v))%nat -> (k <= length xs)%nat -> length (news v k xs h) = length xs.
Proof. intros v k xs h A B. unfold news. rewrite app_length, firstn_length, seq_length. lia. Qed.

Lemma news_other : forall v k xs h u a, good h -> u <> v -> In a (va h u) -> ~ In a (news v k xs h).
Proof.
  intros v k xs h u a G N I J. apply in_app_or in J. destruct J as [J|J]; [|eapply old_not_new; eauto].
  apply in_firstn in J. apply In_nth_error in I. destruct I as (i & I). apply In_nth_error in J. destruct J as (j & J).
  destruct (gd_one h G _ _ _ _ _ I J). auto.
Qed.

Lemma view_place : forall v k xs h, good h -> (k <= length (va h v))%nat -> (k <= length xs)%nat ->
  forall u, lview (place v k xs h) u = if Nat.eqb u v then xs else lview h u.
Proof.
  intros v k xs h G A B u. unfold lview at 1. rewrite va_place. destruct (Nat.eqb_spec u v) as [->|N].
  - cbn [place vm]. apply store_map; [apply news_nodup; auto|apply news_len; auto].
  - unfold lview. apply map_ext_in. intros a I. cbn [place vm]. apply store_other. eapply news_other; eauto.
Qed.

Lemma good_place : forall v k xs h, good h -> (k <= length (va h v))%nat -> (k <= length xs)%nat -> good (place v k xs h).
Proof.
  intros v k xs h G A B. constructor.
  - intros u a I. rewrite va_place in I. cbn [place vl]. destruct (Nat.eqb_spec u v) as [->|N].
    + apply in_app_or in I. destruct I as [I|I].
      * apply orb_true_iff. right. rewrite (gd_live h G v) by (eapply in_firstn; eauto). cbn [andb].
        apply negb_true_iff, among_not. apply firstn_skipn_apart; auto. apply good_nodup; auto.
      * apply orb_true_iff. left. apply among_In. auto.
    + apply orb_true_iff. right. rewrite (gd_live h G u) by auto. cbn [andb]. apply negb_true_iff, among_not. intros J. apply in_skipn in J.
      apply In_nth_error in I. destruct I as (i & I). apply In_nth_error in J. destruct J as (j & J).
      destruct (gd_one h G _ _ _ _ _ I J). auto.
  - assert (X : forall i u j a, u <> v -> nth_error (news v k xs h) i = Some a -> nth_error (va h u) j = Some a -> False).
    { intros i u j a N I J. apply nth_error_In in I. apply nth_error_In in J. eapply news_other; eauto. }
    intros u w i j a I J. rewrite va_place in I, J. destruct (Nat.eqb_spec u v) as [->|Nu]; destruct (Nat.eqb_spec w v) as [->|Nw].
    + split; auto. pose proof (news_nodup v k xs h G) as N. rewrite NoDup_nth_error in N. apply N; [|congruence].
      apply nth_error_Some. congruence.
    + exfalso. eapply X; eauto.
    + exfalso. eapply X; eauto.
    + eapply gd_one; eauto.
  - intros a I. cbn [place vl vn] in *. apply orb_true_iff in I. destruct I as [I|I].
    + apply among_In, in_seq in I. lia.
    + apply andb_true_iff in I. destruct I as (I & _). apply (gd_old h G) in I. lia.
Qed.

Lemma nth_news : forall v k xs h i a, (k <= length (va h v))%nat -> (i < k)%nat -> nth_error (va h v) i = Some a -> nth_error (news v k xs h) i = Some a.
Proof.
  intros v k xs h i a A B N. unfold news. rewrite nth_error_app1 by (rewrite firstn_length; lia). rewrite nth_error_firstn_in; auto.
Qed.
Lemma nth_skipn : forall A (l : list A) k i a, (k <= i)%nat -> nth_error l i = Some a -> In a (skipn k l).
Proof. intros A l k i a L N. apply (nth_error_In (skipn k l) (i - k)). rewrite nth_error_skipn_in. replace (k + (i - k))%nat with i by lia. auto. Qed.

Definition cut_ptr (v k : nat) (p p' : lptr) : Prop :=
  match p with
  | LTo u i => (u = v /\ (k <= i)%nat /\ p' = LGone) \/ ((u <> v \/ (i < k)%nat) /\ p' = LTo u i)
  | _ => p' = p
  end.

Lemma ptr_place : forall v k xs h p p' o, good h -> (k <= length (va h v))%nat -> (k <= length xs)%nat ->
  cut_ptr v k p p' -> ptr_ok h p o -> ptr_ok (place v k xs h) p' o.
Proof.
  intros v k xs h p p' o G A B M O. destruct p as [|u i|]; cbn [cut_ptr] in M.
  - subst p'. exact O.
  - destruct O as (a & -> & O). destruct M as [(-> & L & ->)|(L & ->)].
    + exists a. split; auto. cbn [place vl vn]. assert (I : In a (va h v)) by (eapply nth_error_In; eauto). split.
      * apply orb_false_iff. split; [apply among_not; eapply old_not_new; eauto|].
        apply andb_false_iff. right. apply negb_false_iff, among_In. eapply nth_skipn; eauto.
      * apply (gd_live h G), (gd_old h G) in I. lia.
    + exists a. split; auto. rewrite va_place. destruct (Nat.eqb_spec u v) as [->|N]; auto.
      destruct L as [L|L]; [congruence|]. apply nth_news; auto.
  - subst p'. destruct O as (a & -> & O & L). exists a. split; auto. cbn [place vl vn]. split; [|lia].
    rewrite O. cbn [andb orb]. rewrite orb_false_r. apply among_not. intros I. apply in_seq in I. lia.
Qed.

(** The list of [v] becomes [xs]. *)
Definition becomes (v : nat) (xs : list T) s s' : Prop := s' v = xs /\ forall u, u <> v -> s' u = s u.

Lemma place_stands : forall v k xs h s K P s' K' P', vstands h s K P -> sized s' -> (k <= length (s v))%nat -> (k <= length xs)%nat ->
  becomes v xs s s' -> meets (Cut v k) P P' -> unsized K K' -> len xs <= K v -> vstands (place v k xs h) s' K' P'.
Proof.
  intros v k xs h s K P s' K' P' S Z A B (X1 & X2) M U L. pose proof (stands_good _ _ _ _ S) as G.
  assert (A' : (k <= length (va h v))%nat) by (rewrite (stands_len _ _ _ _ v S); auto).
  pose proof (good_place v k xs h G A' B) as G'. constructor; try apply G'; auto.
  - intros u. rewrite view_place by auto. destruct (Nat.eqb_spec u v) as [->|N]; auto. rewrite (vs_view _ _ _ _ S). symmetry. auto.
  - intros u. cbn [place vk]. rewrite U. apply S.
  - intros u. rewrite U. destruct (Nat.eq_dec u v) as [->|N]; [rewrite X1; auto|]. rewrite X2 by auto. apply S.
  - intros r. apply (ptr_place v k xs h (P r)); auto; [|apply S]. specialize (M r). destruct (P r); auto.
Qed.

Lemma place_stands_new : forall v c xs h s K P s' K' P', vstands h s K P -> sized s' ->
  becomes v xs s s' -> meets (Cut v 0) P P' -> resized grow v c (len xs) K K' ->
  vstands (set_room v (room grow c (len xs)) (place v 0 xs h)) s' K' P'.
Proof.
  intros v c xs h s K P s' K' P' S Z (X1 & X2) M (U1 & U2). pose proof (stands_good _ _ _ _ S) as G.
  assert (A' : (0 <= length (va h v))%nat) by lia. assert (B : (0 <= length xs)%nat) by lia.
  pose proof (good_place v 0 xs h G A' B) as G'. constructor; try apply G'; auto.
  - intros u. change (lview (set_room v (room grow c (len xs)) (place v 0 xs h)) u) with (lview (place v 0 xs h) u).
    rewrite view_place by auto. destruct (Nat.eqb_spec u v) as [->|N]; auto. rewrite (vs_view _ _ _ _ S). symmetry. auto.
  - intros u. cbn [set_room place vk]. unfold vset. destruct (Nat.eqb_spec u v) as [->|N]; [rewrite U1; auto|]. rewrite U2 by auto. apply S.
  - intros u. destruct (Nat.eq_dec u v) as [->|N].
    + rewrite U1, X1. fold (len xs). lia.
    + rewrite X2, U2 by auto. apply S.
  - intros r. apply (ptr_place v 0 xs h (P r) (P' r) (vr h r)); auto; [|apply S]. specialize (M r). destruct (P r); auto.
Qed.

Lemma stay_stands : forall h s K P s' K' P', vstands h s K P -> (forall u, s' u = s u) -> meets Stay P P' -> unsized K K' -> vstands h s' K' P'.
Proof.
  intros h s K P s' K' P' S X M U. destruct S. constructor; auto.
  - intros v. rewrite X. auto.
  - intros v. rewrite X. auto.
  - intros v. rewrite U. auto.
  - intros v. rewrite X, U. auto.
  - intros r. specialize (M r). specialize (vs_ptr r). destruct (P r); rewrite M; auto.
Qed.

Lemma move_stands : forall v w h s K P s' K' P', v <> w -> vstands h s K P -> s' v = s w -> s' w = [] -> (forall u, u <> v -> u <> w -> s' u = s u) ->
  meets (Given v w) P P' -> K' v = K w -> K' w = Z.max 0 (grow 0 0) -> (forall u, u <> v -> u <> w -> K' u = K u) ->
  vstands (apply grow (OMove v w) s' h) s' K' P'.
Proof.
  intros v w h s K P s' K' P' N S X1 X2 X3 M U1 U2 U3. cbn [apply].
  assert (A : forall u, vset (vset (va h) v (va h w)) w [] u = if Nat.eqb u w then [] else if Nat.eqb u v then va h w else va h u) by reflexivity.
  pose proof (stands_good _ _ _ _ S) as G. constructor; cbn [va vm vl vk vn vr].
  - intros u. unfold lview. cbn [va vm]. rewrite A. destruct (Nat.eqb_spec u w) as [->|Nw]; [cbn [map]; auto|].
    destruct (Nat.eqb_spec u v) as [->|Nv]; [rewrite X1|rewrite X3 by auto]; apply S.
  - intros u. destruct (Nat.eq_dec u w) as [->|Nw]; [rewrite X2; cbn; unfold INT_MAX; lia|].
    destruct (Nat.eq_dec u v) as [->|Nv]; [rewrite X1|rewrite X3 by auto]; apply S.
  - intros u a I. rewrite A in I. destruct (Nat.eqb_spec u w) as [->|Nw]; [contradiction|].
    assert (exists u', u' <> v /\ In a (va h u')) as (u' & Nu & I') by (destruct (Nat.eqb_spec u v) as [->|Nv]; eauto).
    rewrite (gd_live h G u') by auto. cbn [andb]. apply negb_true_iff, among_not. intros J.
    apply In_nth_error in I'. destruct I' as (i & I'). apply In_nth_error in J. destruct J as (j & J). destruct (gd_one h G _ _ _ _ _ I' J). auto.
  - intros u u' i j a I J. rewrite A in I, J.
    destruct (Nat.eqb_spec u w) as [->|Nw]; [destruct i; discriminate|]. destruct (Nat.eqb_spec u' w) as [->|Nw']; [destruct j; discriminate|].
    destruct (Nat.eqb_spec u v) as [->|Nv]; destruct (Nat.eqb_spec u' v) as [->|Nv']; destruct (gd_one h G _ _ _ _ _ I J); subst; auto; congruence.
  - intros a I. apply andb_true_iff in I. destruct I as (I & _). apply (gd_old h G); auto.
  - intros u. unfold vset. destruct (Nat.eqb_spec u w) as [->|Nw]; [unfold room; auto|].
    destruct (Nat.eqb_spec u v) as [->|Nv]; [rewrite U1|rewrite U3 by auto]; apply S.
  - intros u. destruct (Nat.eq_dec u w) as [->|Nw]; [rewrite X2, U2; cbn [length]; lia|].
    destruct (Nat.eq_dec u v) as [->|Nv]; [rewrite X1, U1|rewrite X3, U3 by auto]; apply S.
  - intros r. specialize (M r). pose proof (vs_ptr _ _ _ _ S r) as O. destruct (P r) as [|u i|].
    + rewrite M. auto.
    + destruct O as (a & O & I). destruct M as [(-> & ->)|[(-> & M & ->)|(M1 & M2 & ->)]].
      * exists a. split; auto. apply nth_error_In in I. split.
        -- apply andb_false_iff. right. apply negb_false_iff, among_In. auto.
        -- apply (gd_old h G), (gd_live h G v). auto.
      * exists a. split; auto. rewrite A. destruct (Nat.eqb_spec v w); [congruence|]. rewrite Nat.eqb_refl. auto.
      * exists a. split; auto. rewrite A. destruct (Nat.eqb_spec u w); [congruence|]. destruct (Nat.eqb_spec u v); [congruence|]. auto.
    + rewrite M. destruct O as (a & O & L & B). exists a. split; auto. rewrite L. auto.
Qed.

(** ** Lengths *)

Lemma rotated_len : forall (l r : list T) n, rotated l r n -> length r = length l.
Proof. intros l r n (L & _). auto. Qed.

Lemma throw_same : forall c s s' e, spec c s s' [LThrow e] -> forall u, s' u = s u.
Proof.
  assert (R : forall s v u, lset s v (s v) u = s u).
  { intros s v u. rewrite lset_same. destruct (Nat.eqb_spec u v); congruence. }
  intros c s s' e H u. inversion H; subst; auto.
  match goal with M : mut _ _ _ _ _ _ |- _ => inversion M; subst; auto end.
  - match goal with M : mut _ _ (LInsert _ _ _) _ _ _ |- _ => inversion M; subst; auto end.
  - match goal with H : [] = s _ |- _ => rewrite H end. apply R.
Qed.

Lemma values_len : forall c s s' v, spec c s s' [] ->
  match c with LSet u _ _ | LShr u _ | LShl u _ | LReverse u | LSort u | LMap u _ => u = v | _ => False end -> length (s' v) = length (s v).
Proof.
  intros c s s' v H E. destruct c; try contradiction; subst; inversion H; subst;
    try (match goal with X : copying _ _ _ _ |- _ => inversion X end); rewrite lset_eq;
    match goal with M : mut _ _ _ _ _ _ |- _ => inversion M; subst end.
  - match goal with X : cut _ _ _ _ |- _ => destruct X as (-> & _) end. rewrite !app_length. auto.
  - eapply rotated_len; eauto.
  - eapply rotated_len; eauto.
  - apply rev_length.
  - match goal with X : stably_sorted _ _ _ |- _ => destruct X as (X & _) end. symmetry. apply Permutation.Permutation_length. auto.
  - apply map_length.
Qed.

Lemma insert_len : forall v i x l l', mut eqb lt (LInsert v i x) l l' [] ->
  length l' = Datatypes.S (length l) /\ (Z.to_nat (from_back (len l) i) <= length l)%nat /\ len l <= INT_MAX /\ - len l <= i <= len l.
Proof.
  intros v i x l l' M. inversion M; subst.
  match goal with X : cut _ _ _ _ |- _ => destruct X as (-> & Cx) end. unfold within, len in *.
  rewrite <- Cx. rewrite !app_length in *. cbn [length] in *. lia.
Qed.

(** ** One statement *)

Lemma grown_stands : forall v k n h s K P s' K' P' f, vstands h s K P -> sized s' -> grown grow v k (len (s v)) n K f K' -> meets f P P' ->
  (forall u, u <> v -> s' u = s u) -> len (s' v) = len (s v) + n -> 0 <= n -> (k <= length (s v))%nat ->
  vstands (apply grow (OInsert v k n) s' h) s' K' P'.
Proof.
  intros v k n h s K P s' K' P' f S Z G M X L N B. cbn [apply]. cbv zeta.
  assert (E : len (va h v) = len (s v)) by (unfold len; rewrite (stands_len _ _ _ _ v S); auto). rewrite E.
  rewrite (vs_cap _ _ _ _ S v). destruct G as [K' F U|K' F U].
  - destruct (Z.leb_spec (len (s v) + n) (K v)); [|lia]. apply (place_stands v k (s' v) h s K P s' K' P'); auto; try lia.
    + unfold len in *. lia.
    + split; auto.
  - destruct (Z.leb_spec (len (s v) + n) (K v)); [lia|]. rewrite <- L in *. apply (place_stands_new v (K v) (s' v) h s K P s' K' P'); auto. split; auto.
Qed.

Lemma do_apply : forall c h s K P s' ev, vstands h s K P -> int_stmt c -> spec c s s' ev ->
  v_do eqb lt show d grow c h = Ok (if threw ev then h else apply grow (vop_of eqb c s s') s' h, ev).
Proof.
  intros c h s K P s' ev S A H. pose proof (complete _ _ _ d D W c s s' ev (vs_sized _ _ _ _ S) A H) as R.
  assert (E : forall u, s u = lview h u) by (intros u; symmetry; apply S).
  destruct (step_ext c s (lview h) s' ev E R) as (t' & R' & E'). unfold v_do. rewrite R'.
  rewrite (vop_ext c (lview h) s t' s') by (intros; symmetry; auto). rewrite (apply_ext _ t' s') by (intros; symmetry; auto). auto.
Qed.

Lemma find_first : forall a x b, ~ In x a -> std_find eqb (a ++ x :: b) x = length a.
Proof.
  induction a as [|y a IH]; intros x b N; cbn [std_find app length].
  - rewrite (D_refl eqb D). auto.
  - rewrite (D_neq eqb D) by (intros ->; apply N; left; auto). rewrite IH; auto. intros I. apply N. right. auto.
Qed.
Lemma find_none : forall l x, ~ In x l -> std_find eqb l x = length l.
Proof.
  induction l as [|y l IH]; intros x N; cbn [std_find length]; auto.
  rewrite (D_neq eqb D) by (intros ->; apply N; left; auto). rewrite IH; auto. intros I. apply N. right. auto.
Qed.

Lemma back_to : forall n i, (if i >=? 0 then i else i + n) = from_back n i.
Proof. intros n i. unfold from_back. destruct (Z.geb_spec i 0), (Z.ltb_spec i 0); lia. Qed.

Lemma position_back : forall n i k, position n i = Some k -> Z.to_nat (from_back n i) = k /\ Z.of_nat k < n.
Proof.
  intros n i k. unfold position, from_back. destruct (Z.leb_spec 0 i), (Z.ltb_spec i n); cbn [andb]; intros E.
  - inversion E. destruct (Z.ltb_spec i 0); lia.
  - destruct (Z.leb_spec (- n) i), (Z.ltb_spec i 0); cbn [andb] in E; inversion E; lia.
  - destruct (Z.leb_spec (- n) i), (Z.ltb_spec i 0); cbn [andb] in E; inversion E; lia.
  - destruct (Z.leb_spec (- n) i), (Z.ltb_spec i 0); cbn [andb] in E; inversion E; lia.
Qed.

Ltac inv_spec H := inversion H; subst;
  try (match goal with X : copying _ _ _ _ |- _ => inversion X end);
  try (match goal with X : False |- _ => destruct X end);
  try (match goal with X : mut _ _ _ _ _ _ |- _ => rename X into MU end).

Lemma sub_inv : forall v x l l', mut eqb lt (LSub v x) l l' [] ->
  (exists p q, l = p ++ x :: q /\ ~ In x p /\ l' = p ++ q) \/ (~ In x l /\ l' = l).
Proof.
  intros v x l l' M. inversion M; subst; auto. left. do 2 eexists. split; [reflexivity|]. split; auto.
  match goal with F : Forall _ _ |- _ => rewrite Forall_forall in F; intros I; apply (F _ I); auto end.
Qed.
Lemma first_unique : forall x (a p b q : list T), ~ In x a -> ~ In x p -> p ++ x :: q = a ++ x :: b -> p = a /\ q = b.
Proof.
  intros x. induction a as [|y a IH]; intros [|z p] b q N Np G; cbn [app] in *.
  - inversion G; auto.
  - inversion G; subst. destruct Np. left. auto.
  - inversion G; subst. destruct N. left. auto.
  - inversion G; subst. destruct (IH p b q) as (-> & ->); auto; intros I; [apply N|apply Np]; right; auto.
Qed.

Theorem do_ok : forall c h s K P s' ev f K' P', vstands h s K P -> int_stmt c -> spec c s s' ev -> effect grow c s s' ev K f K' -> meets f P P' ->
  exists h', v_do eqb lt show d grow c h = Ok (h', ev) /\ vstands h' s' K' P'.
Proof.
  intros c h s K P s' ev f K' P' S A H F M. eexists. split; [eapply do_apply; eauto|].
  pose proof (complete _ _ _ d D W c s s' ev (vs_sized _ _ _ _ S) A H) as R.
  pose proof (step_sized _ _ _ d D W _ _ _ _ (vs_sized _ _ _ _ S) A R) as Z.
  assert (FR : forall u, ~ writes c u -> s' u = s u) by (intros; eapply step_frame; eauto).
  assert (SZ : forall v, size (s v) = len (s v)) by (intros; apply size_ok; apply S).
  pose proof (vs_fit _ _ _ _ S) as FIT.
  destruct F.
  - cbn [threw]. eapply stay_stands; eauto. eapply throw_same; eauto.
  - assert (X : forall u, s' u = s u) by (intros u; apply FR; destruct c; cbn [writes]; auto; contradiction).
    destruct (threw ev); [eapply stay_stands; eauto|]. destruct c; try contradiction; cbn [vop_of apply]; eapply stay_stands; eauto.
  - cbn [threw].
    assert (exists v, vop_of eqb c s s' = OAssign v /\ (forall u, u <> v -> s' u = s u) /\ length (s' v) = length (s v)) as (v & -> & X & L).
    { pose proof (values_len c s s') as V.
      destruct c; try contradiction; cbn [vop_of]; exists v; (split; [reflexivity|split; [intros u N; apply FR; cbn [writes]; auto|apply V; auto]]). }
    cbn [apply]. apply (place_stands v _ (s' v) h s K P s' K' P'); auto.
    + lia.
    + split; auto.
    + intros r. specialize (M r). destruct (P r) as [|u i|] eqn:E; auto. right. split; auto.
      destruct (Nat.eq_dec u v) as [->|]; auto. right. rewrite L, <- (stands_len _ _ _ _ v S).
      pose proof (vs_ptr _ _ _ _ S r) as O. rewrite E in O. destruct O as (a & _ & O). apply nth_error_Some. congruence.
    + unfold len. rewrite L. apply FIT.
  - cbn [threw].
    assert (vop_of eqb c s s' = OReplace v) as -> by (destruct c; try contradiction; subst; reflexivity).
    assert (X : forall u, u <> v -> s' u = s u).
    { intros u N. apply FR. destruct c; try contradiction; subst; cbn [writes]; auto. }
    cbn [apply]. apply (place_stands_new v 0 (s' v) h s K P s' K' P'); auto. split; auto.
  - cbn [threw vop_of]. destruct (Nat.eqb_spec v w); [contradiction|]. cbn [apply]. inv_spec H.
    rewrite (vs_cap _ _ _ _ S v). apply (place_stands_new v (K v) _ h s K P _ K' P'); auto.
    + split; [auto|]. intros u N. apply lset_other. auto.
    + rewrite lset_eq. auto.
  - cbn [threw vop_of]. rewrite Nat.eqb_refl. cbn [apply]. eapply stay_stands; eauto. inv_spec H. intros u. rewrite lset_same.
    destruct (Nat.eqb_spec u v); congruence.
  - cbn [threw vop_of]. inv_spec H. eapply move_stands; eauto.
    + rewrite lset_other, lset_eq by auto. auto.
    + apply lset_eq.
    + intros u Nu Nw. rewrite !lset_other; auto.
  - cbn [threw vop_of]. rewrite SZ, back_to. eapply grown_stands; eauto.
    + inv_spec H. destruct (insert_len _ _ _ _ _ MU) as (L & _). rewrite lset_eq. unfold len. lia.
    + lia.
    + inv_spec H. apply (insert_len _ _ _ _ _ MU).
  - cbn [threw vop_of]. rewrite SZ, back_to. inv_spec H. inversion MU; subst.
    match goal with X : mut _ _ (LInsert _ _ _) _ _ _ |- _ => destruct (insert_len _ _ _ _ _ X) as (L & B & _) end.
    eapply grown_stands; eauto; [|lia]. rewrite lset_eq. unfold len. lia.
  - cbn [threw vop_of]. inv_spec H. inversion MU; subst. eapply grown_stands; eauto; [|lia]. rewrite lset_eq. rewrite len_app. auto.
  - cbn [threw vop_of]. inv_spec H. eapply grown_stands; eauto; [|unfold len; lia]. rewrite lset_eq. rewrite len_app. auto.
  - cbn [threw vop_of]. rewrite !SZ. unfold len at 1 2. destruct (Z.leb_spec (Z.of_nat (length (s w))) (INT_MAX - Z.of_nat (length (s v)))); [|lia].
    inv_spec H; [|lia]. eapply grown_stands; eauto; [|unfold len; lia]. rewrite lset_eq. rewrite len_app. auto.
  - cbn [threw vop_of]. rewrite !SZ. unfold len at 1 2. destruct (Z.leb_spec (Z.of_nat (length (s w))) (INT_MAX - Z.of_nat (length (s v)))); [lia|].
    cbn [apply]. inv_spec H; [lia|]. eapply stay_stands; eauto.
  - cbn [threw vop_of apply]. rewrite SZ, back_to. unfold len. destruct (position_back _ _ _ H0) as (-> & L). pose proof (FIT v) as Fv.
    inv_spec H. inversion MU; subst. rewrite lset_eq. match goal with X : cut _ _ _ _ |- _ => destruct X as (E & Cx) end.
    assert (k0 = k) by congruence. subst k0. rewrite E in L.
    eapply place_stands; eauto.
    + rewrite E, app_length. lia.
    + rewrite app_length. lia.
    + split; [apply lset_eq|]. intros u N. apply lset_other; auto.
    + rewrite E in Fv. unfold len. rewrite app_length in *. cbn [length] in *. lia.
  - cbn [threw vop_of]. rewrite H0, find_first by auto. rewrite app_length. cbn [length].
    destruct (Nat.eqb_spec (length a) (length a + Datatypes.S (length b))); [lia|]. cbn [apply].
    assert (E : s' v = a ++ b).
    { clear - H H0 H1. inv_spec H. rewrite lset_eq. destruct (sub_inv _ _ _ _ MU) as [(p & q & E & N & ->)|(N & _)].
      - rewrite E in H0. destruct (first_unique x a p b q) as (-> & ->); auto.
      - destruct N. rewrite H0. apply in_or_app. right. left. auto. }
    rewrite E. eapply place_stands; eauto.
    + rewrite H0, app_length. lia.
    + rewrite app_length. lia.
    + split; [auto|]. intros u N. apply FR. cbn [writes]. auto.
    + specialize (FIT v). rewrite H0 in FIT. unfold len. rewrite app_length in *. cbn [length] in *. lia.
  - cbn [threw vop_of]. rewrite find_none by auto. rewrite Nat.eqb_refl. cbn [apply]. eapply stay_stands; eauto.
    clear - H H0. inv_spec H. destruct (sub_inv _ _ _ _ MU) as [(p & q & E & N & ->)|(N & ->)].
    + destruct H0. rewrite E. apply in_or_app. right. left. auto.
    + intros u. rewrite lset_same. match goal with |- context [Nat.eqb ?a ?b] => destruct (Nat.eqb_spec a b); congruence end.
  - cbn [threw vop_of apply]. pose proof (FIT v) as Fv. inv_spec H. inversion MU; subst.
    match goal with X : s _ = _ ++ _ ++ _ |- _ => rename X into Ea end. rewrite Ea in Fv. rewrite lset_eq, !app_length in *.
    eapply place_stands; eauto.
    + rewrite Ea, !app_length. lia.
    + rewrite !app_length. lia.
    + split; [apply lset_eq|]. intros u N. apply lset_other; auto.
    + unfold len. rewrite app_length. lia.
  - cbn [threw vop_of apply]. pose proof (FIT v) as Fv. pose proof (filter_len _ (fun y => negb (eqb y x)) (s v)) as B. unfold len in B.
    inv_spec H. inversion MU; subst. rewrite lset_eq in *.
    eapply place_stands; eauto.
    + lia.
    + split; [apply lset_eq|]. intros u N. apply lset_other; auto.
    + unfold len. lia.
  - cbn [threw vop_of apply]. pose proof (FIT v) as Fv. pose proof (filter_len _ p (s v)) as B. unfold len in B.
    inv_spec H. inversion MU; subst. rewrite lset_eq in *.
    eapply place_stands; eauto.
    + lia.
    + split; [apply lset_eq|]. intros u N. apply lset_other; auto.
    + unfold len. lia.
  - cbn [threw vop_of apply]. pose proof (FIT v) as Fv. inv_spec H. inversion MU; subst. rewrite lset_eq in *.
    eapply place_stands; eauto.
    + lia.
    + split; [apply lset_eq|]. intros u N. apply lset_other; auto.
    + cbn. lia.
Qed.

(** ** Every defined statement has an effect *)

Definition move_ptr (f : fate) (p : lptr) : lptr :=
  match p with
  | LTo u i =>
      match f with
      | Stay => p
      | Cut v k => if Nat.eqb u v && Nat.leb k i then LGone else p
      | Given v w => if Nat.eqb u v then LGone else if Nat.eqb u w then LTo v i else p
      end
  | _ => p
  end.
Lemma meets_total : forall f P, meets f P (fun r => move_ptr f (P r)).
Proof.
  intros f P r. destruct (P r) as [|u i|]; cbn [move_ptr]; auto. destruct f as [|v k|v w]; auto.
  - destruct (Nat.eqb_spec u v), (Nat.leb_spec k i); cbn [andb]; auto; right; split; auto.
  - destruct (Nat.eqb_spec u v), (Nat.eqb_spec u w); auto.
Qed.

Lemma unsized_refl : forall K, unsized K K.
Proof. intros K u. auto. Qed.
Lemma resized_total : forall v c n K, resized grow v c n K (vset K v (Z.max n (grow c n))).
Proof.
  intros v c n K. unfold resized, vset. rewrite Nat.eqb_refl. split; auto. intros u N. destruct (Nat.eqb_spec u v); congruence.
Qed.
Lemma grown_total : forall v k l n K, exists f K', grown grow v k l n K f K'.
Proof.
  intros v k l n K. destruct (Z.le_gt_cases (l + n) (K v)).
  - do 2 eexists. apply g_fits; auto. apply unsized_refl.
  - do 2 eexists. apply g_moves; [lia|]. apply resized_total.
Qed.

Lemma effect_total : forall c s s' ev K, spec c s s' ev -> exists f K', effect grow c s s' ev K f K'.
Proof.
  intros c s s' ev K H.
  assert (TH : forall e, ev = [LThrow e] -> exists f K', effect grow c s s' ev K f K').
  { intros e ->. do 2 eexists. apply e_throw. apply unsized_refl. }
  assert (NW : forall v, ev = [] -> match c with
    | LInit u _ | LTimes u _ | LUniquify u | LSlice u _ _ _ _ | LPlus u _ _ | LPlusElem u _ _ | LMinus u _ _ | LOver u _ _ | LMult u _ _ => u = v
    | _ => False
    end -> exists f K', effect grow c s s' ev K f K').
  { intros v -> E. do 2 eexists. eapply e_new; [exact E|]. apply resized_total. }
  assert (VA : ev = [] -> match c with LSet _ _ _ | LShr _ _ | LShl _ _ | LReverse _ | LSort _ | LMap _ _ => True | _ => False end -> exists f K', effect grow c s s' ev K f K').
  { intros -> E. do 2 eexists. eapply e_values; [exact E|]. apply unsized_refl. }
  assert (RD : match c with
    | LGet _ _ | LIndex _ _ _ _ | LContains _ _ _ _ | LCount _ _ | LSize _ | LIsEmpty _ | LEqual _ _ | LPrint _ => True
    | _ => False
    end -> exists f K', effect grow c s s' ev K f K').
  { intros E. do 2 eexists. eapply e_read; [exact E|]. apply unsized_refl. }
  pose proof unsized_refl as U.
  destruct H; try (eapply TH; reflexivity); try (eapply NW; reflexivity); try (apply RD; exact Logic.I).
  - destruct (Nat.eq_dec v w) as [->|N].
    + do 2 eexists. apply e_copy_self; auto.
    + do 2 eexists. apply e_copy; auto. apply resized_total.
  - exists (Given v w), (vset (vset K v (K w)) w (Z.max 0 (grow 0 0))). apply e_move; unfold vset.
    + destruct (Nat.eqb_spec v w); [contradiction|]. rewrite Nat.eqb_refl. auto.
    + rewrite Nat.eqb_refl. auto.
    + intros u Nv Nw. destruct (Nat.eqb_spec u w); [contradiction|]. destruct (Nat.eqb_spec u v); [contradiction|]. auto.
  - remember (s v) as l eqn:El.
    destruct H0; subst v0; try (eapply TH; reflexivity); try (eapply NW; reflexivity); try (apply VA; [reflexivity|exact Logic.I]).
    + destruct (grown_total v (Z.to_nat (from_back (Z.of_nat (length (s v))) i)) (Z.of_nat (length (s v))) 1 K) as (f & K' & G).
      do 2 eexists. eapply e_insert; eauto.
    + match goal with X : mut _ _ (LInsert _ _ _) _ _ _ |- _ => inversion X; subst end; try (eapply TH; reflexivity).
      destruct (grown_total v (Z.to_nat (from_back (Z.of_nat (length (s v))) i)) (Z.of_nat (length (s v))) 1 K) as (f & K' & G).
      do 2 eexists. eapply e_insert_elem; eauto.
    + subst l. do 2 eexists. eapply e_remove; eauto.
    + destruct (grown_total v (length (s v)) (Z.of_nat (length (s v))) 1 K) as (f & K' & G).
      do 2 eexists. eapply e_append; eauto.
    + subst y. exists (Cut v (length a)), K. eapply e_sub; eauto. rewrite Forall_forall in H0. intros I. apply (H0 _ I). auto.
    + subst l. do 2 eexists. apply e_sub_absent; auto.
    + do 2 eexists. apply e_div; auto.
    + do 2 eexists. apply e_erase; auto.
    + do 2 eexists. apply e_filter; auto.
    + do 2 eexists. apply e_clear; auto.
  - destruct (grown_total v (length (s v)) (Z.of_nat (length (s v))) (Z.of_nat (length (s w))) K) as (f & K' & G).
    do 2 eexists. eapply e_append_list; eauto.
  - destruct (grown_total v (length (s v)) (Z.of_nat (length (s v))) (Z.of_nat (length (s w))) K) as (f & K' & G).
    do 2 eexists. eapply e_extend; eauto.
  - do 2 eexists. apply e_extend_no; auto.
  - destruct H; eapply NW; reflexivity.
Qed.

(** ** Statements with pointers *)
Notation vs := (vstep eqb lt show grow).
Notation vstp := (v_step eqb lt show d grow).

Lemma at_to : forall h s K P r v i, vstands h s K P -> P r = LTo v i ->
  exists a x, v_at h r = Ok a /\ nth_error (va h v) i = Some a /\ nth_error (s v) i = Some x /\ vm h a = x.
Proof.
  intros h s K P r v i S E. pose proof (vs_ptr _ _ _ _ S r) as O. rewrite E in O. destruct O as (a & O & N).
  exists a, (vm h a). unfold v_at. rewrite O. rewrite (vs_live _ _ _ _ S v a) by (eapply nth_error_In; eauto).
  split; auto. split; auto. split; auto. rewrite <- (vs_view _ _ _ _ S v). unfold lview. rewrite nth_error_map, N. auto.
Qed.
Lemma at_gone : forall h s K P r, vstands h s K P -> (forall v i, P r <> LTo v i) -> v_at h r = UB BadDeref.
Proof.
  intros h s K P r S E. pose proof (vs_ptr _ _ _ _ S r) as O. unfold v_at. destruct (P r) as [|v i|].
  - rewrite O. auto.
  - destruct (E v i). auto.
  - destruct O as (a & -> & -> & _). auto.
Qed.
Lemma to_dec : forall (p : lptr), (exists v i, p = LTo v i) \/ (forall v i, p <> LTo v i).
Proof. intros [|v i|]; [right|left|right]; eauto; discriminate. Qed.

Lemma at_holds : forall h s K P r x, vstands h s K P -> holds s P r x -> exists a, v_at h r = Ok a /\ vm h a = x.
Proof.
  intros h s K P r x S (v & i & E & N). destruct (at_to h s K P r v i S E) as (a & y & A & _ & B & C). exists a. split; auto. congruence.
Qed.

Lemma find_at : forall l i a, NoDup l -> nth_error l i = Some a -> find_address a l = Some i.
Proof.
  induction l as [|b l IH]; intros [|i] a N E; cbn [nth_error find_address] in *; try discriminate; inversion N; subst.
  - inversion E; subst. rewrite Nat.eqb_refl. auto.
  - destruct (Nat.eqb_spec b a) as [->|]; [apply nth_error_In in E; contradiction|]. rewrite (IH i a) by auto. auto.
Qed.
Lemma find_not : forall l a, ~ In a l -> find_address a l = None.
Proof.
  induction l as [|b l IH]; intros a N; cbn [find_address]; auto. destruct (Nat.eqb_spec b a) as [->|]; [destruct N; left; auto|].
  rewrite IH; auto. intros I. apply N. right. auto.
Qed.

Lemma divided_len : forall l i x l', divided_own eqb l i x l' -> (length l' <= length l)%nat.
Proof.
  assert (FL : forall (f : T -> bool) l, (length (filter f l) <= length l)%nat).
  { intros f l. pose proof (filter_len _ f l). unfold len in *. lia. }
  intros l i x l' H. destruct H; auto. subst. rewrite !app_length. cbn [length]. specialize (FL (fun z => negb (eqb z x)) p) as A.
  specialize (FL (fun z => negb (eqb z y)) q) as B. lia.
Qed.
Lemma divided_ok : forall l i x l', nth_error l i = Some x -> divided_own eqb l i x l' -> list_divide eqb (Elem (Z.of_nat i)) l = (Ok tt, l').
Proof.
  intros l i x l' N H. destruct H as [L|p y q E Y L].
  - apply divide_alias; [rewrite Nat2Z.id; auto|lia|unfold len; lia].
  - eapply divide_overwritten; eauto; [rewrite Nat2Z.id; auto|lia|apply D_neq; auto|unfold len; lia].
Qed.
Lemma divided_total : forall l i x, exists l', divided_own eqb l i x l'.
Proof.
  intros l i x. destruct (Nat.le_gt_cases (length (filter (fun y => negb (eqb y x)) l)) i) as [L|L].
  - eexists. apply d_right. auto.
  - destruct (lands eqb x (Z.of_nat i) l) as (p & y & q & E & Y & B); [unfold len; lia|]. eexists. eapply d_wrong; eauto.
    + intros ->. rewrite (D_refl eqb D) in Y. discriminate.
    + unfold len in B. lia.
Qed.

Lemma bind_stands : forall h s K P P' r p o, vstands h s K P -> lpoints P r p P' -> ptr_ok h p o -> vstands (v_bind r o h) s K P'.
Proof.
  intros h s K P P' r p o S (Q1 & Q2) O. constructor; try apply S. intros q. cbn [v_bind vr va vl vn]. unfold vset.
  destruct (Nat.eqb_spec q r) as [->|N]; [rewrite Q1; exact O|]. rewrite Q2 by auto. apply S.
Qed.

Lemma addr_len : forall h s K P v, vstands h s K P -> len (va h v) = len (s v).
Proof. intros. unfold len. erewrite stands_len; eauto. Qed.

Theorem step_ok : forall c h s K P s' K' P' ev, vstands h s K P -> rint_stmt c -> vs c s K P s' K' P' ev ->
  exists h', vstp c h = Ok (h', ev) /\ vstands h' s' K' P'.
Proof.
  assert (DO : forall c h s K P s' K' P' ev, vstands h s K P -> int_stmt c -> vs (RDo c) s K P s' K' P' ev ->
    exists h', v_do eqb lt show d grow c h = Ok (h', ev) /\ vstands h' s' K' P').
  { intros c h s K P s' K' P' ev S A H. inversion H; subst. eapply do_ok; eauto. }
  intros c h s K P s' K' P' ev S A H. destruct H; cbn [v_step rint_stmt] in *.
  - eapply do_ok; eauto.
  - pose proof (addr_len _ _ _ _ v S) as L. pose proof (at_spec _ (va h v) i) as Q. rewrite L in Q. unfold len in Q at 2.
    rewrite H in Q. destruct Q as (a & N & ->); [apply S|]. eexists. split; auto. eapply bind_stands; eauto. exists a. auto.
  - pose proof (addr_len _ _ _ _ v S) as L. pose proof (at_spec _ (va h v) i) as Q. rewrite L in Q. unfold len in Q at 2.
    rewrite H in Q. rewrite Q by apply S. eauto.
  - eexists. split; auto. eapply bind_stands; eauto. apply (vs_ptr _ _ _ _ S).
  - destruct (at_holds _ _ _ _ _ _ S H) as (a & -> & <-). cbn [bind]. eauto.
  - destruct (at_to _ _ _ _ _ _ _ S H) as (a0 & y0 & -> & N & B & V). cbn [bind]. eexists. split; auto.
    destruct H0 as (E & L). apply Nat2Z.inj in L. pose proof (stands_good _ _ _ _ S) as G.
    assert (E' : map (vm h) (va h v) = a ++ y :: b) by (rewrite <- E; apply S).
    apply map_eq_app in E'. destruct E' as (la & l2 & Ev & E1 & E2). apply map_eq_cons in E2. destruct E2 as (ay & lb & -> & E3 & E4).
    assert (ay = a0). { rewrite Ev in N. rewrite <- L, <- E1, map_length, nth_error_app2, Nat.sub_diag in N by lia. cbn in N. congruence. } subst ay.
    pose proof (good_nodup h v G) as ND. rewrite Ev in ND. apply NoDup_remove_2 in ND.
    assert (Sm : forall l, ~ In a0 l -> map (vset (vm h) a0 x) l = map (vm h) l).
    { intros l I. apply map_ext_in. intros b0 J. unfold vset. destruct (Nat.eqb_spec b0 a0); auto. subst. contradiction. }
    destruct S. constructor; auto.
    + intros u. unfold lview. cbn [v_write va vm]. destruct (Nat.eq_dec u v) as [->|Nu].
      * rewrite lset_eq, Ev, map_app. cbn [map]. rewrite !Sm by (intros I; apply ND; apply in_or_app; auto). rewrite E1, E4.
        unfold vset. rewrite Nat.eqb_refl. auto.
      * rewrite lset_other by auto. rewrite Sm; [apply vs_view|]. intros I. apply In_nth_error in I. destruct I as (j & I).
        destruct (vs_one _ _ _ _ _ N I). auto.
    + apply sized_set; auto. specialize (vs_sized v). rewrite E in vs_sized. unfold len. rewrite !app_length in *. auto.
    + intros u. destruct (Nat.eq_dec u v) as [->|Nu]; [rewrite lset_eq|rewrite lset_other; auto].
      specialize (vs_fit v). rewrite E in vs_fit. rewrite !app_length in *. auto.
  - destruct (at_holds _ _ _ _ _ _ S H) as (a & -> & E). cbn [bind]. rewrite E. eapply DO; eauto; exact Logic.I.
  - destruct (at_holds _ _ _ _ _ _ S H) as (a & -> & E). cbn [bind]. rewrite E. eapply DO; eauto.
  - destruct (at_holds _ _ _ _ _ _ S H) as (a & -> & E). cbn [bind]. rewrite E. eapply DO; eauto; exact Logic.I.
  - destruct (at_to _ _ _ _ _ _ _ S H) as (a0 & y0 & -> & N & B & V). cbn [bind]. unfold v_divide.
    rewrite find_not; [|intros I; apply In_nth_error in I; destruct I as (j & I); destruct (vs_one _ _ _ _ S _ _ _ _ _ N I); auto].
    replace (vm h a0) with x by congruence. eapply DO; eauto; exact Logic.I.
  - destruct (at_to _ _ _ _ _ _ _ S H) as (a0 & y0 & -> & N & B & V). cbn [bind]. unfold v_divide.
    rewrite (find_at _ i) by (auto; apply good_nodup; eapply stands_good; eauto).
    rewrite (vs_view _ _ _ _ S v). rewrite (divided_ok _ _ _ _ H0 H1). eexists. split; auto.
    pose proof (divided_len _ _ _ _ H1) as L. pose proof (vs_fit _ _ _ _ S v). pose proof (vs_sized _ _ _ _ S v).
    eapply place_stands; eauto.
    + apply sized_set; [apply S|]. unfold len. lia.
    + split; [apply lset_eq|]. intros u Nu. apply lset_other; auto.
    + apply unsized_refl.
    + unfold len. lia.
Qed.

(** A statement has an answer on sequences, or it is undefined for a known reason. *)
Definition risky (c : rstmt T) s P : Prop :=
  (exists c', c = RDo c' /\ lundef c' s) \/ (exists r, lderefs c r /\ forall v i, P r <> LTo v i).

Lemma stmt_total : forall c s K P s' ev, spec c s s' ev -> exists K' P', vs (RDo c) s K P s' K' P' ev.
Proof.
  intros c s K P s' ev H. destruct (effect_total c s s' ev K H) as (f & K' & F). exists K', (fun r => move_ptr f (P r)).
  econstructor; eauto. apply meets_total.
Qed.
Lemma do_total : forall c s K P, sized s -> int_stmt c -> (forall s, ~ lundef c s) -> exists s' K' P' ev, vs (RDo c) s K P s' K' P' ev.
Proof.
  intros c s K P Z A N. destruct (sound eqb lt show d D W c s Z A) as [(s' & ev & H & _)|(U & _)]; [|destruct (N s U)].
  destruct (stmt_total c s K P s' ev H) as (K' & P' & V). eauto.
Qed.

Lemma points_total : forall P r p, exists P', lpoints P r p P'.
Proof.
  intros P r p. exists (vset P r p). unfold lpoints, vset. rewrite Nat.eqb_refl. split; auto. intros q N. destruct (Nat.eqb_spec q r); congruence.
Qed.

Theorem step_cases : forall c h s K P, vstands h s K P -> rint_stmt c ->
  (exists s' K' P' ev, vs c s K P s' K' P' ev) \/ (risky c s P /\ exists u, vstp c h = UB u).
Proof.
  intros c h s K P S A. pose proof (vs_sized _ _ _ _ S) as Z.
  assert (PT : forall r, (forall v i, P r <> LTo v i) -> lderefs c r -> risky c s P /\ (v_at h r = UB BadDeref)).
  { intros r N L. split; [right; eauto|]. eapply at_gone; eauto. }
  destruct c as [c|r v i|r q|r|r x|v r|v i r|v r|v r]; cbn [v_step rint_stmt lderefs] in *;
    try (match goal with |- context [v_at _ ?r] => destruct (to_dec (P r)) as [(v' & i' & E)|N];
      [|right; destruct (PT r N eq_refl) as (R & ->); split; [exact R|cbn [bind]; eauto]] end;
      destruct (at_to _ _ _ _ _ _ _ S E) as (a & x' & Ea & N & B & V);
      assert (HO : holds s P r x') by (exists v', i'; auto); left).
  - destruct (sound eqb lt show d D W c s Z A) as [(s' & ev & H & _)|(U & u & R)].
    + left. destruct (stmt_total c s K P s' ev H) as (K' & P' & V). eauto.
    + right. split; [left; eauto|]. exists u. unfold v_do.
      rewrite (step_ext_ub c s (lview h) u); auto. intros w. symmetry. apply S.
  - left. destruct (position (Z.of_nat (length (s v))) i) as [k|] eqn:E.
    + destruct (points_total P r (LTo v k)) as (P' & Q). do 4 eexists. eapply q_addr; eauto.
    + do 4 eexists. eapply q_addr_bad; eauto.
  - left. destruct (points_total P r (P q)) as (P' & Q). do 4 eexists. eapply q_same; eauto.
  - do 4 eexists. eapply q_read; eauto.
  - apply nth_error_split in B. destruct B as (a1 & b1 & B & L). do 4 eexists. eapply q_write; [exact E|split; [exact B|lia]].
  - destruct (do_total (LAppend v x') s K P Z Logic.I) as (s' & K' & P' & ev & H); [auto|]. do 4 eexists. eapply q_append; eauto.
  - destruct (do_total (LInsert v i x') s K P Z A) as (s' & K' & P' & ev & H); [auto|]. do 4 eexists. eapply q_insert; eauto.
  - destruct (do_total (LSub v x') s K P Z Logic.I) as (s' & K' & P' & ev & H); [auto|]. do 4 eexists. eapply q_sub; eauto.
  - destruct (Nat.eq_dec v' v) as [->|Nv].
    + destruct (divided_total (s v) i' x') as (l' & DV). do 4 eexists. eapply q_div_own; eauto. apply meets_total.
    + destruct (do_total (LDiv v x') s K P Z Logic.I) as (s' & K' & P' & ev & H); [auto|]. do 4 eexists. eapply q_div; eauto.
Qed.

(** ** Programs *)
Notation vr_ := (vrun eqb lt show grow).
Notation run := (v_run eqb lt show d grow).

Theorem run_complete : forall prog h s K P s' K' P' ev, vstands h s K P -> Forall rint_stmt prog -> vr_ prog s K P s' K' P' ev ->
  exists h', run prog h = Ok (h', ev) /\ vstands h' s' K' P'.
Proof.
  induction prog as [|c prog]; intros h s K P s' K' P' ev S A H; cbn [v_run]; inversion H as [|c0 p0 ? ? ? ? ? ? ? ? ? ev1 ev2 V1 V2]; subst; [eauto|].
  inversion A as [|c1 p1 A1 A2]; subst. destruct (step_ok _ _ _ _ _ _ _ _ _ S A1 V1) as (h1 & -> & S1).
  cbn [bind fst snd]. destruct (IHprog _ _ _ _ _ _ _ _ S1 A2 V2) as (h2 & -> & S2). cbn [bind fst snd]. eauto.
Qed.

Theorem run_cases : forall prog h s K P, vstands h s K P -> Forall rint_stmt prog ->
  (exists h' s' K' P' ev, run prog h = Ok (h', ev) /\ vr_ prog s K P s' K' P' ev /\ vstands h' s' K' P') \/ (exists u, run prog h = UB u).
Proof.
  induction prog as [|c prog]; intros h s K P S A; cbn [v_run].
  - left. do 5 eexists. split; [reflexivity|]. split; [constructor|eauto].
  - inversion A as [|c0 p0 A1 A2]; subst. destruct (step_cases c h s K P S A1) as [(s1 & K1 & P1 & ev1 & V)|(_ & u & ->)]; [|right; cbn [bind]; eauto].
    destruct (step_ok _ _ _ _ _ _ _ _ _ S A1 V) as (h1 & -> & S1). cbn [bind fst snd].
    destruct (IHprog h1 s1 K1 P1 S1 A2) as [(h2 & s2 & K2 & P2 & ev2 & -> & V2 & S2)|(u & ->)]; [left|right; cbn [bind]; eauto].
    cbn [bind fst snd]. do 5 eexists. split; [reflexivity|]. split; [econstructor; eauto|auto].
Qed.

Theorem run_refines : forall prog h s K P h' ev, vstands h s K P -> Forall rint_stmt prog -> run prog h = Ok (h', ev) ->
  exists s' K' P', vr_ prog s K P s' K' P' ev /\ vstands h' s' K' P'.
Proof.
  intros prog h s K P h' ev S A R. destruct (run_cases prog h s K P S A) as [(h2 & s2 & K2 & P2 & ev2 & R2 & V & S2)|(u & R2)]; [|congruence].
  rewrite R in R2. inversion R2; subst. eauto.
Qed.

Theorem step_ub : forall c h s K P, vstands h s K P -> rint_stmt c ->
  ((exists u, vstp c h = UB u) <-> ~ exists s' K' P' ev, vs c s K P s' K' P' ev).
Proof.
  intros c h s K P S A. split.
  - intros (u & R) (s' & K' & P' & ev & V). destruct (step_ok _ _ _ _ _ _ _ _ _ S A V) as (h' & R' & _). congruence.
  - intros N. destruct (step_cases c h s K P S A) as [V|(_ & U)]; [contradiction|auto].
Qed.

Theorem step_risky : forall c h s K P u, vstands h s K P -> rint_stmt c -> vstp c h = UB u ->
  (exists c', c = RDo c' /\ lundef c' s) \/ (exists r, lderefs c r /\ forall v i, P r <> LTo v i).
Proof.
  intros c h s K P u S A R. destruct (step_cases c h s K P S A) as [(s' & K' & P' & ev & V)|(X & _)]; [|exact X].
  destruct (step_ok _ _ _ _ _ _ _ _ _ S A V) as (h' & R' & _). congruence.
Qed.

(** ** Clients *)

Lemma run_app : forall p q h, run (p ++ q) h = (he <- run p h ;; he' <- run q (fst he) ;; Ok (fst he', snd he ++ snd he')).
Proof.
  induction p as [|c p IH]; intros q h; cbn [app v_run bind fst snd].
  - destruct (run q h) as [[h' ev]|?|?|]; reflexivity.
  - destruct (vstp c h) as [[h1 ev1]|?|?|]; cbn [bind fst snd]; auto. rewrite IH.
    destruct (run p h1) as [[h2 ev2]|?|?|]; cbn [bind fst snd]; auto.
    destruct (run q h2) as [[h3 ev3]|?|?|]; cbn [bind fst snd]; auto. rewrite app_assoc. auto.
Qed.
Lemma run_one : forall c h h' ev, vstp c h = Ok (h', ev) -> run [c] h = Ok (h', ev).
Proof. intros c h h' ev E. cbn [v_run]. rewrite E. cbn [bind fst snd]. rewrite app_nil_r. auto. Qed.

(** Taking the address of a present element. *)
Lemma addr_ok : forall h s K P r v i k, vstands h s K P -> INT_MIN <= i <= INT_MAX -> position (len (s v)) i = Some k ->
  exists h1, vstp (RAddr r v i) h = Ok (h1, []) /\ vstands h1 s K (vset P r (LTo v k)).
Proof.
  intros h s K P r v i k S A E. eapply step_ok; eauto. eapply q_addr; eauto.
  unfold lpoints, vset. rewrite Nat.eqb_refl. split; auto. intros q N. destruct (Nat.eqb_spec q r); congruence.
Qed.
Lemma vset_eq : forall A (f : nat -> A) r x, vset f r x r = x.
Proof. intros. unfold vset. rewrite Nat.eqb_refl. auto. Qed.

Lemma read_ok : forall h s K P r v k y, vstands h s K P -> P r = LTo v k -> nth_error (s v) k = Some y -> vstp (RRead r) h = Ok (h, [LElem y]).
Proof.
  intros h s K P r v k y S E N. cbn [v_step]. destruct (at_holds h s K P r y S) as (a & -> & <-); [exists v, k; auto|]. auto.
Qed.
Lemma read_gone : forall h s K P r, vstands h s K P -> P r = LGone -> vstp (RRead r) h = UB BadDeref.
Proof.
  intros h s K P r S E. cbn [v_step]. rewrite (at_gone h s K P r S); auto. intros v i. rewrite E. discriminate.
Qed.

(** References name positions: sorting changes the value. *)
Theorem sort_moves : forall h s K P r v i k l' y, vstands h s K P -> INT_MIN <= i <= INT_MAX -> position (len (s v)) i = Some k ->
  stably_sorted lt (s v) l' -> nth_error l' k = Some y ->
  exists h', run [RAddr r v i; RDo (LSort v); RRead r] h = Ok (h', [LElem y]).
Proof.
  intros h s K P r v i k l' y S A E Q N. destruct (addr_ok h s K P r v i k S A E) as (h1 & R1 & S1).
  assert (vs (RDo (LSort v)) s K (vset P r (LTo v k)) (lset s v l') K (vset P r (LTo v k)) []) as V.
  { eapply q_stmt; [apply (s_mut eqb lt show (LSort v) v); [reflexivity|constructor; exact Q]|apply e_values; [exact Logic.I|apply unsized_refl]|].
    intros q. destruct (vset P r (LTo v k) q); auto. }
  destruct (step_ok (RDo (LSort v)) _ _ _ _ _ _ _ _ S1 Logic.I V) as (h2 & R2 & S2).
  cbn [v_run]. rewrite R1. cbn [bind fst snd]. rewrite R2. cbn [bind fst snd].
  rewrite (read_ok h2 _ _ _ r v k y S2); [|apply vset_eq|rewrite lset_eq; auto]. cbn [bind fst snd app]. eauto.
Qed.

(** Removing an element: exactly the references in front of it survive. *)
Theorem remove_exact : forall h s K P r v i j k m y z, vstands h s K P -> INT_MIN <= i <= INT_MAX -> INT_MIN <= j <= INT_MAX ->
  position (len (s v)) i = Some k -> position (len (s v)) j = Some m -> nth_error (s v) k = Some y -> nth_error (s v) m = Some z ->
  ((k < m)%nat -> exists h', run [RAddr r v i; RDo (LRemove v j); RRead r] h = Ok (h', [LElem z; LElem y])) /\
  ((m <= k)%nat -> run [RAddr r v i; RDo (LRemove v j); RRead r] h = UB BadDeref).
Proof.
  intros h s K P r v i j k m y z S A B E F N M. destruct (addr_ok h s K P r v i k S A E) as (h1 & R1 & S1).
  pose proof (nth_error_split _ _ M) as (a & b & Ev & L).
  set (Q := vset P r (LTo v k)) in *.
  assert (V : vs (RDo (LRemove v j)) s K Q (lset s v (a ++ b)) K (fun q => move_ptr (Cut v m) (Q q)) [LElem z]).
  { eapply q_stmt; [apply (s_mut eqb lt show (LRemove v j) v); [reflexivity|]|eapply e_remove; [exact F|apply unsized_refl]|apply meets_total].
    eapply m_remove; [exact F|]. split; [exact Ev|lia]. }
  assert (QR : Q r = LTo v k) by apply vset_eq.
  destruct (step_ok (RDo (LRemove v j)) _ _ _ _ _ _ _ _ S1 B V) as (h2 & R2 & S2). split; intros C.
  - cbn [v_run]. rewrite R1. cbn [bind fst snd]. rewrite R2. cbn [bind fst snd]. rewrite (read_ok h2 _ _ _ r v k y S2).
    + cbn [bind fst snd app]. eauto.
    + cbv beta. rewrite QR. cbn [move_ptr]. rewrite Nat.eqb_refl. destruct (Nat.leb_spec m k); [lia|]. auto.
    + rewrite lset_eq. rewrite Ev in N. rewrite nth_error_app1 in * by lia. auto.
  - cbn [v_run]. rewrite R1. cbn [bind fst snd]. rewrite R2. cbn [bind fst snd]. rewrite (read_gone h2 _ _ _ r S2); auto.
    rewrite QR. cbn [move_ptr]. rewrite Nat.eqb_refl. destruct (Nat.leb_spec m k); [auto|lia].
Qed.

(** Appending an element of the list itself is fine, whether or not the elements move. *)
Theorem append_own : forall h s K P r v i k y, vstands h s K P -> INT_MIN <= i <= INT_MAX -> position (len (s v)) i = Some k ->
  nth_error (s v) k = Some y -> len (s v) < INT_MAX ->
  exists h', run [RAddr r v i; RAppend v r] h = Ok (h', []) /\ lview h' v = s v ++ [y].
Proof.
  intros h s K P r v i k y S A E N B. destruct (addr_ok h s K P r v i k S A E) as (h1 & R1 & S1).
  set (Q := vset P r (LTo v k)) in *.
  destruct (grown_total v (length (s v)) (Z.of_nat (length (s v))) 1 K) as (f & K' & G).
  assert (V : vs (RAppend v r) s K Q (lset s v (s v ++ [y])) K' (fun q => move_ptr f (Q q)) []).
  { eapply q_append; [exists v, k; split; [apply vset_eq|exact N]|].
    eapply q_stmt; [apply (s_mut eqb lt show (LAppend v y) v); [reflexivity|apply m_append; exact B]|apply e_append; exact G|apply meets_total]. }
  destruct (step_ok (RAppend v r) _ _ _ _ _ _ _ _ S1 Logic.I V) as (h2 & R2 & S2). exists h2. split.
  - cbn [v_run]. rewrite R1. cbn [bind fst snd]. rewrite R2. auto.
  - rewrite (vs_view _ _ _ _ S2), lset_eq. auto.
Qed.

(** Appending: a reference survives exactly as long as the capacity suffices. *)
Lemma append_step : forall h s K P v x, vstands h s K P -> len (s v) < INT_MAX ->
  (len (s v) < K v -> exists h', vstp (RDo (LAppend v x)) h = Ok (h', []) /\ vstands h' (lset s v (s v ++ [x])) K P) /\
  (K v <= len (s v) -> exists h' K', vstp (RDo (LAppend v x)) h = Ok (h', []) /\
     vstands h' (lset s v (s v ++ [x])) K' (fun q => move_ptr (Cut v 0) (P q))).
Proof.
  intros h s K P v x S B. split; intros C.
  - eapply step_ok; eauto; [exact Logic.I|].
    eapply q_stmt; [apply (s_mut eqb lt show (LAppend v x) v); [reflexivity|apply m_append; exact B]|apply e_append; apply g_fits; [|apply unsized_refl]|].
    + unfold len in *. lia.
    + intros r. destruct (P r) as [|u i|] eqn:E; auto. right. split; auto. destruct (Nat.eq_dec u v) as [->|]; auto. right.
      pose proof (vs_ptr _ _ _ _ S r) as O. rewrite E in O. destruct O as (a & _ & O). rewrite <- (stands_len _ _ _ _ v S).
      apply nth_error_Some. congruence.
  - assert (V : vs (RDo (LAppend v x)) s K P (lset s v (s v ++ [x])) (vset K v (Z.max (len (s v) + 1) (grow (K v) (len (s v) + 1)))) (fun q => move_ptr (Cut v 0) (P q)) []).
    { eapply q_stmt; [apply (s_mut eqb lt show (LAppend v x) v); [reflexivity|apply m_append; exact B]|apply e_append; apply g_moves|apply meets_total].
      - unfold len in *. lia.
      - apply resized_total. }
    destruct (step_ok (RDo (LAppend v x)) _ _ _ _ _ _ _ _ S Logic.I V) as (h' & R & S'). eauto.
Qed.

(** Once gone, gone. *)
Lemma appends_gone : forall n h s K P v r x, vstands h s K P -> P r = LGone -> len (s v) + Z.of_nat n <= INT_MAX ->
  exists h' s' K' P', run (repeat (RDo (LAppend v x)) n) h = Ok (h', []) /\ vstands h' s' K' P' /\ P' r = LGone.
Proof.
  induction n as [|n IH]; intros h s K P v r x S E B; cbn [repeat v_run].
  - do 4 eexists. split; [reflexivity|]. split; eauto.
  - destruct (append_step h s K P v x S ltac:(lia)) as (F & G).
    assert (exists h1 K1 P1, vstp (RDo (LAppend v x)) h = Ok (h1, []) /\ vstands h1 (lset s v (s v ++ [x])) K1 P1 /\ P1 r = LGone) as (h1 & K1 & P1 & -> & S1 & E1).
    { destruct (Z.le_gt_cases (K v) (len (s v))) as [C|C].
      - destruct (G C) as (h1 & K1 & R & S1). do 3 eexists. split; [exact R|]. split; [exact S1|]. cbv beta. rewrite E. auto.
      - destruct (F C) as (h1 & R & S1). exists h1, K, P. auto. }
    cbn [bind fst snd]. assert (B1 : len (lset s v (s v ++ [x]) v) + Z.of_nat n <= INT_MAX) by (rewrite lset_eq, len_app, len_cons, len_nil; lia).
    destruct (IH h1 _ K1 P1 v r x S1 E1 B1) as (h2 & s2 & K2 & P2 & -> & S2 & E2).
    cbn [bind fst snd app]. do 4 eexists. split; [reflexivity|]. split; eauto.
Qed.

Lemma appends_to : forall n h s K P v r k x y, vstands h s K P -> P r = LTo v k -> nth_error (s v) k = Some y -> len (s v) + Z.of_nat n <= INT_MAX ->
  exists h' s' K' P', run (repeat (RDo (LAppend v x)) n) h = Ok (h', []) /\ vstands h' s' K' P' /\
    (len (s v) + Z.of_nat n <= K v -> P' r = LTo v k /\ nth_error (s' v) k = Some y) /\ (K v < len (s v) + Z.of_nat n -> P' r = LGone).
Proof.
  induction n as [|n IH]; intros h s K P v r k x y S E N B; cbn [repeat v_run].
  - do 4 eexists. split; [reflexivity|]. split; [eauto|]. split; auto. intros C. pose proof (vs_fit _ _ _ _ S v). unfold len in *. lia.
  - destruct (append_step h s K P v x S ltac:(lia)) as (F & G).
    assert (LN : len (lset s v (s v ++ [x]) v) = len (s v) + 1) by (rewrite lset_eq, len_app, len_cons, len_nil; lia).
    destruct (Z.le_gt_cases (K v) (len (s v))) as [C|C].
    + destruct (G C) as (h1 & K1 & -> & S1). cbn [bind fst snd].
      assert (E1 : (fun q => move_ptr (Cut v 0) (P q)) r = LGone) by (cbv beta; rewrite E; cbn [move_ptr]; rewrite Nat.eqb_refl; auto).
      destruct (appends_gone n h1 _ K1 _ v r x S1 E1 ltac:(lia)) as (h2 & s2 & K2 & P2 & -> & S2 & E2).
      cbn [bind fst snd app]. do 4 eexists. split; [reflexivity|]. split; [exact S2|]. split; auto. lia.
    + destruct (F C) as (h1 & -> & S1). cbn [bind fst snd].
      assert (N1 : nth_error (lset s v (s v ++ [x]) v) k = Some y).
      { rewrite lset_eq. rewrite nth_error_app1; auto. apply nth_error_Some. congruence. }
      destruct (IH h1 _ K P v r k x y S1 E N1 ltac:(lia)) as (h2 & s2 & K2 & P2 & -> & S2 & E2 & E3).
      cbn [bind fst snd app]. do 4 eexists. split; [reflexivity|]. split; [exact S2|].
      rewrite LN in E2, E3. split; intros; [apply E2|apply E3]; lia.
Qed.

Theorem append_exact : forall n h s K P r v i k x y, vstands h s K P -> INT_MIN <= i <= INT_MAX -> position (len (s v)) i = Some k ->
  nth_error (s v) k = Some y -> len (s v) + Z.of_nat n <= INT_MAX ->
  (len (s v) + Z.of_nat n <= K v -> exists h', run (RAddr r v i :: repeat (RDo (LAppend v x)) n ++ [RRead r]) h = Ok (h', [LElem y])) /\
  (K v < len (s v) + Z.of_nat n -> run (RAddr r v i :: repeat (RDo (LAppend v x)) n ++ [RRead r]) h = UB BadDeref).
Proof.
  intros n h s K P r v i k x y S A E N B. destruct (addr_ok h s K P r v i k S A E) as (h1 & R1 & S1).
  destruct (appends_to n h1 s K _ v r k x y S1 (vset_eq _ _ _ _) N B) as (h2 & s2 & K2 & P2 & R2 & S2 & E2 & E3).
  cbn [v_run]. rewrite R1. cbn [bind fst snd]. rewrite run_app, R2. cbn [bind fst snd v_run]. split; intros C.
  - destruct (E2 C) as (X & Y). rewrite (read_ok h2 s2 K2 P2 r v k y); auto. cbn [bind fst snd app]. eauto.
  - rewrite (read_gone h2 s2 K2 P2 r); auto.
Qed.

(** Whatever the library does, enough appends end every reference. *)
Theorem append_ends : forall h s K P r v i k x, vstands h s K P -> INT_MIN <= i <= INT_MAX -> position (len (s v)) i = Some k -> K v < INT_MAX ->
  exists n, len (s v) + Z.of_nat n <= INT_MAX /\ run (RAddr r v i :: repeat (RDo (LAppend v x)) n ++ [RRead r]) h = UB BadDeref.
Proof.
  intros h s K P r v i k x S A E B. pose proof (vs_fit _ _ _ _ S v) as F. fold (len (s v)) in F.
  exists (Z.to_nat (K v - len (s v) + 1)). split; [lia|].
  assert (exists y, nth_error (s v) k = Some y) as (y & N).
  { destruct (position_back _ _ _ E) as (_ & L). destruct (nth_error (s v) k) eqn:X; eauto. apply nth_error_None in X. unfold len in L. lia. }
  eapply append_exact; eauto; lia.
Qed.
End Ref.
