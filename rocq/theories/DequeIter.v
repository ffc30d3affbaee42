(** Proofs about iterators over Deques. *)
From Coq Require Import ZArith List Bool Ascii Lia.
From Verif Require Import Outcome ListModel ListSpec ListFacts ListMore DequeModel DequeSpec DequeFacts UndefSpec UndefFacts ListRefModel ListRefSpec ListRef
  DequeRefModel DequeRefSpec DequeRef ListIterSpec ListIter DequeIterModel DequeIterSpec.
Import ListNotations.
Open Scope Z_scope.

Section Iter.
Context {T : Type} (eqb : T -> T -> bool) (show : T -> list ascii).
Hypothesis D : decides eqb.
Implicit Types (h : qstate T) (s : dstore T) (t : ystate T) (P : nat -> lptr) (I : nat -> lcur).
Notation qspec := (qstep show).
Notation ws := (wstep show).
Notation qstp := (q_step eqb show).
Notation ystp := (y_step eqb show).
Notation ys := (ystep show).

(** ** One element through a statement *)
Definition with_r h r : qstate T := QState (qa h) (qm h) (ql h) (qn h) r.

Lemma with_r_stands : forall h s P P2 r, qstands h s P -> (forall i, qptr_ok h (P2 i) (r i)) -> qstands (with_r h r) s P2.
Proof. intros h s P P2 r S R. destruct S. constructor; auto. Qed.

Lemma with_r_do : forall c h r, q_do eqb show c (with_r h r) =
  match q_do eqb show c h with Ok (h', ev) => Ok (with_r h' r, ev) | Throw e => Throw e | UB u => UB u | OutOfFuel => OutOfFuel end.
Proof.
  intros c h r. unfold q_do. change (dview (with_r h r)) with (dview h). destruct (dstep eqb show c (dview h)) as [[s' ev]|?|?|]; auto.
  destruct (dthrew ev); auto. destruct (dop_of c (dview h)); reflexivity.
Qed.

Lemma do_ptr : forall c h s P s' ev f h' p o, qstands h s P -> dint_stmt c -> qspec c s s' ev -> deffect c s ev f ->
  q_do eqb show c h = Ok (h', ev) -> qptr_ok h p o -> qptr_ok h' (move_dptr f p) o.
Proof.
  intros c h s P s' ev f h' p o S A H F R O.
  pose proof (with_r_stands h s P (fun _ => p) (fun _ => o) S (fun _ => O)) as S2.
  destruct (q_do_ok eqb show D c _ _ _ _ _ _ _ S2 A H F (dmeets_total f _)) as (h2 & R2 & S3).
  rewrite with_r_do, R in R2. inversion R2; subst. exact (qs_ptr _ _ _ S3 0%nat).
Qed.

(** The statements of pointers that change no deque, and the others as statements without pointers. *)
Lemma wstep_kind : forall c s P s' P' ev h h', qstands h s P -> qint_stmt c -> ws c s P s' P' ev -> qstp c h = Ok (h', ev) ->
  (exists c', dint_stmt c' /\ qspec c' s s' ev /\ q_do eqb show c' h = Ok (h', ev) /\ (forall f, yeffect c s ev f <-> yeffect (QDo c') s ev f) /\
     yop_of c s = yop_of (QDo c') s) \/
  (qa h' = qa h /\ ql h' = ql h /\ qn h' = qn h /\ (forall u, length (s' u) = length (s u)) /\ (forall f, yeffect c s ev f -> f = YStay) /\ yop_of c s = ZNone).
Proof.
  intros c s P s' P' ev h h' S A H R. pose proof H as H0.
  assert (K : forall f, match c with QDo _ | QPushBack _ _ | QPushFront _ _ => False | _ => True end -> yeffect c s ev f -> f = YStay).
  { intros f X Y. inversion Y; subst; auto; try (destruct c as [[]| | | | | | | |]); cbn in *; try contradiction. }
  destruct H; cbn [q_step qint_stmt] in *;
    try (right; match type of R with q_take _ ?o _ = _ => destruct o as [a0|e0|u0|]; cbn [q_take] in R; try discriminate end;
         inversion R; subst; repeat split; auto; fail).
  - left. match goal with X : qspec ?c0 _ _ _ |- _ => exists c0 end. repeat split; auto.
  - right. inversion R; subst. repeat split; auto.
  - right. destruct (q_at h r) as [a0|e0|u0|]; cbn [bind] in R; try discriminate. inversion R; subst. repeat split; auto.
  - right. destruct (q_at h r) as [a0|e0|u0|]; cbn [bind] in R; try discriminate. inversion R; subst. repeat split; auto.
    intros u. unfold dset. destruct H1 as (E & _). destruct (Nat.eqb_spec u v) as [->|]; auto. rewrite E, !app_length. auto.
  - left. exists (DPushBack v x). destruct (qat_holds _ _ _ _ _ S H) as (a & Ea & Ex). rewrite Ea in R. cbn [bind] in R. rewrite Ex in R.
    inversion H1; subst. split; [exact Logic.I|]. split; auto. split; auto. split; [|reflexivity].
    intros g; split; intros Y; inversion Y; subst; try contradiction; constructor; auto.
  - left. exists (DPushFront v x). destruct (qat_holds _ _ _ _ _ S H) as (a & Ea & Ex). rewrite Ea in R. cbn [bind] in R. rewrite Ex in R.
    inversion H1; subst. split; [exact Logic.I|]. split; auto. split; auto. split; [|reflexivity].
    intros g; split; intros Y; inversion Y; subst; try contradiction; constructor; auto.
Qed.

Definition elem_goes (f : yfate) s h' (v p a : nat) : Prop :=
  let at_ u q := nth_error (qa h' u) q = Some a in
  match f with
  | YStay => at_ v p
  | YAll u => v <> u -> at_ v p
  | YFirst u => (v <> u -> at_ v p) /\ (v = u -> (0 < p)%nat -> at_ v (p - 1)%nat) /\ (v = u -> p = O -> ql h' a = false)
  | YLast u => ((v <> u \/ (p + 1 < length (s u))%nat) -> at_ v p) /\ (v = u -> (length (s u) <= p + 1)%nat -> ql h' a = false)
  | YGiven u w => (v = u -> ql h' a = false) /\ (v = w -> v <> u -> at_ u p) /\ (v <> u -> v <> w -> at_ v p)
  end.

Lemma elem_step : forall c h s P s' P' ev f h' v p a, qstands h s P -> qint_stmt c -> ws c s P s' P' ev -> qstp c h = Ok (h', ev) ->
  yeffect c s ev f -> nth_error (qa h v) p = Some a -> elem_goes f s h' v p a.
Proof.
  intros c h s P s' P' ev f h' v p a S A H R F N.
  assert (L : (p < length (s v))%nat) by (rewrite <- (qstands_len _ _ _ v S); apply nth_error_Some; congruence).
  destruct (wstep_kind c s P s' P' ev h h' S A H R) as [(c' & A' & H' & R' & FF & _)|(E1 & E2 & E3 & E4 & FF & _)].
  - apply FF in F. clear FF H R A c. 
    destruct (deffect_total show c' s s' ev H') as (g & G).
    pose proof (do_ptr c' h s P s' ev g h' (LTo v p) (Some a) S A' H' G R' (ex_intro _ a (conj eq_refl N))) as O.
    assert (ST : g = DStay -> nth_error (qa h' v) p = Some a).
    { intros ->. destruct O as (b & Eb & O). congruence. }
    inversion F; subst; cbn [elem_goes].
    + apply ST. inversion G; subst; auto; try contradiction.
    + apply ST. inversion G; subst; auto; try contradiction; cbn in *; try contradiction.
    + intros NE. inversion G; subst; cbn in *; try contradiction; try (apply ST; auto; fail);
        repeat match goal with X : _ /\ _ |- _ => destruct X end; subst;
        cbn [move_dptr] in O; (destruct (Nat.eqb_spec v v0); [contradiction|]); destruct O as (b & Eb & O); congruence.
    + apply ST. inversion G; subst; cbn in *; try contradiction; auto; try lia; try congruence.
    + inversion G; subst; try contradiction. cbn [move_dptr] in O. destruct (Nat.eqb_spec v v0) as [->|NE].
      * split; [contradiction|]. destruct p as [|p]; [split; [lia|]|split; [|lia]].
        -- intros _ _. destruct O as (b & Eb & O & _). congruence.
        -- intros _ _. destruct O as (b & Eb & O). cbn [Nat.sub]. rewrite Nat.sub_0_r. congruence.
      * destruct O as (b & Eb & O). split; [|split]; try contradiction. intros _. congruence.
    + inversion G; subst; try contradiction. match goal with X : s v0 = _ |- _ => rename X into Es end.
      assert (LE : length (s v0) = (length a0 + 1)%nat) by (rewrite Es, app_length; reflexivity).
      cbn [move_dptr] in O. destruct (Nat.eqb_spec v v0) as [->|NE]; [destruct (Nat.eqb_spec p (length a0)) as [->|NP]|]; cbn [andb] in O.
      * destruct O as (b & Eb & O & _). split; [intros [X|X]; [congruence|lia]|]. intros. congruence.
      * destruct O as (b & Eb & O). split; [intros; congruence|]. intros. lia.
      * destruct O as (b & Eb & O). split; [intros; congruence|]. intros. contradiction.
    + inversion G; subst; try contradiction. cbn [move_dptr] in O. destruct (Nat.eqb_spec v v0) as [->|NE].
      * destruct O as (b & Eb & O & _). repeat split; intros; try contradiction; congruence.
      * destruct (Nat.eqb_spec v w) as [->|NW]; destruct O as (b & Eb & O); repeat split; intros; try contradiction; congruence.
  - rewrite (FF f F). cbn [elem_goes]. congruence.
Qed.

Lemma dead_step : forall c h s P s' P' ev h' a, qstands h s P -> qint_stmt c -> ws c s P s' P' ev -> qstp c h = Ok (h', ev) ->
  (a < qn h)%nat -> ql h a = false -> ql h' a = false.
Proof.
  intros c h s P s' P' ev h' a S A H R L N.
  destruct (wstep_kind c s P s' P' ev h h' S A H R) as [(c' & A' & H' & R' & FF & _)|(E1 & E2 & E3 & E4 & FF & _)]; [|congruence].
  destruct (deffect_total show c' s s' ev H') as (g & G).
  destruct (do_ptr c' h s P s' ev g h' LGone (Some a) S A' H' G R') as (b & Eb & O & _); [exists a; auto|]. congruence.
Qed.
Lemma qn_step : forall c h s P s' P' ev h', qstands h s P -> qint_stmt c -> ws c s P s' P' ev -> qstp c h = Ok (h', ev) -> (qn h <= qn h')%nat.
Proof.
  intros c h s P s' P' ev h' S A H R.
  destruct (wstep_kind c s P s' P' ev h h' S A H R) as [(c' & A' & H' & R' & FF & _)|(E1 & E2 & E3 & E4 & FF & _)]; [|lia].
  rewrite (q_do_apply eqb show D c' h s P s' ev S A' H') in R'. inversion R'; subst. destruct (dthrew ev); auto.
  destruct (dop_of c' s); cbn [dapply qn keep]; lia.
Qed.

(** ** What a statement does to the iterators *)
Definition zop (f : yfate) : yop :=
  match f with YStay => ZNone | YAll v => ZAll v | YFirst v => ZFirst v | YLast v => ZLast v | YGiven v w => ZMove v w end.

Definition dlens (f : yfate) s s' : Prop :=
  match f with
  | YStay => forall u, length (s' u) = length (s u)
  | YAll v => forall u, u <> v -> s' u = s u
  | YFirst v | YLast v => (forall u, u <> v -> s' u = s u) /\ length (s v) = S (length (s' v))
  | YGiven v w => v <> w /\ forall u, u <> v -> u <> w -> s' u = s u
  end.

Lemma rotated_len : forall (l r : list T) n, rotated l r n -> length r = length l.
Proof. intros l r n (E & _). auto. Qed.

Lemma yeffect_op : forall c h s P s' P' ev f h', qstands h s P -> qint_stmt c -> ws c s P s' P' ev -> qstp c h = Ok (h', ev) ->
  yeffect c s ev f -> (if dthrew ev then ZNone else yop_of c (dview h)) = zop f /\ dlens f s s'.
Proof.
  intros c h s P s' P' ev f h' S A H R F.
  assert (SZ : forall v, size (s v) = len (s v)) by (intros; apply size_ok; apply S).
  assert (OE : yop_of c (dview h) = yop_of c s).
  { destruct c as [c| | | | | | | |]; auto. destruct c; cbn [yop_of yop_do]; auto; rewrite !(qs_view _ _ _ S); auto. }
  rewrite OE. clear OE.
  destruct (wstep_kind c s P s' P' ev h h' S A H R) as [(c' & A' & H' & R' & FF & ->)|(E1 & E2 & E3 & E4 & FF & ->)].
  2: { rewrite (FF f F). destruct (dthrew ev); auto. }
  apply FF in F. clear FF H R A c. 
  inversion H'; subst; inversion F; subst; try contradiction; cbn [dthrew zop yop_of yop_do dlens] in *;
    repeat match goal with X : _ /\ _ |- _ => destruct X end; subst; try congruence;
    try (split; [reflexivity|]); auto; try (intros; apply dset_other; auto; fail);
    try (intros u0; rewrite dset_same; match goal with |- context [Nat.eqb ?a ?b] => destruct (Nat.eqb_spec a b); subst; auto end; fail);
    try (match goal with |- context [Nat.eqb ?a ?b] => destruct (Nat.eqb_spec a b); subst; try contradiction end).
  all: try (split; [reflexivity|]); try (intros; apply dset_other; auto; fail).
  all: try (intros u0; rewrite dset_same; match goal with |- context [Nat.eqb ?a ?b] => destruct (Nat.eqb_spec a b) as [Eu|Nu]; [rewrite ?Eu|]; auto end).
  all: try (rewrite !SZ; match goal with |- context [Z.leb ?a ?b] => destruct (Z.leb_spec a b) as [CC|CC]; unfold len in CC; try lia end).
  all: try (split; [reflexivity|]); auto; try (intros; apply dset_other; auto; fail).
  all: try (match goal with X : ?ss ?v = _ |- context [?ss ?v] => rewrite X end; rewrite ?app_length; reflexivity).
  all: try (eapply rotated_len; eauto; fail).
  all: try apply rev_length.
  all: try (split; [intros; apply dset_other; auto|]; rewrite dset_eq; match goal with X : ?ss ?v = _ |- context [?ss ?v] => rewrite X end; rewrite ?app_length; cbn [length]; lia).
  all: try (destruct H0 as (Es & _); rewrite Es, !app_length; reflexivity).
  all: split; auto; intros u0 N1 N2; rewrite !dset_other; auto.
Qed.

(** ** The owners *)
Lemma q_old : forall h s P v a, qstands h s P -> In a (qa h v) -> (a < qn h)%nat.
Proof. intros h s P v a S N. apply (qs_old _ _ _ S). eapply qs_live; eauto. Qed.

Lemma yowners_keep : forall o h s P own v lo n front (xs : list T), qstands h s P -> (forall v a, In a (qa h v) -> own a = v) ->
  (lo + n <= length (s v))%nat -> (front + n <= length xs)%nat -> (o = ZAll v \/ (front + n = length xs /\ front = 0)%nat) -> (forall x y, o <> ZMove x y) -> (forall x, o = ZAll x -> x = v) ->
  forall u a, In a (qa (keep v lo n front xs h) u) -> yowners o h own a = u.
Proof.
  intros o h s P own v lo n front xs S O A B M N E u a X. rewrite qa_keep in X.
  assert (OLD : forall u, In a (qa h u) -> yowners o h own a = u).
  { intros w J. pose proof (q_old _ _ _ _ _ S J). unfold yowners. destruct o; try (apply O; auto).
    - destruct (Nat.leb_spec (qn h) a); [lia|auto].
    - destruct (N v0 w0). auto. }
  destruct (Nat.eqb_spec u v) as [->|Nu]; [|apply OLD; auto].
  apply in_qnews in X. destruct X as [X|X]; [|apply OLD; eapply in_window; eauto].
  apply in_seq in X. destruct M as [->|M].
  - cbn [yowners]. destruct (Nat.leb_spec (qn h) a); [auto|lia].
  - lia.
Qed.

Lemma yowners_ok : forall c h s P s' P' ev f h' own, qstands h s P -> qint_stmt c -> ws c s P s' P' ev -> qstp c h = Ok (h', ev) -> yeffect c s ev f ->
  (forall v a, In a (qa h v) -> own a = v) -> forall u a, In a (qa h' u) -> yowners (zop f) h own a = u.
Proof.
  intros c h s P s' P' ev f h' own S A H R F O u a X.
  assert (OLD : forall u, In a (qa h u) -> (forall x y, f <> YGiven x y) -> yowners (zop f) h own a = u).
  { intros w J N. pose proof (q_old _ _ _ _ _ S J). unfold yowners. destruct f; cbn [zop]; try (apply O; auto).
    - destruct (Nat.leb_spec (qn h) a); [lia|auto].
    - destruct (N v w0). auto. }
  destruct (yeffect_op c h s P s' P' ev f h' S A H R F) as (OP & DL).
  destruct (wstep_kind c s P s' P' ev h h' S A H R) as [(c' & A' & H' & R' & FF & OO)|(E1 & E2 & E3 & E4 & FF & _)].
  2: { rewrite (FF f F) in *. cbn [zop yowners]. apply O. congruence. }
  apply FF in F. clear FF H R A c OP OO. 
  rewrite (q_do_apply eqb show D c' h s P s' ev S A' H') in R'. inversion R'; subst h'. clear R'.
  assert (SZ : forall v, size (s v) = len (s v)) by (intros; apply size_ok; apply S).
  assert (NM : (exists x y, f = YGiven x y) \/ forall x y, f <> YGiven x y) by (destruct f; eauto; right; discriminate).
  destruct NM as [(x & y & ->)|NM].
  { inversion F; subst. cbn [dthrew dop_of dapply qa zop yowners] in *. destruct DL as (Nvw & _). unfold vset in X.
    destruct (Nat.eqb_spec u y) as [->|Nw]; [destruct X|]. destruct (Nat.eqb_spec u x) as [->|Nv].
    - apply among_In in X. rewrite X. auto.
    - destruct (among (qa h y) a) eqn:E; [|apply O; auto]. apply among_In in E.
      apply In_nth_error in E. destruct E as (i & E). apply In_nth_error in X. destruct X as (j & X).
      destruct (qs_one _ _ _ S _ _ _ _ _ E X). congruence. }
  destruct (dthrew ev) eqn:TH; [apply OLD; auto|].
  destruct (dop_of c' s) as [|v lo n front|v w] eqn:DO; cbn [dapply] in X.
  - apply OLD; auto.
  - assert (QQ : (lo + n <= length (s v))%nat /\ (front + n <= length (s' v))%nat /\ (zop f = ZAll v \/ (front + n = length (s' v) /\ front = 0)%nat) /\ (forall x, zop f = ZAll x -> x = v)).
    { inversion H'; subst; inversion F; subst; try contradiction; cbn [dthrew zop yop_of yop_do dlens dop_of] in *; try discriminate;
        repeat match goal with X : _ /\ _ |- _ => destruct X end; subst; try contradiction; try lia;
        repeat match goal with X : context [Nat.eqb ?a ?b] |- _ => destruct (Nat.eqb_spec a b); subst; try contradiction; try discriminate end;
        rewrite ?SZ in DO; unfold len in DO;
        repeat match goal with X : context [Z.leb ?a ?b] |- _ => destruct (Z.leb_spec a b); try discriminate; try lia end;
        inversion DO; subst; rewrite ?dset_eq;
        repeat match goal with X : rotated _ _ _ |- _ => apply rotated_len in X end;
        repeat match goal with X : cut _ _ _ _ |- _ => destruct X end;
        repeat match goal with X : s _ = _ |- _ => rewrite X in * end; rewrite ?app_length, ?rev_length in *; cbn [length] in *;
        (split; [lia|split; [lia|split; [try (left; reflexivity); right; lia|intros ? XX; inversion XX; auto]]]). }
    destruct QQ as (Q1 & Q2 & Q3 & Q4). eapply yowners_keep; eauto. intros ? ? XX. destruct f; try discriminate. eapply NM; eauto.
  - destruct c'; cbn [dop_of] in DO; try discriminate; repeat match goal with X : context [if ?b then _ else _] |- _ => destruct b; try discriminate end.
    inversion F; subst; try contradiction; try discriminate. edestruct NM; eauto.
Qed.

Lemma yends_mono : forall o h (g : nat -> nat) u, (g u <= yends o h g u)%nat.
Proof.
  intros o h g u. destruct o; cbn [yends]; auto; try (rewrite bumped; destruct (Nat.eqb u v); lia).
  - destruct (Nat.leb _ _); [rewrite bumped; destruct (Nat.eqb u v); lia|lia].
  - destruct (Nat.eqb u v || Nat.eqb u w); lia.
Qed.
Lemma ystamps_mono : forall o h (g : nat -> nat) a, (g a <= ystamps o h g a)%nat.
Proof. intros o h g a. destruct o; cbn [ystamps]; auto. destruct (among _ _); lia. Qed.

(** ** Iterators through a change of elements *)
Lemma next_stands : forall f t s P I h' s' P' I', ystands t s P I -> qstands h' s' P' -> dlens f s s' ->
  (forall v p a, nth_error (qa (yh t) v) p = Some a -> elem_goes f s h' v p a) ->
  (forall a, (a < qn (yh t))%nat -> ql (yh t) a = false -> ql h' a = false) -> (qn (yh t) <= qn h')%nat ->
  (forall u a, In a (qa h' u) -> yowners (zop f) (yh t) (yo t) a = u) -> ymoved f s I I' ->
  ystands (y_next (zop f) h' t) s' P' I'.
Proof.
  intros f t s P I h' s' P' I' (S & O & C) S' DL EG DE QN OW M. split; [exact S'|]. split; [exact OW|].
  intros i. specialize (C i). specialize (M i). cbn [y_next yh yi yt yg].
  destruct (I i) as [|u p|].
  - rewrite M. auto.
  - destruct C as [(a & C1 & C2)|(-> & C1)].
    + pose proof (EG _ _ _ C2) as G. pose proof (nth_error_In _ _ C2) as J. pose proof (q_old _ _ _ _ _ S J) as QO.
      assert (L : (p < length (s u))%nat) by (rewrite <- (qstands_len _ _ _ u S); apply nth_error_Some; congruence).
      destruct f as [|v|v|v|v w]; cbn [elem_goes zop ystamps] in *.
      * rewrite M. left. exists a. auto.
      * destruct M as [(-> & ->)|(N & ->)].
        -- left. exists a, (yt t a). split; auto. split; [lia|]. right. apply among_In in J. rewrite J. lia.
        -- left. exists a. split; [|auto]. destruct (among (qa (yh t) v) a) eqn:E; [|auto]. apply among_In in E.
           apply In_nth_error in E. destruct E as (j & E). destruct (qs_one _ _ _ S _ _ _ _ _ E C2). congruence.
      * destruct G as (G1 & G2 & G3). destruct M as [(-> & [->|M1] & ->)|[(-> & M1 & M2 & ->)|(N & ->)]].
        -- left. exists a, (yt t a). split; auto. split; [lia|]. auto.
        -- left. exists a, (yt t a). split; auto. split; [lia|]. left. apply G3; auto. lia.
        -- left. exists a. auto.
        -- left. exists a. auto.
      * destruct G as (G1 & G2). destruct M as [(-> & M1 & ->)|(M1 & ->)].
        -- left. exists a, (yt t a). split; auto. split; [lia|]. auto.
        -- left. exists a. auto.
      * destruct G as (G1 & G2 & G3). destruct M as [(-> & ->)|[(-> & M1 & M2 & ->)|[(-> & M1 & M2 & ->)|(M1 & M2 & ->)]]].
        -- left. exists a, (yt t a). split; auto. split; [lia|]. auto.
        -- left. exists a. auto.
        -- lia.
        -- left. exists a. auto.
    + destruct f as [|v|v|v|v w]; cbn [zop yends dlens] in *.
      * rewrite M. right. rewrite DL. auto.
      * destruct M as [(-> & ->)|(N & ->)].
        -- right. do 2 eexists. split; [exact C1|]. rewrite bumped, Nat.eqb_refl. lia.
        -- right. rewrite DL, bumped by auto. destruct (Nat.eqb_spec u v); [contradiction|auto].
      * destruct DL as (DL & DN). rewrite (qstands_len _ _ _ v S). destruct M as [(-> & M1 & ->)|[(-> & M1 & M2 & ->)|(N & ->)]].
        -- right. do 2 eexists. split; [exact C1|]. destruct (Nat.leb_spec (length (s v)) 1); [|lia]. rewrite bumped, Nat.eqb_refl. lia.
        -- right. destruct (Nat.leb_spec (length (s v)) 1); [lia|]. split; auto. lia.
        -- right. rewrite DL by auto. split; auto. destruct (Nat.leb _ _); [|auto]. rewrite bumped. destruct (Nat.eqb_spec u v); [contradiction|auto].
      * destruct DL as (DL & DN). destruct M as [(-> & M1 & ->)|(M1 & ->)].
        -- right. do 2 eexists. split; [exact C1|]. rewrite bumped, Nat.eqb_refl. lia.
        -- right. destruct (Nat.eq_dec u v) as [->|N]; [lia|]. rewrite DL, bumped by auto. destruct (Nat.eqb_spec u v); [contradiction|auto].
      * destruct DL as (N & DL). destruct M as [(-> & ->)|[(-> & M1 & M2 & ->)|[(-> & M1 & M2 & ->)|(M1 & M2 & ->)]]].
        -- right. do 2 eexists. split; [exact C1|]. rewrite Nat.eqb_refl. cbn [orb]. lia.
        -- lia.
        -- right. do 2 eexists. split; [exact C1|]. rewrite Nat.eqb_refl, orb_true_r. lia.
        -- right. rewrite DL by auto. destruct (Nat.eqb_spec u v); [contradiction|]. destruct (Nat.eqb_spec u w); [contradiction|]. auto.
  - rewrite M. destruct C as [(a & n & C1 & C2 & C3)|(v & n & C1 & C2)]; [left|right].
    + exists a, n. split; auto. split; [lia|]. destruct C3 as [C3|C3]; [left; auto|right]. pose proof (ystamps_mono (zop f) (yh t) (yt t) a). lia.
    + exists v, n. split; auto. pose proof (yends_mono (zop f) (yh t) (yg t) v). lia.
Qed.

Theorem ydo_ok : forall c t s P I s' P' I' ev f, ystands t s P I -> qint_stmt c -> ws c s P s' P' ev -> yeffect c s ev f -> ymoved f s I I' ->
  exists t', y_do eqb show c t = Ok (t', ev) /\ ystands t' s' P' I'.
Proof.
  intros c t s P I s' P' I' ev f Y A H F M. pose proof Y as (S & O & C).
  destruct (q_step_ok eqb show D c (yh t) s P s' P' ev S A H) as (h' & R & S').
  destruct (yeffect_op c (yh t) s P s' P' ev f h' S A H R F) as (OP & DL).
  unfold y_do. rewrite R, OP. eexists. split; [reflexivity|]. eapply next_stands; eauto.
  - intros v p a N. apply (elem_step c (yh t) s P s' P' ev); auto.
  - intros a L N. apply (dead_step c (yh t) s P s' P' ev); auto.
  - apply (qn_step c (yh t) s P s' P' ev); auto.
  - intros u a N. apply (yowners_ok c (yh t) s P s' P' ev f h'); auto.
Qed.

Definition move_ycur (f : yfate) s (x : lcur) : lcur :=
  match x with
  | CAt u p =>
      match f with
      | YStay => x
      | YAll v => if Nat.eqb u v then CDead else x
      | YFirst v => if Nat.eqb u v then (if Nat.eqb p 0 || Nat.eqb (length (s v)) 1 then CDead else CAt v (p - 1)) else x
      | YLast v => if Nat.eqb u v && Nat.leb (length (s v)) (p + 1) then CDead else x
      | YGiven v w => if Nat.eqb u v then CDead else if Nat.eqb u w then (if Nat.ltb p (length (s w)) then CAt v p else CDead) else x
      end
  | _ => x
  end.
Lemma ymoved_total : forall f s I, ymoved f s I (fun i => move_ycur f s (I i)).
Proof.
  intros f s I i. destruct (I i) as [|u p|]; cbn [move_ycur]; auto. destruct f as [|v|v|v|v w]; auto.
  - destruct (Nat.eqb_spec u v); auto.
  - destruct (Nat.eqb_spec u v); auto. destruct (Nat.eqb_spec p 0), (Nat.eqb_spec (length (s v)) 1); cbn [orb]; auto. right. left. repeat split; auto. lia.
  - destruct (Nat.eqb_spec u v), (Nat.leb_spec (length (s v)) (p + 1)); cbn [andb]; auto.
  - destruct (Nat.eqb_spec u v); auto. right. destruct (Nat.eqb_spec u w).
    + destruct (Nat.ltb_spec p (length (s w))); auto. right. left. auto.
    + auto.
Qed.
Lemma yeffect_total : forall c s P s' P' ev, ws c s P s' P' ev -> exists f, yeffect c s ev f.
Proof.
  assert (K : forall c s s' ev, qspec c s s' ev -> exists f, yeffect (QDo c) s ev f).
  { intros c s s' ev H. destruct H; try (eexists; apply e_throw); try (eexists; apply e_keep; exact Logic.I); try (eexists; eapply e_all; cbn; auto; fail);
      try (eexists; eapply e_skip; cbn; auto; fail); try (eexists; constructor; fail); try (eexists; eapply e_all; cbn; split; eauto; fail).
    destruct (Nat.eq_dec v w) as [->|N]; [exists YStay; apply e_skip; reflexivity|exists (YAll v); apply e_all; auto]. }
  intros c s P s' P' ev H. destruct H; try (eexists; apply e_throw); try (eexists; apply e_keep; exact Logic.I).
  - eapply K; eauto.
  - inversion H0; subst. match goal with X : qspec _ _ _ _ |- _ => inversion X; subst end; eexists; [apply (e_all _ v); reflexivity|apply e_throw].
  - inversion H0; subst. match goal with X : qspec _ _ _ _ |- _ => inversion X; subst end; eexists; [apply (e_all _ v); reflexivity|apply e_throw].
Qed.
Lemma ystmt_total : forall c s P I s' P' ev, ws c s P s' P' ev -> exists I', ys (YDo c) s P I s' P' I' ev.
Proof.
  intros c s P I s' P' ev H. destruct (yeffect_total c s P s' P' ev H) as (f & F). exists (fun i => move_ycur f s (I i)).
  econstructor; eauto. apply ymoved_total.
Qed.

(** ** Where an iterator is *)
Lemma yat : forall t s P I i v p, ystands t s P I -> I i = CAt v p -> y_at t i = Ok (v, p) /\ (p <= length (s v))%nat.
Proof.
  intros t s P I i v p (S & O & C) E. specialize (C i). rewrite E in C. unfold y_at. destruct C as [(a & -> & N)|(-> & ->)].
  - pose proof (nth_error_In _ _ N) as J. rewrite (qs_live _ _ _ S v a J), Nat.eqb_refl, (O v a J). cbn [andb].
    rewrite (find_at _ p) by (auto; apply qgood_nodup; eapply qstands_good; eauto). split; auto.
    rewrite <- (qstands_len _ _ _ v S). apply Nat.lt_le_incl, nth_error_Some. congruence.
  - rewrite Nat.eqb_refl, (qstands_len _ _ _ v S). auto.
Qed.
Lemma ylost : forall t s P I i, ystands t s P I -> (forall v p, I i <> CAt v p) -> y_at t i = UB BadDeref.
Proof.
  intros t s P I i (S & O & C) E. specialize (C i). unfold y_at. destruct (I i) as [|v p|].
  - rewrite C. auto.
  - destruct (E v p). auto.
  - destruct C as [(a & n & -> & _ & [->|L])|(v & n & -> & L)].
    + auto.
    + destruct (Nat.eqb_spec n (yt t a)); [lia|]. rewrite andb_false_r. auto.
    + destruct (Nat.eqb_spec n (yg t v)); [lia|auto].
Qed.
Lemma yview : forall t s P I v, ystands t s P I -> dview (yh t) v = s v.
Proof. intros t s P I v (S & _). apply S. Qed.
Lemma ysized : forall t s P I, ystands t s P I -> dsized s.
Proof. intros t s P I (S & _). apply S. Qed.
Lemma ylen : forall t s P I v, ystands t s P I -> length (qa (yh t) v) = length (s v).
Proof. intros t s P I v (S & _). eapply qstands_len; eauto. Qed.

Lemma yput_ok : forall t s P I I' i v p, ystands t s P I -> (p <= length (s v))%nat -> lput I i (CAt v p) I' -> ystands (y_put i v p t) s P I'.
Proof.
  intros t s P I I' i v p (S & O & C) L (Q1 & Q2). split; [exact S|]. split; [exact O|]. intros j. cbn [y_put yh yi yt yg]. unfold vset.
  destruct (Nat.eqb_spec j i) as [->|N]; [|rewrite Q2 by auto; apply C]. rewrite Q1. unfold y_iter.
  destruct (nth_error (qa (yh t) v) p) as [a|] eqn:E; [left; eauto|right]. split; auto.
  apply nth_error_None in E. rewrite (qstands_len _ _ _ v S) in E. lia.
Qed.
Lemma yaddr : forall t s P I v p x, ystands t s P I -> nth_error (s v) p = Some x -> exists a, y_addr t v p = Ok a /\ nth_error (qa (yh t) v) p = Some a /\ qm (yh t) a = x.
Proof.
  intros t s P I v p x (S & _) N. rewrite <- (qs_view _ _ _ S v) in N. unfold dview in N. rewrite nth_error_map in N. unfold y_addr.
  destruct (nth_error (qa (yh t) v) p) as [a|] eqn:E; cbn [option_map] in N; [|discriminate]. exists a. inversion N. auto.
Qed.
Lemma yelem : forall t s P I v p x, ystands t s P I -> nth_error (s v) p = Some x -> y_elem t v p = Ok x.
Proof. intros t s P I v p x S N. unfold y_elem. destruct (yaddr _ _ _ _ _ _ _ S N) as (a & -> & _ & <-). auto. Qed.
Lemma yaddr_none : forall t s P I v, ystands t s P I -> y_addr t v (length (s v)) = UB BadDeref.
Proof.
  intros t s P I v S. unfold y_addr. rewrite (proj2 (nth_error_None (qa (yh t) v) (length (s v)))); auto. erewrite ylen by eauto. lia.
Qed.

Lemma yrange_ok : forall t s P I i j u m, ystands t s P I -> encloses s I i j u m -> y_range t i j = Ok (u, m).
Proof.
  intros t s P I i j u m S (a & b & Ei & Ej & Es). unfold y_range.
  destruct (yat _ _ _ _ _ _ _ S Ei) as (-> & L). destruct (yat _ _ _ _ _ _ _ S Ej) as (-> & L0). cbn [bind fst snd]. rewrite Nat.eqb_refl.
  destruct (Nat.leb_spec (length a) (length (a ++ m))) as [_|X]; [|rewrite app_length in X; lia]. cbn [andb].
  erewrite yview by eauto. rewrite Es, split_mid. auto.
Qed.
Lemma encloses_len : forall s I i j u (m : list T), dsized s -> encloses s I i j u m -> Z.of_nat (length m) <= INT_MAX.
Proof. intros s I i j u m Z (a & b & _ & _ & E). specialize (Z u). rewrite E, !app_length in Z. lia. Qed.

(** Inserting a range of another deque. *)
Lemma yinsert_ok : forall (front : bool) t s P I P' I' v (m : list T), ystands t s P I -> Z.of_nat (length (s v)) + Z.of_nat (length m) <= INT_MAX ->
  let l := if front then m ++ s v else s v ++ m in let n := if front then length m else 0%nat in
  dmeets (if front then DUp v (length m) else DStay) P P' -> ymoved (YAll v) s I I' ->
  ystands (y_next (ZAll v) (keep v 0 (length (s v)) n l (yh t)) t) (dset s v l) P' I'.
Proof.
  intros front t s P I P' I' v m Y B l n DM M. pose proof Y as (S & O & C).
  assert (LL : length l = (length (s v) + length m)%nat) by (unfold l; destruct front; rewrite app_length; lia).
  assert (LN : (n + length (s v) <= length l)%nat) by (rewrite LL; unfold n; destruct front; lia).
  assert (W : forall P2 P3 : nat -> lptr, dmeets (if front then DUp v (length m) else DStay) P2 P3 -> forall P0 h0, qstands h0 s P0 -> (forall r u q, P2 r = LTo u q -> (q < length (s u))%nat) ->
     forall r, win_ptr v 0 (length (s v)) n (P2 r) (P3 r)).
  { intros P2 P3 DM2 P0 h0 S0 BD r. specialize (DM2 r). specialize (BD r). unfold n. destruct (P2 r) as [|u q|]; cbn [win_ptr]; auto; destruct front; auto.
    - specialize (BD u q eq_refl). destruct DM2 as [(-> & ->)|(N & ->)]; auto. left. split; auto. split; [lia|]. f_equal. lia.
    - specialize (BD u q eq_refl). rewrite DM2. destruct (Nat.eq_dec u v) as [->|N]; auto. left. split; auto. split; [lia|]. f_equal. lia. }
  assert (SZ : dsized (dset s v l)).
  { intros u. rewrite dset_same. destruct (Nat.eqb_spec u v); [rewrite LL; lia|apply S]. }
  pose proof (qstands_good _ _ _ S) as G. pose proof (qstands_len _ _ _ v S) as QL.
  refine (next_stands (YAll v) t s P I _ _ P' I' Y _ _ _ _ _ _ M).
  - apply (keep_stands v 0 (length (s v)) n l (yh t) s P); auto; [apply dset_eq|intros; apply dset_other; auto|]. apply (W P P' DM P (yh t) S). intros. eapply to_in; eauto.
  - intros u N. apply dset_other. auto.
  - intros u q a E N. rewrite qa_keep. destruct (Nat.eqb_spec u v); [contradiction|auto].
  - intros a L N. cbn [keep ql]. rewrite N. cbn [andb]. rewrite orb_false_r. apply among_not. intros X. apply in_seq in X. lia.
  - cbn [keep qn]. lia.
  - intros u a X. eapply yowners_keep; eauto; try discriminate; [lia|left; reflexivity|]. intros x E. inversion E. auto.
Qed.

Theorem ystep_ok : forall c t s P I s' P' I' ev, ystands t s P I -> yint_stmt c -> ys c s P I s' P' I' ev ->
  exists t', ystp c t = Ok (t', ev) /\ ystands t' s' P' I'.
Proof.
  assert (DO : forall c t s P I s' P' I' ev, ystands t s P I -> qint_stmt c -> ys (YDo c) s P I s' P' I' ev ->
    exists t', y_do eqb show c t = Ok (t', ev) /\ ystands t' s' P' I').
  { intros c t s P I s' P' I' ev S A H. inversion H; subst; [|destruct H0; discriminate]. eapply ydo_ok; eauto. }
  intros c t s P I s' P' I' ev S A H. pose proof (ysized _ _ _ _ S) as Z. 
  assert (SZ : forall v, size (s v) = len (s v)) by (intros; apply size_ok; apply Z).
  destruct H; cbn [y_step yint_stmt] in *.
  - eapply ydo_ok; eauto.
  - eexists. split; [reflexivity|]. eapply yput_ok; eauto. lia.
  - eexists. split; [reflexivity|]. erewrite ylen by eauto. eapply yput_ok; eauto.
  - destruct (yat _ _ _ _ _ _ _ S H) as (-> & L). cbn [bind fst snd]. eexists. split; [reflexivity|]. eapply yput_ok; eauto.
  - destruct (yat _ _ _ _ _ _ _ S H) as (-> & L). cbn [bind fst snd]. unfold len. erewrite ylen by eauto.
    destruct (Z.leb_spec 0 (Z.of_nat p + k)); [|lia]. destruct (Z.leb_spec (Z.of_nat p + k) (Z.of_nat (length (s v)))); [|lia]. cbn [andb].
    eexists. split; [reflexivity|]. replace (Z.to_nat (Z.of_nat p + k)) with q by lia. eapply yput_ok; eauto.
  - destruct (yat _ _ _ _ _ _ _ S H) as (-> & L). cbn [bind fst snd]. rewrite (yelem _ _ _ _ _ _ _ S H0). cbn [bind]. eauto.
  - destruct (yat _ _ _ _ _ _ _ S H) as (-> & L). cbn [bind fst snd]. rewrite (yelem _ _ _ _ _ _ _ S H0). cbn [bind]. eauto.
  - destruct (yat _ _ _ _ _ _ _ S H) as (-> & _). destruct (yat _ _ _ _ _ _ _ S H0) as (-> & _). cbn [bind fst snd]. rewrite Nat.eqb_refl. eauto.
  - destruct (yat _ _ _ _ _ _ _ S H) as (-> & _). cbn [bind fst snd]. destruct (nth_error (s v) p) as [x|] eqn:X; [|apply nth_error_None in X; lia].
    destruct (yaddr _ _ _ _ _ _ _ S X) as (a & -> & N & _). cbn [bind]. eexists. split; [reflexivity|]. destruct S as (S & O & C).
    split; [|split; [exact O|exact C]]. eapply qbind_stands; eauto. exists a. auto.
  - rewrite (yrange_ok _ _ _ _ _ _ _ _ S H). cbn [bind snd]. eapply DO; eauto. eapply encloses_len; eauto.
  - rewrite (yrange_ok _ _ _ _ _ _ _ _ S H). cbn [bind snd]. eapply DO; eauto. cbn [qint_stmt dint_stmt]. rewrite rev_length. eapply encloses_len; eauto.
  - destruct (yat _ _ _ _ _ _ _ S H) as (-> & L). cbn [bind fst snd]. rewrite (yelem _ _ _ _ _ _ _ S H0). cbn [bind]. eapply DO; eauto; exact Logic.I.
  - destruct (yat _ _ _ _ _ _ _ S H) as (-> & L). cbn [bind fst snd]. rewrite (yelem _ _ _ _ _ _ _ S H0). cbn [bind]. eapply DO; eauto; exact Logic.I.
  - unfold y_extend. rewrite (yrange_ok _ _ _ _ _ _ _ _ S H). cbn [bind]. erewrite yview, ylen by eauto. rewrite SZ. unfold len.
    destruct (Z.leb_spec (Z.of_nat (length m)) (INT_MAX - Z.of_nat (length (s v)))); [|lia]. destruct (Nat.eqb_spec u v); [contradiction|].
    cbn [deq_extend_back update]. eexists. split; [reflexivity|]. apply (yinsert_ok false t s P I P' I' v m); auto.
  - unfold y_extend. rewrite (yrange_ok _ _ _ _ _ _ _ _ S H). cbn [bind]. erewrite yview, ylen by eauto. rewrite SZ. unfold len.
    destruct (Z.leb_spec (Z.of_nat (length m)) (INT_MAX - Z.of_nat (length (s v)))); [|lia]. destruct (Nat.eqb_spec u v); [contradiction|].
    cbn [deq_extend_front update]. eexists. split; [reflexivity|]. apply (yinsert_ok true t s P I P' I' v m); auto.
  - assert (X : forall b, y_extend b v i j t = Ok (t, [])).
    { intros b. unfold y_extend. rewrite (yrange_ok _ _ _ _ _ _ _ _ S H0). cbn [bind]. erewrite yview by eauto. rewrite SZ. unfold len.
      destruct (Z.leb_spec (Z.of_nat (length m)) (INT_MAX - Z.of_nat (length (s v)))); [lia|]. auto. }
    exists t. split; auto. destruct H as [->| ->]; cbn [y_step]; apply X.
Qed.

Lemma ydo_total : forall c s P I, dsized s -> dint_stmt c -> (forall s, ~ dundef c s) -> exists s' P' I' ev, ys (YDo (QDo c)) s P I s' P' I' ev.
Proof.
  intros c s P I Z A N. destruct (q_do_total eqb show D c s P Z A (N s)) as (s' & P' & ev & H).
  destruct (ystmt_total _ s P I s' P' ev H) as (I' & V). eauto.
Qed.

(** A range, or the reason why there is none. *)
Definition no_range s I i j : Prop :=
  (forall v p, I i <> CAt v p) \/ (forall v p, I j <> CAt v p) \/ (exists v w p q, I i = CAt v p /\ I j = CAt w q /\ v <> w) \/
  (exists v p q, I i = CAt v p /\ I j = CAt v q /\ (q < p)%nat).
Lemma range_cases : forall t s P I i j, ystands t s P I ->
  (exists u m, encloses s I i j u m) \/ (no_range s I i j /\ exists x, y_range t i j = UB x).
Proof.
  intros t s P I i j S. unfold y_range, no_range.
  destruct (cur_dec (I i)) as [(v & p & Ei)|N]; [|right; split; auto; rewrite (ylost _ _ _ _ i S) by auto; cbn [bind]; eauto].
  destruct (yat _ _ _ _ _ _ _ S Ei) as (-> & Li). cbn [bind].
  destruct (cur_dec (I j)) as [(w & q & Ej)|N]; [|right; split; auto; rewrite (ylost _ _ _ _ j S) by auto; cbn [bind]; eauto].
  destruct (yat _ _ _ _ _ _ _ S Ej) as (-> & Lj). cbn [bind fst snd].
  destruct (Nat.eqb_spec v w) as [->|N]; [|right; split; [right; right; left; exists v, w, p, q; auto|cbn [andb]; eauto]].
  destruct (Nat.leb_spec p q) as [B|B]; cbn [andb].
  - left. destruct (split_at (s w) p q B Lj) as (a & m & b & Es & <- & <- & _). exists w, m, a, b. auto.
  - right. split; [|eauto]. right. right. right. exists w, p, q. auto.
Qed.

Theorem ystep_cases : forall c t s P I, ystands t s P I -> yint_stmt c ->
  (exists s' P' I' ev, ys c s P I s' P' I' ev) \/ (yrisk c s P I /\ exists u, ystp c t = UB u).
Proof.
  intros c t s P I S A. pose proof (ysized _ _ _ _ S) as Z.
  assert (SZ : forall v, size (s v) = len (s v)) by (intros; apply size_ok; apply Z).
  assert (AT : forall i, (exists v p, I i = CAt v p /\ y_at t i = Ok (v, p) /\ (p <= length (s v))%nat) \/ ((forall v p, I i <> CAt v p) /\ y_at t i = UB BadDeref)).
  { intros i. destruct (cur_dec (I i)) as [(v & p & E)|N].
    - left. exists v, p. destruct (yat _ _ _ _ _ _ _ S E). auto.
    - right. split; auto. eapply ylost; eauto. }
  assert (EX : forall (front : bool) v i j, let c := if front then YExtendFront v i j else @YExtendBack T v i j in
    (exists s' P' I' ev, ys c s P I s' P' I' ev) \/ (yrisk c s P I /\ exists u, ystp c t = UB u)).
  { intros front v i j c0. assert (EC : ystp c0 t = y_extend front v i j t) by (destruct front; auto). rewrite EC. clear EC. unfold y_extend.
    destruct (range_cases t s P I i j S) as [(u & m & R)|(N & x & ->)].
    2: { right. split; [|cbn [bind]; eauto]. destruct front; left; exact N. }
    rewrite (yrange_ok _ _ _ _ _ _ _ _ S R). cbn [bind]. erewrite yview by eauto. rewrite SZ. unfold len.
    destruct (Z.leb_spec (Z.of_nat (length m)) (INT_MAX - Z.of_nat (length (s v)))) as [B|B].
    - destruct (Nat.eqb_spec u v) as [->|N].
      + right. split; [|eauto]. destruct R as (a & b & Ei & Ej & Es).
        assert (X : exists p q, I i = CAt v p /\ I j = CAt v q /\ (p <= q)%nat /\ Z.of_nat (length (s v)) + Z.of_nat (q - p) <= INT_MAX).
        { exists (length a), (length (a ++ m)). rewrite Ei, Ej, app_length. repeat split; lia. }
        destruct front; right; exact X.
      + left. destruct front; do 4 eexists.
        * eapply y_extend_front; eauto; [lia|apply dmeets_total|apply ymoved_total].
        * eapply y_extend_back; eauto; [lia|apply dmeets_total|apply ymoved_total].
    - left. do 4 eexists. eapply (y_extend_no show c0 v i j); eauto; [destruct front; auto|lia]. }
  destruct c as [c|i v|i v|i j|i k|i|i|i j|r i|v i j|v i j|v i|v i|v i j|v i j];
    [..|apply (EX false)|apply (EX true)]; clear EX; cbn [y_step yint_stmt yrisk] in *.
  - destruct (q_step_cases eqb show D c (yh t) s P (proj1 S) A) as [(s' & P' & ev & H)|(R & u & U)].
    + left. destruct (ystmt_total c s P I s' P' ev H) as (I' & V). eauto.
    + right. split; [exact R|]. exists u. unfold y_do. rewrite U. auto.
  - left. destruct (lput_total I i (CAt v 0)) as (I' & Q). do 4 eexists. apply y_begin. eauto.
  - left. destruct (lput_total I i (CAt v (length (s v)))) as (I' & Q). do 4 eexists. apply y_end. eauto.
  - destruct (AT j) as [(v & p & E & R & L)|(N & R)]; [left|right; split; [auto|rewrite R; cbn [bind]; eauto]].
    destruct (lput_total I i (CAt v p)) as (I' & Q). do 4 eexists. eapply y_copy; eauto.
  - destruct (AT i) as [(v & p & E & R & L)|(N & R)]; [|right; split; [auto|rewrite R; cbn [bind]; eauto]].
    destruct (Z_le_dec 0 (Z.of_nat p + k)) as [B1|B1]; [destruct (Z_le_dec (Z.of_nat p + k) (Z.of_nat (length (s v)))) as [B2|B2]|].
    + left. destruct (lput_total I i (CAt v (Z.to_nat (Z.of_nat p + k)))) as (I' & Q). do 4 eexists. eapply y_add; [exact E| | |exact Q]; lia.
    + right. split; [right; exists v, p; split; auto; lia|]. rewrite R. cbn [bind fst snd]. unfold len. erewrite ylen by eauto.
      destruct (Z.leb_spec 0 (Z.of_nat p + k)), (Z.leb_spec (Z.of_nat p + k) (Z.of_nat (length (s v)))); try lia. cbn [andb]. eauto.
    + right. split; [right; exists v, p; split; auto; lia|]. rewrite R. cbn [bind fst snd]. destruct (Z.leb_spec 0 (Z.of_nat p + k)); [lia|]. cbn [andb]. eauto.
  - destruct (AT i) as [(v & p & E & R & L)|(N & R)]; [|right; split; [auto|rewrite R; cbn [bind]; eauto]].
    destruct (nth_error (s v) p) as [x|] eqn:X.
    + left. do 4 eexists. eapply y_read; eauto.
    + apply nth_error_None in X. assert (p = length (s v)) by lia. subst p. right. split; [eauto|].
      rewrite R. cbn [bind fst snd]. unfold y_elem. rewrite (yaddr_none _ _ _ _ _ S). cbn [bind]. eauto.
  - destruct (AT i) as [(v & p & E & R & L)|(N & R)]; [|right; split; [auto|rewrite R; cbn [bind]; eauto]].
    destruct p as [|p]; [right; split; [eauto|rewrite R; cbn [bind fst snd]; eauto]|]. destruct (nth_error (s v) p) as [x|] eqn:X.
    + left. do 4 eexists. eapply y_back; eauto.
    + apply nth_error_None in X. lia.
  - destruct (AT i) as [(v & p & E & R & L)|(N & R)]; [|right; split; [auto|rewrite R; cbn [bind]; eauto]].
    destruct (AT j) as [(w & q & E' & R' & L')|(N & R')]; [|right; split; [auto|rewrite R; cbn [bind]; rewrite R'; cbn [bind]; eauto]].
    destruct (Nat.eq_dec v w) as [->|N].
    + left. do 4 eexists. eapply y_diff; eauto.
    + right. split; [right; right; exists v, w, p, q; auto|]. rewrite R, R'. cbn [bind fst snd]. destruct (Nat.eqb_spec v w); [contradiction|eauto].
  - destruct (AT i) as [(v & p & E & R & L)|(N & R)]; [|right; split; [auto|rewrite R; cbn [bind]; eauto]].
    destruct (Nat.eq_dec p (length (s v))) as [->|NE].
    + right. split; [eauto|]. rewrite R. cbn [bind fst snd]. rewrite (yaddr_none _ _ _ _ _ S). cbn [bind]. eauto.
    + left. destruct (points_total P r (LTo v p)) as (P' & Q). do 4 eexists. eapply y_ref; eauto. lia.
  - destruct (range_cases t s P I i j S) as [(u & m & R)|(N & x & ->)]; [left|right; split; [exact N|cbn [bind]; eauto]].
    destruct (ydo_total (DInit v m) s P I Z) as (s' & P' & I' & ev & V); [eapply encloses_len; eauto|auto|]. do 4 eexists. eapply y_new; eauto.
  - destruct (range_cases t s P I j i S) as [(u & m & R)|(N & x & ->)]; [left|right; split; [exact N|cbn [bind]; eauto]].
    destruct (ydo_total (DInit v (rev m)) s P I Z) as (s' & P' & I' & ev & V); [cbn [dint_stmt]; rewrite rev_length; eapply encloses_len; eauto|auto|]. do 4 eexists. eapply y_new_rev; eauto.
  - destruct (AT i) as [(u & p & E & R & L)|(N & R)]; [|right; split; [auto|rewrite R; cbn [bind]; eauto]].
    destruct (nth_error (s u) p) as [x|] eqn:X.
    + left. destruct (ydo_total (DPushBack v x) s P I Z Logic.I) as (s' & P' & I' & ev & V); [auto|]. do 4 eexists. eapply y_push_back; eauto.
    + apply nth_error_None in X. assert (p = length (s u)) by lia. subst p. right. split; [eauto|].
      rewrite R. cbn [bind fst snd]. unfold y_elem. rewrite (yaddr_none _ _ _ _ _ S). cbn [bind]. eauto.
  - destruct (AT i) as [(u & p & E & R & L)|(N & R)]; [|right; split; [auto|rewrite R; cbn [bind]; eauto]].
    destruct (nth_error (s u) p) as [x|] eqn:X.
    + left. destruct (ydo_total (DPushFront v x) s P I Z Logic.I) as (s' & P' & I' & ev & V); [auto|]. do 4 eexists. eapply y_push_front; eauto.
    + apply nth_error_None in X. assert (p = length (s u)) by lia. subst p. right. split; [eauto|].
      rewrite R. cbn [bind fst snd]. unfold y_elem. rewrite (yaddr_none _ _ _ _ _ S). cbn [bind]. eauto.
Qed.

(** ** Programs *)
Notation yr := (yrun show).
Notation run := (y_run eqb show).

Theorem yrun_complete : forall prog t s P I s' P' I' ev, ystands t s P I -> Forall yint_stmt prog -> yr prog s P I s' P' I' ev ->
  exists t', run prog t = Ok (t', ev) /\ ystands t' s' P' I'.
Proof.
  induction prog as [|c prog]; intros t s P I s' P' I' ev S A H; cbn [y_run]; inversion H as [|c0 p0 ? ? ? ? ? ? ? ? ? ev1 ev2 V1 V2]; subst; [eauto|].
  inversion A as [|c1 p1 A1 A2]; subst. destruct (ystep_ok _ _ _ _ _ _ _ _ _ S A1 V1) as (t1 & -> & S1).
  cbn [bind fst snd]. destruct (IHprog _ _ _ _ _ _ _ _ S1 A2 V2) as (t2 & -> & S2). cbn [bind fst snd]. eauto.
Qed.

Theorem yrun_cases : forall prog t s P I, ystands t s P I -> Forall yint_stmt prog ->
  (exists t' s' P' I' ev, run prog t = Ok (t', ev) /\ yr prog s P I s' P' I' ev /\ ystands t' s' P' I') \/ (exists u, run prog t = UB u).
Proof.
  induction prog as [|c prog]; intros t s P I S A; cbn [y_run].
  - left. do 5 eexists. split; [reflexivity|]. split; [constructor|eauto].
  - inversion A as [|c0 p0 A1 A2]; subst. destruct (ystep_cases c t s P I S A1) as [(s1 & P1 & I1 & ev1 & V)|(_ & u & ->)]; [|right; cbn [bind]; eauto].
    destruct (ystep_ok _ _ _ _ _ _ _ _ _ S A1 V) as (t1 & -> & S1). cbn [bind fst snd].
    destruct (IHprog t1 s1 P1 I1 S1 A2) as [(t2 & s2 & P2 & I2 & ev2 & -> & V2 & S2)|(u & ->)]; [left|right; cbn [bind]; eauto].
    cbn [bind fst snd]. do 5 eexists. split; [reflexivity|]. split; [econstructor; eauto|auto].
Qed.

Theorem yrun_refines : forall prog t s P I t' ev, ystands t s P I -> Forall yint_stmt prog -> run prog t = Ok (t', ev) ->
  exists s' P' I', yr prog s P I s' P' I' ev /\ ystands t' s' P' I'.
Proof.
  intros prog t s P I t' ev S A R. destruct (yrun_cases prog t s P I S A) as [(t2 & s2 & P2 & I2 & ev2 & R2 & V & S2)|(u & R2)]; [|congruence].
  rewrite R in R2. inversion R2; subst. eauto.
Qed.

Theorem ystep_ub : forall c t s P I, ystands t s P I -> yint_stmt c ->
  ((exists u, ystp c t = UB u) <-> ~ exists s' P' I' ev, ys c s P I s' P' I' ev).
Proof.
  intros c t s P I S A. split.
  - intros (u & R) (s' & P' & I' & ev & V). destruct (ystep_ok _ _ _ _ _ _ _ _ _ S A V) as (t' & R' & _). congruence.
  - intros N. destruct (ystep_cases c t s P I S A) as [V|(_ & U)]; [contradiction|auto].
Qed.

(** The reasons are exact. *)
Lemma no_range_not : forall s I i j u m, encloses s I i j u m -> no_range s I i j -> False.
Proof.
  intros s I i j u m (a & b & Ei & Ej & Es) [N|[N|[(v & w & p & q & E & E' & N)|(v & p & q & E & E' & N)]]].
  - eapply N; eauto.
  - eapply N; eauto.
  - congruence.
  - rewrite E in Ei. rewrite E' in Ej. inversion Ei. inversion Ej. subst. rewrite app_length in N. lia.
Qed.
Lemma yrisk_not : forall c t s P I s' P' I' ev, ystands t s P I -> yint_stmt c -> ys c s P I s' P' I' ev -> yrisk c s P I -> False.
Proof.
  intros c t s P I s' P' I' ev S A H R. pose proof (ysized _ _ _ _ S) as Z.
  assert (EX : forall v i j u m, encloses s I i j u m -> u <> v \/ INT_MAX < Z.of_nat (length (s v)) + Z.of_nat (length m) ->
    (no_range s I i j \/ exists p q, I i = CAt v p /\ I j = CAt v q /\ (p <= q)%nat /\ Z.of_nat (length (s v)) + Z.of_nat (q - p) <= INT_MAX) -> False).
  { intros v i j u m E N [X|(p & q & Ei & Ej & L & B)]; [eapply no_range_not; eauto|].
    destruct E as (a & b & Ea & Eb & Es). rewrite Ea in Ei. rewrite Eb in Ej. inversion Ei. inversion Ej. subst. destruct N as [N|N]; [congruence|].
    rewrite app_length in B. lia. }
  assert (HE : forall v x, nth_error (s v) (length (s v)) = Some x -> False).
  { intros v x N. rewrite (proj2 (nth_error_None (s v) (length (s v)))) in N by lia. discriminate. }
  destruct H; cbn [yrisk yint_stmt] in *; try contradiction;
    try (eapply no_range_not; eauto; fail); try (eapply EX; eauto; fail);
    try (destruct R as [R|R]; [eapply R; eauto|]); try (eapply R; eauto; fail).
  - destruct (q_step_ok eqb show D _ _ _ _ _ _ _ (proj1 S) A H) as (h' & Q & _).
    assert (X : exists u, qstp c (yh t) = UB u).
    { destruct c as [c| | | | | | | |]; cbn [dderefs] in R;
        try (destruct R as [(c' & E & _)|(r0 & X & _)]; [discriminate E|contradiction]);
        try (destruct R as [(c' & E & _)|(r0 & -> & N)]; [discriminate E|]; cbn [q_step]; rewrite (qat_gone _ _ _ _ (proj1 S) N); cbn [bind]; eauto; fail).
      destruct R as [(c' & E & U)|(r0 & X & _)]; [|contradiction]. inversion E; subst c'. apply (dundef_exact T eqb show c s D Z A) in U. destruct U as (u & U).
      exists u. cbn [q_step]. unfold q_do. rewrite (dstep_ext_ub eqb show c s (dview (yh t)) u); auto. intros w. symmetry. apply (proj1 S). }
    destruct X. congruence.
  - destruct R as (v0 & p0 & E & N). rewrite H in E. inversion E; subst. lia.
  - destruct R as (v0 & E). rewrite H in E. inversion E; subst. eauto.
  - destruct R as (v0 & E). rewrite H in E. inversion E; subst.
  - destruct R as [R|R]; [eapply R; eauto|]. destruct R as (v1 & w1 & p1 & q1 & E1 & E2 & N). congruence.
  - destruct R as (v0 & E). rewrite H in E. inversion E; subst. lia.
  - destruct R as (v0 & E). rewrite H in E. inversion E; subst. eauto.
  - destruct R as (v0 & E). rewrite H in E. inversion E; subst. eauto.
  - destruct H as [->| ->]; cbn [yrisk] in R; eapply EX; eauto.
Qed.

Theorem ystep_risk : forall c t s P I, ystands t s P I -> yint_stmt c -> ((exists u, ystp c t = UB u) <-> yrisk c s P I).
Proof.
  intros c t s P I S A. destruct (ystep_cases c t s P I S A) as [(s' & P' & I' & ev & V)|(R & U)]; [|tauto].
  split; intros X.
  - destruct X as (u & X). destruct (ystep_ok _ _ _ _ _ _ _ _ _ S A V) as (t' & R' & _). congruence.
  - destruct (yrisk_not _ _ _ _ _ _ _ _ _ S A V X).
Qed.

(** ** Single statements *)
Lemma yrun_app : forall p q t, run (p ++ q) t = (te <- run p t ;; te' <- run q (fst te) ;; Ok (fst te', snd te ++ snd te')).
Proof.
  induction p as [|c p IH]; intros q t; cbn [app y_run bind fst snd].
  - destruct (run q t) as [[t' ev]|?|?|]; reflexivity.
  - destruct (ystp c t) as [[t1 ev1]|?|?|]; cbn [bind fst snd]; auto. rewrite IH.
    destruct (run p t1) as [[t2 ev2]|?|?|]; cbn [bind fst snd]; auto.
    destruct (run q t2) as [[t3 ev3]|?|?|]; cbn [bind fst snd]; auto. rewrite app_assoc. auto.
Qed.
Lemma ybegin_ok : forall t s P I i v, ystands t s P I -> exists t', ystp (YBegin i v) t = Ok (t', []) /\ ystands t' s P (vset I i (CAt v 0)).
Proof. intros. eapply ystep_ok; eauto; [exact Logic.I|]. apply y_begin, lput_vset. Qed.
Lemma yend_ok : forall t s P I i v, ystands t s P I -> exists t', ystp (YEnd i v) t = Ok (t', []) /\ ystands t' s P (vset I i (CAt v (length (s v)))).
Proof. intros. eapply ystep_ok; eauto; [exact Logic.I|]. apply y_end, lput_vset. Qed.
Lemma yadd_ok : forall t s P I i k v p q, ystands t s P I -> I i = CAt v p -> Z.of_nat q = Z.of_nat p + k -> (q <= length (s v))%nat ->
  exists t', ystp (YAdd i k) t = Ok (t', []) /\ ystands t' s P (vset I i (CAt v q)).
Proof. intros. eapply ystep_ok; eauto; [exact Logic.I|]. eapply y_add; eauto. apply lput_vset. Qed.
Lemma yread_ok : forall t s P I i v p x, ystands t s P I -> I i = CAt v p -> nth_error (s v) p = Some x -> ystp (YRead i) t = Ok (t, [DElem x]).
Proof.
  intros t s P I i v p x S E N. cbn [y_step]. destruct (yat _ _ _ _ _ _ _ S E) as (-> & _). cbn [bind fst snd]. rewrite (yelem _ _ _ _ _ _ _ S N). auto.
Qed.
Lemma yback_ok : forall t s P I i v p x, ystands t s P I -> I i = CAt v (Datatypes.S p) -> nth_error (s v) p = Some x -> ystp (YBack i) t = Ok (t, [DElem x]).
Proof.
  intros t s P I i v p x S E N. cbn [y_step]. destruct (yat _ _ _ _ _ _ _ S E) as (-> & _). cbn [bind fst snd]. rewrite (yelem _ _ _ _ _ _ _ S N). auto.
Qed.
Lemma yread_dead : forall t s P I i, ystands t s P I -> I i = CDead -> ystp (YRead i) t = UB BadDeref.
Proof. intros t s P I i S E. cbn [y_step]. rewrite (ylost _ _ _ _ i S); [auto|]. intros v p. rewrite E. discriminate. Qed.
Lemma ydo_done : forall c t s P I s' ev df f, ystands t s P I -> dint_stmt c -> qspec c s s' ev -> deffect c s ev df -> yeffect (QDo c) s ev f ->
  exists t', ystp (YDo (QDo c)) t = Ok (t', ev) /\ ystands t' s' (fun r => move_dptr df (P r)) (fun i => move_ycur f s (I i)).
Proof. intros. eapply ydo_ok; eauto; [eapply w_stmt; eauto; apply dmeets_total|apply ymoved_total]. Qed.

(** ** Loops *)
Notation loop := (y_loop eqb show).

Theorem yloop_rule : forall (Inv : nat -> dstore T -> Prop) (out : nat -> list (devent T)) body i e v n, i <> e ->
  (forall p t s P I, (p < n)%nat -> ystands t s P I -> I i = CAt v p -> I e = CAt v n -> Inv p s ->
     exists t' s' P' I', run body t = Ok (t', out p) /\ ystands t' s' P' I' /\ I' i = CAt v p /\ I' e = CAt v n /\ Inv (Datatypes.S p) s') ->
  forall k p fuel t s P I, (p + k = n)%nat -> (k < fuel)%nat -> ystands t s P I -> I i = CAt v p -> I e = CAt v n -> Inv p s ->
  exists t' s' P' I', loop 1 fuel i e body t = Ok (t', concat (map out (seq p k))) /\ ystands t' s' P' I' /\ Inv n s'.
Proof.
  intros Inv out body i e v n NE B. induction k as [|k IH]; intros p fuel t s P I E F S Ei Ee V.
  - destruct fuel as [|fuel]; [lia|]. cbn [y_loop]. destruct (yat _ _ _ _ _ _ _ S Ei) as (-> & _). destruct (yat _ _ _ _ _ _ _ S Ee) as (-> & _).
    cbn [bind fst snd]. rewrite Nat.eqb_refl. destruct (Nat.eqb_spec p n); [|lia]. subst p. do 4 eexists. split; [reflexivity|]. eauto.
  - destruct fuel as [|fuel]; [lia|]. cbn [y_loop]. destruct (yat _ _ _ _ _ _ _ S Ei) as (-> & _). destruct (yat _ _ _ _ _ _ _ S Ee) as (-> & _).
    cbn [bind fst snd]. rewrite Nat.eqb_refl. destruct (Nat.eqb_spec p n); [lia|].
    destruct (B p t s P I ltac:(lia) S Ei Ee V) as (t1 & s1 & P1 & I1 & R1 & S1 & Ei1 & Ee1 & V1).
    rewrite yrun_app, R1. cbn [bind fst snd y_run]. destruct (yat _ _ _ _ _ _ _ S1 Ee1) as (_ & L1).
    destruct (yadd_ok t1 s1 P1 I1 i 1 v p (Datatypes.S p) S1 Ei1 ltac:(lia) ltac:(lia)) as (t2 & R2 & S2). rewrite R2. cbn [bind fst snd app].
    destruct (IH (Datatypes.S p) fuel t2 s1 P1 _ ltac:(lia) ltac:(lia) S2 (vset_eq _ _ _ _)) as (t3 & s3 & P3 & I3 & R3 & S3 & V3).
    { rewrite vset_ne by auto. auto. }
    { auto. }
    rewrite R3. cbn [bind fst snd]. do 4 eexists. split; [|eauto]. rewrite app_nil_r. cbn [seq map concat]. reflexivity.
Qed.

Theorem yloop_back_rule : forall (Inv : nat -> dstore T -> Prop) (out : nat -> list (devent T)) body i e v, i <> e ->
  (forall p t s P I, ystands t s P I -> I i = CAt v (Datatypes.S p) -> I e = CAt v 0 -> Inv (Datatypes.S p) s ->
     exists t' s' P' I', run body t = Ok (t', out p) /\ ystands t' s' P' I' /\ I' i = CAt v (Datatypes.S p) /\ I' e = CAt v 0 /\ Inv p s') ->
  forall p fuel t s P I, (p < fuel)%nat -> ystands t s P I -> I i = CAt v p -> I e = CAt v 0 -> Inv p s ->
  exists t' s' P' I', loop (-1) fuel i e body t = Ok (t', concat (map out (rev (seq 0 p)))) /\ ystands t' s' P' I' /\ Inv 0%nat s'.
Proof.
  intros Inv out body i e v NE B. induction p as [|p IH]; intros fuel t s P I F S Ei Ee V.
  - destruct fuel as [|fuel]; [lia|]. cbn [y_loop]. destruct (yat _ _ _ _ _ _ _ S Ei) as (-> & _). destruct (yat _ _ _ _ _ _ _ S Ee) as (-> & _).
    cbn [bind fst snd]. rewrite Nat.eqb_refl. cbn [Nat.eqb]. do 4 eexists. split; [reflexivity|]. eauto.
  - destruct fuel as [|fuel]; [lia|]. cbn [y_loop]. destruct (yat _ _ _ _ _ _ _ S Ei) as (-> & _). destruct (yat _ _ _ _ _ _ _ S Ee) as (-> & _).
    cbn [bind fst snd]. rewrite Nat.eqb_refl. cbn [Nat.eqb].
    destruct (B p t s P I S Ei Ee V) as (t1 & s1 & P1 & I1 & R1 & S1 & Ei1 & Ee1 & V1).
    rewrite yrun_app, R1. cbn [bind fst snd y_run]. destruct (yat _ _ _ _ _ _ _ S1 Ei1) as (_ & L1).
    destruct (yadd_ok t1 s1 P1 I1 i (-1) v (Datatypes.S p) p S1 Ei1 ltac:(lia) ltac:(lia)) as (t2 & R2 & S2). rewrite R2. cbn [bind fst snd app].
    destruct (IH fuel t2 s1 P1 _ ltac:(lia) S2 (vset_eq _ _ _ _)) as (t3 & s3 & P3 & I3 & R3 & S3 & V3).
    { rewrite vset_ne by auto. auto. }
    { auto. }
    rewrite R3. cbn [bind fst snd]. do 4 eexists. split; [|eauto]. rewrite app_nil_r.
    rewrite seq_S, rev_app_distr. cbn [rev app map concat Nat.add]. reflexivity.
Qed.

Lemma ystart_for : forall t s P I i e v, ystands t s P I -> i <> e -> exists t', run [YBegin i v; YEnd e v] t = Ok (t', []) /\
  exists I', ystands t' s P I' /\ I' i = CAt v 0 /\ I' e = CAt v (length (s v)).
Proof.
  intros t s P I i e v S N. cbn [y_run]. destruct (ybegin_ok t s P I i v S) as (t1 & -> & S1). cbn [bind fst snd].
  destruct (yend_ok t1 s P _ e v S1) as (t2 & -> & S2). cbn [bind fst snd app]. eexists. split; [reflexivity|]. eexists. split; [exact S2|].
  rewrite vset_eq, vset_ne, vset_eq; auto.
Qed.
Lemma ystart_back : forall t s P I i e v, ystands t s P I -> i <> e -> exists t', run [YEnd i v; YBegin e v] t = Ok (t', []) /\
  exists I', ystands t' s P I' /\ I' i = CAt v (length (s v)) /\ I' e = CAt v 0.
Proof.
  intros t s P I i e v S N. cbn [y_run]. destruct (yend_ok t s P I i v S) as (t1 & -> & S1). cbn [bind fst snd].
  destruct (ybegin_ok t1 s P _ e v S1) as (t2 & -> & S2). cbn [bind fst snd app]. eexists. split; [reflexivity|]. eexists. split; [exact S2|].
  rewrite vset_eq, vset_ne, vset_eq; auto.
Qed.

Definition dnth_event (l : list T) (p : nat) : list (devent T) := match nth_error l p with Some x => [DElem x] | None => [] end.
Lemma dnth_event_ok : forall l p x, nth_error l p = Some x -> dnth_event l p = [DElem x].
Proof. intros l p x E. unfold dnth_event. rewrite E. auto. Qed.
Lemma dnth_snoc : forall (l : list T) x, map (dnth_event (l ++ [x])) (seq 0 (length l)) = map (dnth_event l) (seq 0 (length l)).
Proof. intros l x. apply map_ext_in. intros p J. apply in_seq in J. unfold dnth_event. rewrite nth_error_app1 by lia. auto. Qed.
Lemma dnth_last : forall (l : list T) x, dnth_event (l ++ [x]) (length l) = [DElem x].
Proof. intros. apply dnth_event_ok. rewrite nth_error_app2, Nat.sub_diag by lia. auto. Qed.
Lemma dnth_seq : forall l : list T, concat (map (dnth_event l) (seq 0 (length l))) = map DElem l.
Proof.
  induction l as [|x l IH] using rev_ind; auto. rewrite app_length. cbn [length].
  rewrite Nat.add_1_r, seq_S, map_app, concat_app, map_app, dnth_snoc, IH. cbn [map concat Nat.add]. rewrite dnth_last. auto.
Qed.
Lemma dnth_back : forall l : list T, concat (map (dnth_event l) (rev (seq 0 (length l)))) = map DElem (rev l).
Proof.
  induction l as [|x l IH] using rev_ind; auto. rewrite app_length. cbn [length].
  rewrite Nat.add_1_r, seq_S, !rev_app_distr. cbn [rev app map concat Nat.add]. rewrite dnth_last. cbn [app]. f_equal. rewrite <- IH.
  rewrite !map_rev, dnth_snoc. auto.
Qed.
Lemma no_events : forall (A : Type) (l : list A), concat (map (fun _ => @nil (devent T)) l) = [].
Proof. induction l; auto. Qed.

(** for (x : v) emit(x); *)
Theorem deque_for_reads : forall t s P I i e v fuel, ystands t s P I -> i <> e -> (length (s v) < fuel)%nat ->
  exists t', deque_for eqb show fuel i e v [YRead i] t = Ok (t', map DElem (s v)) /\ forall u, dview (yh t') u = s u.
Proof.
  intros t s P I i e v fuel S N F. unfold deque_for. destruct (ystart_for t s P I i e v S N) as (t1 & -> & I1 & S1 & Ei & Ee). cbn [bind fst].
  destruct (yloop_rule (fun _ s' => s' = s) (dnth_event (s v)) [YRead i] i e v (length (s v)) N) with (k := length (s v)) (p := 0%nat) (fuel := fuel) (t := t1) (s := s) (P := P) (I := I1)
    as (t2 & s2 & K2 & I2 & -> & S2 & ->); auto.
  - intros p t' s' P' I' L S' Ei' Ee' ->. destruct (nth_error (s v) p) as [x|] eqn:X; [|apply nth_error_None in X; lia].
    exists t', s, P', I'. split; auto. cbn [y_run]. rewrite (yread_ok _ _ _ _ _ _ _ _ S' Ei' X). cbn [bind fst snd app].
    rewrite (dnth_event_ok _ _ _ X). auto.
  - exists t2. split; [|intros u; eapply yview; eauto]. rewrite dnth_seq. auto.
Qed.

(** for (r = v.rbegin(); r != v.rend(); ++r) emit( *r); *)
Theorem deque_back_reads : forall t s P I i e v fuel, ystands t s P I -> i <> e -> (length (s v) < fuel)%nat ->
  exists t', deque_back eqb show fuel i e v [YBack i] t = Ok (t', map DElem (rev (s v))) /\ forall u, dview (yh t') u = s u.
Proof.
  intros t s P I i e v fuel S N F. unfold deque_back. destruct (ystart_back t s P I i e v S N) as (t1 & -> & I1 & S1 & Ei & Ee). cbn [bind fst].
  destruct (yloop_back_rule (fun _ s' => s' = s) (dnth_event (s v)) [YBack i] i e v N) with (p := length (s v)) (fuel := fuel) (t := t1) (s := s) (P := P) (I := I1)
    as (t2 & s2 & K2 & I2 & -> & S2 & ->); auto.
  - intros p t' s' P' I' S' Ei' Ee' ->. destruct (yat _ _ _ _ _ _ _ S' Ei') as (_ & L).
    destruct (nth_error (s v) p) as [x|] eqn:X; [|apply nth_error_None in X; lia].
    exists t', s, P', I'. split; auto. cbn [y_run]. rewrite (yback_ok _ _ _ _ _ _ _ _ S' Ei' X). cbn [bind fst snd app].
    rewrite (dnth_event_ok _ _ _ X). auto.
  - exists t2. split; [|intros u; eapply yview; eauto]. rewrite dnth_back. auto.
Qed.

(** Pushing the element that an iterator is at into another deque. *)
Lemma ypush_back_other : forall t s P I i v w p x, ystands t s P I -> I i = CAt v p -> nth_error (s v) p = Some x -> len (s w) < INT_MAX ->
  exists t', ystp (YPushBack w i) t = Ok (t', []) /\ ystands t' (dset s w (s w ++ [x])) (fun r => move_dptr DStay (P r)) (fun j => move_ycur (YAll w) s (I j)).
Proof.
  intros t s P I i v w p x S E N L. cbn [y_step]. destruct (yat _ _ _ _ _ _ _ S E) as (-> & _). cbn [bind fst snd]. rewrite (yelem _ _ _ _ _ _ _ S N). cbn [bind].
  apply (ydo_done (DPushBack w x)); auto; [exact Logic.I|apply q_push_back; exact L|apply f_push_back|apply e_all; reflexivity].
Qed.
Lemma ypush_front_other : forall t s P I i v w p x, ystands t s P I -> I i = CAt v p -> nth_error (s v) p = Some x -> len (s w) < INT_MAX ->
  exists t', ystp (YPushFront w i) t = Ok (t', []) /\ ystands t' (dset s w (x :: s w)) (fun r => move_dptr (DUp w 1) (P r)) (fun j => move_ycur (YAll w) s (I j)).
Proof.
  intros t s P I i v w p x S E N L. cbn [y_step]. destruct (yat _ _ _ _ _ _ _ S E) as (-> & _). cbn [bind fst snd]. rewrite (yelem _ _ _ _ _ _ _ S N). cbn [bind].
  apply (ydo_done (DPushFront w x)); auto; [exact Logic.I|apply q_push_front; exact L|apply f_push_front|apply e_all; reflexivity].
Qed.
Lemma firstn_next : forall (l : list T) p x, nth_error l p = Some x -> firstn (Datatypes.S p) l = firstn p l ++ [x].
Proof. induction l as [|y l IH]; intros [|p] x E; try discriminate; cbn in *; [inversion E; auto|]. f_equal. auto. Qed.

(** for (x : v) w.push_back(x); *)
Theorem deque_for_back : forall t s P I i e v w fuel, ystands t s P I -> i <> e -> v <> w -> (length (s v) < fuel)%nat -> len (s v) + len (s w) <= INT_MAX ->
  exists t', deque_for eqb show fuel i e v [YPushBack w i] t = Ok (t', []) /\ dview (yh t') w = s w ++ s v /\ forall u, u <> w -> dview (yh t') u = s u.
Proof.
  intros t s P I i e v w fuel S N NW F B. unfold deque_for. destruct (ystart_for t s P I i e v S N) as (t1 & -> & I1 & S1 & Ei & Ee). cbn [bind fst].
  destruct (yloop_rule (fun p s' => s' w = s w ++ firstn p (s v) /\ forall u, u <> w -> s' u = s u) (fun _ => []) [YPushBack w i] i e v (length (s v)) N)
    with (k := length (s v)) (p := 0%nat) (fuel := fuel) (t := t1) (s := s) (P := P) (I := I1)
    as (t2 & s2 & K2 & I2 & R2 & S2 & V1 & V2); auto.
  - intros p t' s' P' I' L S' Ei' Ee' (V1 & V2). destruct (nth_error (s v) p) as [x|] eqn:X; [|apply nth_error_None in X; lia].
    assert (LX : len (s' w) < INT_MAX). { rewrite V1. unfold len in *. rewrite app_length, firstn_length. lia. }
    destruct (ypush_back_other t' s' P' I' i v w p x S' Ei') as (t3 & R3 & S3); [rewrite V2; auto|auto|]. cbn [y_run]. rewrite R3. cbn [bind fst snd app].
    do 4 eexists. split; [reflexivity|]. split; [exact S3|]. cbv beta. rewrite Ei', Ee'. cbn [move_ycur]. destruct (Nat.eqb_spec v w); [contradiction|].
    split; auto. split; auto. split; [|intros u Nu; rewrite dset_other by auto; auto].
    rewrite dset_eq, V1, <- app_assoc, (firstn_next _ _ _ X). auto.
  - split; auto. cbn [firstn]. rewrite app_nil_r. auto.
  - rewrite R2, no_events. exists t2. split; auto.
    rewrite (yview _ _ _ _ _ S2), V1, firstn_all. split; auto. intros u Nu. rewrite (yview _ _ _ _ _ S2). auto.
Qed.
(** for (x : v) w.push_front(x); *)
Theorem deque_for_front : forall t s P I i e v w fuel, ystands t s P I -> i <> e -> v <> w -> (length (s v) < fuel)%nat -> len (s v) + len (s w) <= INT_MAX ->
  exists t', deque_for eqb show fuel i e v [YPushFront w i] t = Ok (t', []) /\ dview (yh t') w = rev (s v) ++ s w /\ forall u, u <> w -> dview (yh t') u = s u.
Proof.
  intros t s P I i e v w fuel S N NW F B. unfold deque_for. destruct (ystart_for t s P I i e v S N) as (t1 & -> & I1 & S1 & Ei & Ee). cbn [bind fst].
  destruct (yloop_rule (fun p s' => s' w = rev (firstn p (s v)) ++ s w /\ forall u, u <> w -> s' u = s u) (fun _ => []) [YPushFront w i] i e v (length (s v)) N)
    with (k := length (s v)) (p := 0%nat) (fuel := fuel) (t := t1) (s := s) (P := P) (I := I1)
    as (t2 & s2 & K2 & I2 & R2 & S2 & V1 & V2); auto.
  - intros p t' s' P' I' L S' Ei' Ee' (V1 & V2). destruct (nth_error (s v) p) as [x|] eqn:X; [|apply nth_error_None in X; lia].
    assert (LX : len (s' w) < INT_MAX). { rewrite V1. unfold len in *. rewrite app_length, rev_length, firstn_length. lia. }
    destruct (ypush_front_other t' s' P' I' i v w p x S' Ei') as (t3 & R3 & S3); [rewrite V2; auto|auto|]. cbn [y_run]. rewrite R3. cbn [bind fst snd app].
    do 4 eexists. split; [reflexivity|]. split; [exact S3|]. cbv beta. rewrite Ei', Ee'. cbn [move_ycur]. destruct (Nat.eqb_spec v w); [contradiction|].
    split; auto. split; auto. split; [|intros u Nu; rewrite dset_other by auto; auto].
    rewrite dset_eq, V1, (firstn_next _ _ _ X), rev_app_distr. auto.
  - rewrite R2, no_events. exists t2. split; auto.
    rewrite (yview _ _ _ _ _ S2), V1, firstn_all. split; auto. intros u Nu. rewrite (yview _ _ _ _ _ S2). auto.
Qed.

(** The constructor from a range, and the members that insert one. *)
Lemma encloses_all : forall s I i j v, I i = CAt v 0 -> I j = CAt v (length (s v)) -> encloses s I i j v (s v).
Proof. intros s I i j v Ei Ej. exists [], []. rewrite app_nil_r. auto. Qed.
Theorem deque_range : forall t s P I i j v w, ystands t s P I -> i <> j ->
  exists t', run [YBegin i v; YEnd j v; YRange w i j] t = Ok (t', []) /\ forall u, dview (yh t') u = dset s w (s v) u.
Proof.
  intros t s P I i j v w S N. change [YBegin i v; YEnd j v; YRange w i j] with ([@YBegin T i v; YEnd j v] ++ [YRange w i j]).
  rewrite yrun_app. destruct (ystart_for t s P I i j v S N) as (t1 & -> & I1 & S1 & Ei & Ee). cbn [bind fst snd y_run].
  destruct (ystep_ok (YRange w i j) t1 s P I1 (dset s w (s v)) _ _ [] S1 Logic.I
    (y_new show w i j v (s v) s P I1 _ _ _ _ (encloses_all s I1 i j v Ei Ee)
      (y_stmt show (QDo (DInit w (s v))) s P I1 _ _ _ _ (YAll w) (w_stmt show _ _ _ _ _ _ (DDrop w) (q_init show w (s v) s) (f_init w (s v) s) (dmeets_total _ _)) (e_all (QDo (DInit w (s v))) w s eq_refl) (ymoved_total _ _ _)))) as (t2 & R2 & S2).
  rewrite R2. cbn [bind fst snd app]. exists t2. split; auto. intros u. eapply yview; eauto.
Qed.
Theorem deque_range_reversed : forall t s P I i j v w, ystands t s P I -> i <> j ->
  exists t', run [YEnd i v; YBegin j v; YRevRange w i j] t = Ok (t', []) /\ forall u, dview (yh t') u = dset s w (rev (s v)) u.
Proof.
  intros t s P I i j v w S N. change [YEnd i v; YBegin j v; YRevRange w i j] with ([@YEnd T i v; YBegin j v] ++ [YRevRange w i j]).
  rewrite yrun_app. destruct (ystart_back t s P I i j v S N) as (t1 & -> & I1 & S1 & Ei & Ee). cbn [bind fst snd y_run].
  destruct (ystep_ok (YRevRange w i j) t1 s P I1 (dset s w (rev (s v))) _ _ [] S1 Logic.I
    (y_new_rev show w i j v (s v) s P I1 _ _ _ _ (encloses_all s I1 j i v Ee Ei)
      (y_stmt show (QDo (DInit w (rev (s v)))) s P I1 _ _ _ _ (YAll w) (w_stmt show _ _ _ _ _ _ (DDrop w) (q_init show w (rev (s v)) s) (f_init w (rev (s v)) s) (dmeets_total _ _)) (e_all (QDo (DInit w (rev (s v)))) w s eq_refl) (ymoved_total _ _ _)))) as (t2 & R2 & S2).
  rewrite R2. cbn [bind fst snd app]. exists t2. split; auto. intros u. eapply yview; eauto.
Qed.
Theorem deque_extends : forall t s P I i j v w, ystands t s P I -> i <> j -> v <> w -> len (s v) + len (s w) <= INT_MAX ->
  (exists t', run [YBegin i v; YEnd j v; YExtendBack w i j] t = Ok (t', []) /\ forall u, dview (yh t') u = dset s w (s w ++ s v) u) /\
  (exists t', run [YBegin i v; YEnd j v; YExtendFront w i j] t = Ok (t', []) /\ forall u, dview (yh t') u = dset s w (s v ++ s w) u).
Proof.
  intros t s P I i j v w S N NW B. unfold len in B.
  change [YBegin i v; YEnd j v; YExtendBack w i j] with ([@YBegin T i v; YEnd j v] ++ [YExtendBack w i j]).
  change [YBegin i v; YEnd j v; YExtendFront w i j] with ([@YBegin T i v; YEnd j v] ++ [YExtendFront w i j]).
  rewrite !yrun_app. destruct (ystart_for t s P I i j v S N) as (t1 & -> & I1 & S1 & Ei & Ee). cbn [bind fst snd y_run]. split.
  - edestruct (ystep_ok (YExtendBack w i j) t1 s P I1) as (t2 & R2 & S2); [exact S1|exact Logic.I| |].
    { eapply (y_extend_back show w i j v (s v)); [apply encloses_all; auto|auto|lia|apply dmeets_total|apply ymoved_total]. }
    rewrite R2. cbn [bind fst snd app]. exists t2. split; auto. intros u. eapply yview; eauto.
  - edestruct (ystep_ok (YExtendFront w i j) t1 s P I1) as (t2 & R2 & S2); [exact S1|exact Logic.I| |].
    { eapply (y_extend_front show w i j v (s v)); [apply encloses_all; auto|auto|lia|apply dmeets_total|apply ymoved_total]. }
    rewrite R2. cbn [bind fst snd app]. exists t2. split; auto. intros u. eapply yview; eauto.
Qed.

(** ** Pushes and pops *)
Lemma pushing_all : forall c s P s' P' ev f v, pushing c s v -> ws c s P s' P' ev -> dthrew ev = false -> yeffect c s ev f -> f = YAll v.
Proof.
  intros c s P s' P' ev f v U W N F. destruct F; cbn [pushing dthrew] in *; try discriminate; try contradiction.
  - destruct c as [[]| | | | | | | |]; contradiction.
  - destruct c as [[]| | | | | | | |]; try contradiction; cbn [pushing] in U; intuition congruence.
  - destruct c as [[]| | | | | | | |]; try contradiction; destruct U; lia.
Qed.
Theorem push_ends : forall t s P I c v s' P' ev, ystands t s P I -> qint_stmt c -> pushing c s v -> ws c s P s' P' ev -> dthrew ev = false ->
  exists t', ystp (YDo c) t = Ok (t', ev) /\ forall i p, I i = CAt v p -> y_at t' i = UB BadDeref.
Proof.
  intros t s P I c v s' P' ev S A U W N. destruct (yeffect_total c s P s' P' ev W) as (f & F).
  pose proof (pushing_all _ _ _ _ _ _ _ _ U W N F). subst f.
  destruct (ydo_ok c t s P I s' P' _ ev (YAll v) S A W F (ymoved_total _ _ _)) as (t' & R & S'). exists t'. split; auto.
  intros i p E. eapply ylost; eauto. cbv beta. rewrite E. cbn [move_ycur]. rewrite Nat.eqb_refl. discriminate.
Qed.

(** The element can still be read through a reference, not through the iterator. *)
Theorem push_reference : forall t s P I r i v p x y (front : bool), ystands t s P I -> I i = CAt v p -> nth_error (s v) p = Some x -> len (s v) < INT_MAX ->
  let push := YDo (QDo (if front then DPushFront v y else DPushBack v y)) in
  (exists t', run [YAddr r i; push; YDo (QRead r)] t = Ok (t', [DElem x])) /\ run [YAddr r i; push; YRead i] t = UB BadDeref.
Proof.
  intros t s P I r i v p x y front S E N L push.
  assert (PL : (p < length (s v))%nat) by (apply nth_error_Some; congruence).
  destruct (points_total P r (LTo v p)) as (P1 & Q).
  destruct (ystep_ok (YAddr r i) t s P I s P1 I [] S Logic.I (y_ref show r i v p s P I P1 E PL Q)) as (t1 & R1 & S1).
  assert (exists t2 s2 P2 I2, ystp push t1 = Ok (t2, []) /\ ystands t2 s2 P2 I2 /\ dholds s2 P2 r x /\ I2 i = CDead) as (t2 & s2 & P2 & I2 & R2 & S2 & H2 & E2).
  { destruct Q as (Q & _). unfold push. destruct front.
    - edestruct (ydo_done (DPushFront v y) t1 s P1 I) as (t2 & R2 & S2); [exact S1|exact Logic.I|apply q_push_front; exact L|apply f_push_front|apply (e_all _ v); reflexivity|].
      do 4 eexists. split; [exact R2|]. split; [exact S2|]. split; [|rewrite E; cbn [move_ycur]; rewrite Nat.eqb_refl; auto].
      exists v, (p + 1)%nat. rewrite Q. cbn [move_dptr]. rewrite Nat.eqb_refl, dset_eq. split; auto. rewrite Nat.add_1_r. auto.
    - edestruct (ydo_done (DPushBack v y) t1 s P1 I) as (t2 & R2 & S2); [exact S1|exact Logic.I|apply q_push_back; exact L|apply f_push_back|apply (e_all _ v); reflexivity|].
      do 4 eexists. split; [exact R2|]. split; [exact S2|]. split; [|rewrite E; cbn [move_ycur]; rewrite Nat.eqb_refl; auto].
      exists v, p. rewrite Q. cbn [move_dptr]. rewrite dset_eq. split; auto. rewrite nth_error_app1 by auto. auto. }
  clearbody push. split.
  - destruct (ystep_ok (YDo (QRead r)) t2 s2 P2 I2 s2 P2 I2 [DElem x] S2 Logic.I) as (t3 & R3 & _).
    { eapply (y_stmt show _ _ _ _ _ _ _ _ YStay); [apply w_read; exact H2|apply e_keep; exact Logic.I|intros j; destruct (I2 j); auto]. }
    exists t3. cbn [y_run]. rewrite R1. cbn [bind fst snd]. rewrite R2. cbn [bind fst snd]. rewrite R3. auto.
  - cbn [y_run]. rewrite R1. cbn [bind fst snd]. rewrite R2. cbn [bind fst snd]. rewrite (yread_dead _ _ _ _ _ S2 E2). auto.
Qed.

(** Popping the elements in front of an iterator keeps it. *)
Theorem pop_fronts : forall k t s P I i v p x, ystands t s P I -> I i = CAt v p -> nth_error (s v) p = Some x -> (k <= p)%nat ->
  exists t' s' P' I', run (repeat (YDo (QDo (DPopFront v))) k) t = Ok (t', map DElem (firstn k (s v))) /\ ystands t' s' P' I' /\
    I' i = CAt v (p - k) /\ nth_error (s' v) (p - k) = Some x /\ s' v = skipn k (s v) /\ y_run eqb show [YRead i] t' = Ok (t', [DElem x]).
Proof.
  induction k as [|k IH]; intros t s P I i v p x S E N L.
  - exists t, s, P, I. rewrite Nat.sub_0_r. cbn [repeat y_run firstn map skipn]. rewrite (yread_ok _ _ _ _ _ _ _ _ S E N). cbn [bind fst snd app].
    repeat match goal with |- _ /\ _ => split end; auto.
  - destruct (s v) as [|y l] eqn:V; [destruct p; discriminate|].
    destruct (ydo_done (DPopFront v) t s P I _ _ (DDown v) (YFirst v) S Logic.I (q_pop_front show v s y l V) (f_pop_front v y s) (e_pop_front v y s)) as (t1 & R1 & S1).
    destruct p as [|p]; [lia|]. cbn [nth_error] in N.
    assert (LP : (p < length l)%nat) by (apply nth_error_Some; congruence).
    destruct (IH t1 (dset s v l) _ _ i v p x S1) as (t2 & s2 & P2 & I2 & R2 & S2 & E2 & N2 & V2 & RR).
    { cbv beta. rewrite E. cbn [move_ycur]. rewrite Nat.eqb_refl, V. cbn [length Nat.eqb]. destruct (Nat.eqb_spec (length l) 0); [lia|]. cbn [orb].
      f_equal. lia. }
    { rewrite dset_eq. auto. }
    { lia. }
    rewrite dset_eq in *. exists t2, s2, P2, I2. cbn [repeat y_run]. rewrite R1. cbn [bind fst snd]. rewrite R2. cbn [bind fst snd app firstn map skipn Nat.sub].
    repeat match goal with |- _ /\ _ => split end; auto.
Qed.
(** Popping elements behind it does so, too. *)
Theorem pop_backs : forall k t s P I i v p x, ystands t s P I -> I i = CAt v p -> nth_error (s v) p = Some x -> (p + k < length (s v))%nat ->
  exists t' s' P' I', run (repeat (YDo (QDo (DPopBack v))) k) t = Ok (t', map DElem (firstn k (rev (s v)))) /\ ystands t' s' P' I' /\
    I' i = CAt v p /\ s' v = firstn (length (s v) - k) (s v) /\ y_run eqb show [YRead i] t' = Ok (t', [DElem x]).
Proof.
  induction k as [|k IH]; intros t s P I i v p x S E N L.
  - exists t, s, P, I. rewrite Nat.sub_0_r, firstn_all. cbn [repeat y_run firstn map]. rewrite (yread_ok _ _ _ _ _ _ _ _ S E N). cbn [bind fst snd app].
    repeat match goal with |- _ /\ _ => split end; auto.
  - destruct (s v) as [|y0 l0] eqn:V0; [cbn in L; lia|]. destruct (exists_last (l := y0 :: l0)) as (l & y & V); [discriminate|]. rewrite V in *. clear y0 l0 V.
    rewrite app_length in *. cbn [length] in *.
    destruct (ydo_done (DPopBack v) t s P I _ _ (DLose v (length l)) (YLast v) S Logic.I (q_pop_back show v s l y V0) (f_pop_back v y s l V0) (e_pop_back v y s)) as (t1 & R1 & S1).
    destruct (IH t1 (dset s v l) _ _ i v p x S1) as (t2 & s2 & P2 & I2 & R2 & S2 & E2 & V2 & RR).
    { cbv beta. rewrite E. cbn [move_ycur]. rewrite Nat.eqb_refl, V0, app_length. cbn [length]. destruct (Nat.leb_spec (length l + 1) (p + 1)); [lia|]. auto. }
    { rewrite dset_eq. rewrite nth_error_app1 in N by lia. auto. }
    { rewrite dset_eq. lia. }
    rewrite dset_eq in *. exists t2, s2, P2, I2. cbn [repeat y_run]. rewrite R1. cbn [bind fst snd]. rewrite R2. rewrite rev_app_distr. cbn [bind fst snd app rev firstn map].
    repeat match goal with |- _ /\ _ => split end; auto. rewrite V2, firstn_app. replace (length l + 1 - Datatypes.S k)%nat with (length l - k)%nat by lia.
    replace (length l - k - length l)%nat with 0%nat by lia. cbn [firstn]. rewrite app_nil_r. auto.
Qed.

(** for (i = v.begin(), e = v.end(); i != e; ) { emit( *i++); v.pop_front(); } *)
Theorem drain_undefined : forall n t s P I i e v fuel, ystands t s P I -> i <> e -> length (s v) = Datatypes.S n -> (n < fuel)%nat ->
  I i = CAt v 0 -> I e = CAt v (length (s v)) -> exists u, loop 0 (Datatypes.S fuel) i e [YRead i; YAdd i 1; YDo (QDo (DPopFront v))] t = UB u.
Proof.
  induction n as [|n IH]; intros t s P I i e v fuel S NE L F Ei Ee;
    destruct (s v) as [|x l] eqn:V; try discriminate; rewrite L in *; cbn [length] in L.
  all: cbn [y_loop]; destruct (yat _ _ _ _ _ _ _ S Ei) as (-> & _); destruct (yat _ _ _ _ _ _ _ S Ee) as (-> & _); cbn [bind fst snd].
  all: rewrite Nat.eqb_refl; cbn [Nat.eqb]; remember (y_loop eqb show) as lp; cbn [app y_run].
  all: assert (NX : nth_error (s v) 0 = Some x) by (rewrite V; auto).
  all: rewrite (yread_ok _ _ _ _ _ _ _ _ S Ei NX); cbn [bind fst snd].
  all: destruct (yadd_ok t s P I i 1 v 0 1 S Ei ltac:(lia) ltac:(rewrite V; cbn; lia)) as (t1 & -> & S1); cbn [bind fst snd].
  all: destruct (ydo_done (DPopFront v) t1 s P _ _ _ (DDown v) (YFirst v) S1 Logic.I (q_pop_front show v s x l V) (f_pop_front v x s) (e_pop_front v x s)) as (t2 & -> & S2);
    cbn [bind fst snd].
  - cbn [y_step]. rewrite (ylost _ _ _ _ i S2); [cbn [bind]; eauto|]. cbv beta. rewrite vset_eq. cbn [move_ycur]. rewrite Nat.eqb_refl, V. cbn [length].
    destruct l; [|discriminate]. cbn [length Nat.eqb orb]. discriminate.
  - assert (Ei2 : move_ycur (YFirst v) s (vset I i (CAt v 1) i) = CAt v 0).
    { rewrite vset_eq. cbn [move_ycur]. rewrite Nat.eqb_refl, V. cbn [length]. destruct l; [discriminate|]. auto. }
    assert (Ee2 : move_ycur (YFirst v) s (vset I i (CAt v 1) e) = CAt v (Datatypes.S n)).
    { rewrite vset_ne, Ee by auto. cbn [move_ycur]. rewrite Nat.eqb_refl, V. cbn [length]. destruct l; [discriminate|]. auto. }
    destruct (yadd_ok t2 _ _ _ i 0 v 0 0 S2 Ei2 ltac:(lia) ltac:(lia)) as (t3 & -> & S3). cbn [bind fst snd].
    destruct fuel as [|fuel]; [lia|]. subst lp.
    destruct (IH t3 _ _ _ i e v fuel S3 NE) as (u & R).
    + rewrite dset_eq. lia.
    + lia.
    + apply vset_eq.
    + rewrite vset_ne by auto. cbv beta. rewrite Ee2, dset_eq. f_equal. lia.
    + rewrite R. cbn [bind]. eauto.
Qed.
Theorem drain_for : forall t s P I i e v fuel, ystands t s P I -> i <> e -> s v <> [] -> (length (s v) < fuel)%nat ->
  exists u, (te <- run [YBegin i v; YEnd e v] t ;; loop 0 fuel i e [YRead i; YAdd i 1; YDo (QDo (DPopFront v))] (fst te)) = UB u.
Proof.
  intros t s P I i e v fuel S NE N F. destruct (ystart_for t s P I i e v S NE) as (t1 & -> & I1 & S1 & Ei & Ee). cbn [bind fst].
  destruct (length (s v)) as [|n] eqn:L; [destruct (s v); [contradiction|discriminate]|]. destruct fuel as [|fuel]; [lia|].
  eapply (drain_undefined n); eauto; [lia|]. rewrite L. auto.
Qed.
End Iter.
