(** The test of a loop over a List, Deque or Set when its two iterators are not of the same container: the loop is
    undefined as soon as it gets there. Used for C203, C206 and C209. *)
From Coq Require Import Ascii ZArith List Bool Lia.
From Verif Require Import Outcome ListModel ListSpec ListFacts SetModel SetSpec DequeModel DequeSpec UndefSpec ListRefModel ListRefSpec DequeRefModel DequeRefSpec
  DictIterSpec ListIterModel ListIterSpec ListIter DequeIterModel DequeIterSpec DequeIter SetIterModel SetIterSpec SetIter.
Import ListNotations.
Open Scope Z_scope.

Section Lists.
Context {T : Type} (eqb lt : T -> T -> bool) (show : T -> list ascii) (d : T) (grow : Z -> Z -> Z).
Hypothesis (D : decides eqb) (W : strict_weak lt).

Lemma apart_cases : forall I : nat -> lcur, forall i j, (~ exists v p q, I i = CAt v p /\ I j = CAt v q) ->
  (forall v p, I i <> CAt v p) \/ (forall v p, I j <> CAt v p) \/ (exists v w p q, I i = CAt v p /\ I j = CAt w q /\ v <> w).
Proof.
  intros I i j N. destruct (I i) as [|v p|] eqn:E; try (left; intros; discriminate).
  destruct (I j) as [|w q|] eqn:F; try (right; left; intros; discriminate).
  right. right. exists v, w, p, q. repeat split; auto. intros ->. apply N. eauto 6.
Qed.

Lemma jtest_undef : forall s i j u n body, j_step eqb lt show d grow (JDiff i j) s = UB u ->
  j_loop eqb lt show d grow (S n) i j body s = UB u /\ j_loop_back eqb lt show d grow (S n) i j body s = UB u.
Proof.
  intros s i j u n body. cbn [j_step j_loop j_loop_back]. destruct (j_at s i) as [x| | |]; cbn [bind]; try discriminate.
  2: { intros H. inversion H. auto. }
  destruct (j_at s j) as [y| | |]; cbn [bind]; try discriminate; [|intros H; inversion H; auto].
  destruct (Nat.eqb (fst x) (fst y)); [discriminate|]. intros H. inversion H. auto.
Qed.
Theorem list_loop_apart : forall t s K I i j n body, jstands t s K I -> (~ exists v p q, I i = CAt v p /\ I j = CAt v q) ->
  exists u, j_loop eqb lt show d grow (S n) i j body t = UB u /\ j_loop_back eqb lt show d grow (S n) i j body t = UB u.
Proof.
  intros t s K I i j n body S N. destruct (proj2 (jstep_risk eqb lt show d grow D W (JDiff i j) t s K I S Logic.I) (apart_cases I i j N)) as (u & U).
  exists u. apply jtest_undef. auto.
Qed.
End Lists.

Section Deques.
Context {T : Type} (eqb : T -> T -> bool) (show : T -> list ascii).
Hypothesis D : decides eqb.

Lemma ytest_undef : forall s i j u k n body, y_step eqb show (YDiff i j) s = UB u -> y_loop eqb show k (S n) i j body s = UB u.
Proof.
  intros s i j u k n body. cbn [y_step y_loop]. destruct (y_at s i) as [x| | |]; cbn [bind]; try discriminate; [|intros H; inversion H; auto].
  destruct (y_at s j) as [y| | |]; cbn [bind]; try discriminate; [|intros H; inversion H; auto].
  destruct (Nat.eqb (fst x) (fst y)); [discriminate|]. intros H. inversion H. auto.
Qed.
Theorem deque_loop_apart : forall t s P I i j k n body, ystands t s P I -> (~ exists v p q, I i = CAt v p /\ I j = CAt v q) ->
  exists u, y_loop eqb show k (S n) i j body t = UB u.
Proof.
  intros t s P I i j k n body S N. destruct (proj2 (ystep_risk eqb show D (YDiff i j) t s P I S Logic.I) (apart_cases I i j N)) as (u & U).
  exists u. apply ytest_undef. auto.
Qed.
End Deques.

Section Sets.
Context {T : Type} (lt eqb : T -> T -> bool) (show : T -> list ascii).
Hypothesis (O : strict_total lt) (D : decides eqb).

Lemma ntest_undef : forall s i j u n body, n_step lt eqb show (NSame i j) s = UB u -> n_loop lt eqb show (Datatypes.S n) i j body s = UB u.
Proof.
  intros s i j u n body. cbn [n_step n_loop]. destruct (n_at s i) as [x| | |]; cbn [bind]; try discriminate; [|intros H; inversion H; auto].
  destruct (n_at s j) as [y| | |]; cbn [bind]; try discriminate; [|intros H; inversion H; auto].
  destruct (Nat.eqb (fst x) (fst y)); [discriminate|]. intros H. inversion H. auto.
Qed.
Theorem set_loop_apart : forall s e I i j n body, nstands lt s e I -> (~ exists v, whose (I i) = Some v /\ whose (I j) = Some v) ->
  exists u, n_loop lt eqb show (Datatypes.S n) i j body s = UB u.
Proof.
  intros s e I i j n body S N. destruct (proj2 (nstep_risk lt eqb show O D (NSame i j) s e I S Logic.I) N) as (u & U).
  exists u. apply ntest_undef. auto.
Qed.
End Sets.
