(** Expressions over Int denote what they say. *)
From Coq Require Import ZArith List Bool Lia.
From Verif Require Import Outcome IntModel IntSpec IntBase IntAddSub IntMulDiv IntIO IntFuncs IntMore IntPolicy IntProgModel ExTools ExprModel ExprSpec.
Import ListNotations.
Open Scope Z_scope.

Section ints.
Variables (s : var -> Int) (r : var -> Z).
Hypothesis R : forall v, repr (s v) (r v).

Lemma int_eval_ok : forall e, literals_ok e ->
  match zden r e with
  | Some z => returns (int_eval Benign s e) z
  | None => int_eval Benign s e = Throw DivideByZero
  end.
Proof.
  induction e; cbn [zden int_eval literals_ok]; intros L.
  - exists (s v). auto.
  - apply int_of_int_spec. auto.
  - specialize (IHe L). destruct (zden r e); cbn [option_map].
    + destruct IHe as (x & -> & X). exists (int_neg x). split; auto. exact (proj1 (neg_abs_exact x z X)).
    + rewrite IHe. auto.
  - specialize (IHe L). destruct (zden r e); cbn [option_map].
    + destruct IHe as (x & -> & X). exists (int_abs x). split; auto. exact (proj1 (proj2 (neg_abs_exact x z X))).
    + rewrite IHe. auto.
  - destruct L as (L1 & L2). specialize (IHe1 L1). specialize (IHe2 L2). destruct (zden r e1) as [a|].
    2: { rewrite IHe1. cbn [both bind]. auto. }
    destruct IHe1 as (x & -> & X). cbn [bind]. destruct (zden r e2) as [b|]; cbn [both].
    2: { rewrite IHe2. auto. }
    destruct IHe2 as (y & -> & Y). cbn [bind]. apply add_exact; auto.
  - destruct L as (L1 & L2). specialize (IHe1 L1). specialize (IHe2 L2). destruct (zden r e1) as [a|].
    2: { rewrite IHe1. cbn [both bind]. auto. }
    destruct IHe1 as (x & -> & X). cbn [bind]. destruct (zden r e2) as [b|]; cbn [both].
    2: { rewrite IHe2. auto. }
    destruct IHe2 as (y & -> & Y). cbn [bind]. apply sub_exact; auto.
  - destruct L as (L1 & L2). specialize (IHe1 L1). specialize (IHe2 L2). destruct (zden r e1) as [a|].
    2: { rewrite IHe1. cbn [both bind]. auto. }
    destruct IHe1 as (x & -> & X). cbn [bind]. destruct (zden r e2) as [b|]; cbn [both].
    2: { rewrite IHe2. auto. }
    destruct IHe2 as (y & -> & Y). cbn [bind]. apply mul_exact; auto.
  - destruct L as (L1 & L2). specialize (IHe1 L1). specialize (IHe2 L2). destruct (zden r e1) as [a|].
    2: { rewrite IHe1. cbn [both bind]. auto. }
    destruct IHe1 as (x & -> & X). cbn [bind]. destruct (zden r e2) as [b|]; cbn [both].
    2: { rewrite IHe2. auto. }
    destruct IHe2 as (y & -> & Y). cbn [bind]. destruct (div_trunc x y a b X Y) as (D1 & D2).
    destruct (Z.eqb_spec b 0); [apply D2|apply D1]; auto.
Qed.

Lemma int_eval_same : forall e e', literals_ok e -> literals_ok e' -> zden r e = zden r e' ->
  int_eval Benign s e = int_eval Benign s e'.
Proof.
  intros e e' L L' E. pose proof (int_eval_ok e L) as H. pose proof (int_eval_ok e' L') as H'. rewrite E in H.
  destruct (zden r e').
  - destruct H as (x & -> & X), H' as (y & -> & Y). f_equal. eapply repr_unique; eauto.
  - rewrite H, H'. auto.
Qed.

Lemma int_ring : Forall (fun l => int_eval Benign s (fst l) = int_eval Benign s (snd l)) ring_laws.
Proof.
  unfold ring_laws. repeat (apply Forall_cons); [..|apply Forall_nil]; cbn [fst snd];
  (apply int_eval_same; [cbn; unfold INT_MIN, INT_MAX; intuition lia..|]); cbn [zden both option_map]; f_equal; try ring.
  - apply Z.abs_mul.
  - apply Z.abs_opp.
Qed.

Lemma int_quotient : r 1%nat <> 0 -> r 2%nat <> 0 ->
  Forall (fun l => int_eval Benign s (fst l) = int_eval Benign s (snd l)) quotient_laws.
Proof.
  intros Y0 Z0. unfold quotient_laws. repeat (apply Forall_cons); [..|apply Forall_nil]; cbn [fst snd];
  (apply int_eval_same; [cbn; unfold INT_MIN, INT_MAX; intuition lia..|]); cbn [zden both option_map].
  all: repeat (match goal with |- context[?a =? 0] => destruct (Z.eqb_spec a 0); [lia|] end; cbn [both option_map]); f_equal.
  - apply Z.quot_mul; auto.
  - apply Z.quot_1_r.
  - apply Z.quot_same; auto.
  - apply Z.quot_opp_l; auto.
  - apply Z.quot_opp_r; auto.
  - apply Z.quot_abs; auto.
  - apply Z.quot_quot; auto.
  - apply Z.quot_mul_cancel_r; auto.
Qed.
End ints.

(** Without the benign reading of the out-of-bounds access, evaluation gives the same or is undefined. *)
Lemma int_eval_strict : forall s e,
  int_eval Strict s e = int_eval Benign s e \/ exists u, int_eval Strict s e = UB u.
Proof.
  intros s e. change (refines (int_eval Strict s e) (int_eval Benign s e)).
  induction e; cbn [int_eval]; try apply refines_refl.
  1,2: apply refines_bind; [auto|intros; apply refines_refl].
  all: apply refines_bind; [auto|intros x]; apply refines_bind; [auto|intros y].
  - apply int_add_refines.
  - apply int_sub_refines.
  - apply int_mul_refines'.
  - apply int_div_refines.
Qed.

(** Truncation breaks the field laws. *)
Lemma int_field_refuted : exists s r, (forall v, repr (s v) (r v)) /\ (forall v, r v <> 0) /\
  Forall (fun l => int_eval Benign s (fst l) <> int_eval Benign s (snd l)) field_laws.
Proof.
  exists (fun v => match v with 0%nat => MkInt 1 [7] | 1%nat => MkInt 1 [2] | _ => MkInt 1 [3] end).
  exists (fun v => match v with 0%nat => 7 | 1%nat => 2 | _ => 3 end).
  split; [intros [|[|v]]; apply repr_check; reflexivity|]. split; [intros [|[|v]]; lia|].
  unfold field_laws. repeat apply Forall_cons; [..|apply Forall_nil]; vm_compute; discriminate.
Qed.
