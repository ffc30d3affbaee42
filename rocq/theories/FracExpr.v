(** Expressions over Fraction denote what they say, unless an int overflows. *)
From Coq Require Import ZArith QArith Qabs Qfield List Bool Lia.
From Verif Require Import Outcome IntProgModel FracModel FracSpec FracFacts FracMore ExprModel ExprSpec.
Import ListNotations.
Open Scope Z_scope.

Lemma valid_qval : forall f g, valid f -> valid g -> (qval f == qval g)%Q -> f = g.
Proof.
  intros f g F G E. apply valid_unique; auto. destruct F as (D & _), G as (D' & _). 
  unfold Qeq, qval in E. cbn [Qnum Qden] in E. rewrite !Z2Pos.id in E by lia. auto.
Qed.

Section fractions.
Variables (s : var -> Fraction).
Hypothesis R : forall v, valid (s v).
Let r v := qval (s v).

Lemma frac_eval_ok : forall e, literals_ok e -> right_outcome (frac_eval s e) (qden r e).
Proof.
  induction e; cbn [qden frac_eval literals_ok]; intros L.
  - split; auto. exists (r v). split; auto. reflexivity.
  - destruct (of_int_valid z) as (E & V); [unfold fits1, INT_MIN, INT_MAX in *; lia|]. rewrite E. split; auto.
    exists (inject_Z z). split; reflexivity.
  - specialize (IHe L). destruct (frac_eval s e) as [x|x|u|]; cbn [right_outcome bind] in *; auto.
    + destruct IHe as (V & q & -> & E). destruct (neg_total x V) as ((f & -> & V' & E') & _). cbn. split; auto.
      exists (- q)%Q. split; auto. rewrite E', E. reflexivity.
    + destruct IHe as (-> & ->). auto.
  - specialize (IHe L). destruct (frac_eval s e) as [x|x|u|]; cbn [right_outcome bind] in *; auto.
    + destruct IHe as (V & q & -> & E). destruct (neg_total x V) as (_ & (f & -> & V' & E')). cbn. split; auto.
      exists (Qabs q)%Q. split; auto. rewrite E', E. reflexivity.
    + destruct IHe as (-> & ->). auto.
  - destruct L as (L1 & L2). specialize (IHe1 L1). specialize (IHe2 L2).
    destruct (frac_eval s e1) as [x|x|u|]; cbn [right_outcome bind] in *; auto.
    2: { destruct IHe1 as (-> & ->). auto. }
    destruct IHe1 as (V1 & q1 & -> & E1).
    destruct (frac_eval s e2) as [y|y|u|]; cbn [right_outcome bind] in *; auto.
    2: { destruct IHe2 as (-> & ->). auto. }
    destruct IHe2 as (V2 & q2 & -> & E2). cbn [both].
    destruct (add_exact x y V1 V2) as (A & B). 
    match type of A with ?P -> _ => assert (D: P \/ ~ P) end.
    { unfold fits, fits1. lia. }
    destruct D as [D|D]; [|rewrite B by auto; reflexivity]. destruct (A D) as (f & -> & V & E). cbn. split; auto.
    eexists. split; [reflexivity|]. rewrite E, E1, E2. reflexivity.
  - destruct L as (L1 & L2). specialize (IHe1 L1). specialize (IHe2 L2).
    destruct (frac_eval s e1) as [x|x|u|]; cbn [right_outcome bind] in *; auto.
    2: { destruct IHe1 as (-> & ->). auto. }
    destruct IHe1 as (V1 & q1 & -> & E1).
    destruct (frac_eval s e2) as [y|y|u|]; cbn [right_outcome bind] in *; auto.
    2: { destruct IHe2 as (-> & ->). auto. }
    destruct IHe2 as (V2 & q2 & -> & E2). cbn [both].
    destruct (sub_exact x y V1 V2) as (A & B). 
    match type of A with ?P -> _ => assert (D: P \/ ~ P) end.
    { unfold fits, fits1. lia. }
    destruct D as [D|D]; [|rewrite B by auto; reflexivity]. destruct (A D) as (f & -> & V & E). cbn. split; auto.
    eexists. split; [reflexivity|]. rewrite E, E1, E2. reflexivity.
  - destruct L as (L1 & L2). specialize (IHe1 L1). specialize (IHe2 L2).
    destruct (frac_eval s e1) as [x|x|u|]; cbn [right_outcome bind] in *; auto.
    2: { destruct IHe1 as (-> & ->). auto. }
    destruct IHe1 as (V1 & q1 & -> & E1).
    destruct (frac_eval s e2) as [y|y|u|]; cbn [right_outcome bind] in *; auto.
    2: { destruct IHe2 as (-> & ->). auto. }
    destruct IHe2 as (V2 & q2 & -> & E2). cbn [both].
    destruct (mul_exact x y V1 V2) as (A & B). 
    match type of A with ?P -> _ => assert (D: P \/ ~ P) end.
    { unfold fits, fits1. lia. }
    destruct D as [D|D]; [|rewrite B by auto; reflexivity]. destruct (A D) as (f & -> & V & E). cbn. split; auto.
    eexists. split; [reflexivity|]. rewrite E, E1, E2. reflexivity.
  - destruct L as (L1 & L2). specialize (IHe1 L1). specialize (IHe2 L2).
    destruct (frac_eval s e1) as [x|x|u|]; cbn [right_outcome bind] in *; auto.
    2: { destruct IHe1 as (-> & ->). auto. }
    destruct IHe1 as (V1 & q1 & -> & E1).
    destruct (frac_eval s e2) as [y|y|u|]; cbn [right_outcome bind] in *; auto.
    2: { destruct IHe2 as (-> & ->). auto. }
    destruct IHe2 as (V2 & q2 & -> & E2). cbn [both].
    destruct (div_exact x y V1 V2) as (A0 & A & B).
    destruct (Qeq_bool q2 0) eqn:Q0.
    + apply Qeq_bool_iff in Q0. rewrite A0 by (rewrite E2; auto). cbn. auto.
    + apply Qeq_bool_neq in Q0. assert (N: ~ (qval y == 0)%Q) by (rewrite E2; auto).
      match type of A with _ -> ?P -> _ => assert (D: P \/ ~ P) end.
      { unfold fits, fits1. lia. }
      destruct D as [D|D]; [|rewrite B by auto; reflexivity]. destruct (A N D) as (f & -> & V & E). cbn. split; auto.
      eexists. split; [reflexivity|]. rewrite E, E1, E2. reflexivity.
Qed.

Lemma frac_eval_same : forall e e' f f', literals_ok e -> literals_ok e' -> same_rational (qden r e) (qden r e') ->
  frac_eval s e = Ok f -> frac_eval s e' = Ok f' -> f = f'.
Proof.
  intros e e' f f' L L' S E E'. pose proof (frac_eval_ok e L) as H. pose proof (frac_eval_ok e' L') as H'.
  rewrite E in H. rewrite E' in H'. destruct H as (V & q & Q & X), H' as (V' & q' & Q' & X'). rewrite Q, Q' in S. cbn in S.
  apply valid_qval; auto. rewrite X, X', S. reflexivity.
Qed.

Lemma frac_ring : Forall (fun l => forall f f', frac_eval s (fst l) = Ok f -> frac_eval s (snd l) = Ok f' -> f = f') ring_laws.
Proof.
  unfold ring_laws. repeat (apply Forall_cons); [..|apply Forall_nil]; cbn [fst snd]; intros f f';
  (apply frac_eval_same; [cbn; unfold INT_MIN, INT_MAX; intuition lia..|]); cbn [qden both option_map same_rational];
  change (inject_Z 0) with 0%Q; change (inject_Z 1) with 1%Q; change (inject_Z (-1)) with (-1)%Q; try ring.
  - apply Qabs_Qmult.
  - apply Qabs_opp.
Qed.

Lemma qabs_div : forall a b, ~ (b == 0)%Q -> (Qabs a / Qabs b == Qabs (a / b))%Q.
Proof.
  intros a b N. assert (~ (Qabs b == 0)%Q).
  { intros E. apply N. destruct b as [n d]. unfold Qabs, Qeq in *. cbn in *. lia. }
  apply (Qmult_inj_r _ _ (Qabs b)); auto. rewrite <- Qabs_Qmult. transitivity (Qabs a); [field; auto|].
  apply Qabs_wd. field. auto.
Qed.
Lemma q_mul_nz : forall a b, ~ (a == 0)%Q -> ~ (b == 0)%Q -> ~ (a * b == 0)%Q.
Proof. intros a b A B E. apply Qmult_integral in E. tauto. Qed.

Lemma frac_field : ~ (r 1%nat == 0)%Q -> ~ (r 2%nat == 0)%Q ->
  Forall (fun l => forall f f', frac_eval s (fst l) = Ok f -> frac_eval s (snd l) = Ok f' -> f = f') (quotient_laws ++ field_laws).
Proof.
  intros Y0 Z0. assert (YZ: ~ (r 1%nat * r 2%nat == 0)%Q) by (apply q_mul_nz; auto).
  assert (YN: ~ (- r 1%nat == 0)%Q). { intros E. apply Y0. rewrite <- (Qopp_involutive (r 1%nat)), E. reflexivity. }
  assert (YA: ~ (Qabs (r 1%nat) == 0)%Q).
  { intros E. apply Y0. destruct (r 1%nat) as [n d]. unfold Qabs, Qeq in *. cbn in *. lia. }
  assert (YD: ~ (r 1%nat / r 2%nat == 0)%Q).
  { intros E. apply Y0. assert (X: (r 1%nat == r 1%nat / r 2%nat * r 2%nat)%Q) by (field; auto). rewrite X, E. ring. }
  assert (B: forall a, ~ (a == 0)%Q -> Qeq_bool a 0 = false).
  { intros a N. destruct (Qeq_bool a 0) eqn:E; auto. apply Qeq_bool_iff in E. contradiction. }
  unfold quotient_laws, field_laws. cbn [app]. repeat (apply Forall_cons); [..|apply Forall_nil]; cbn [fst snd]; intros f f';
  (apply frac_eval_same; [cbn; unfold INT_MIN, INT_MAX; intuition lia..|]); cbn [qden both option_map same_rational];
  change (inject_Z 0) with 0%Q; change (inject_Z 1) with 1%Q; change (inject_Z (-1)) with (-1)%Q.
  all: repeat (match goal with |- context[Qeq_bool ?a 0] => rewrite (B a) by (auto; discriminate) end; cbn [both option_map same_rational]).
  all: try (field; auto).
  apply qabs_div. auto.
Qed.
End fractions.

(** Which side of a law overflows depends on the grouping. *)
Lemma regroup_witness : let s := fun v : var => match v with 0%nat => Frac INT_MAX 1 | 1%nat => Frac 1 1 | _ => Frac (-1) 1 end in
  (forall v, valid (s v)) /\
  frac_eval s (EAdd (EAdd (EVar 0%nat) (EVar 1%nat)) (EVar 2%nat)) = UB SignedOverflow /\
  frac_eval s (EAdd (EVar 0%nat) (EAdd (EVar 1%nat) (EVar 2%nat))) = Ok (Frac INT_MAX 1).
Proof.
  split; [|split; vm_compute; reflexivity]. intros [|[|v]]; repeat split; cbn; unfold INT_MAX; try lia; reflexivity.
Qed.
