(** C41: what == of Fractions tests, and what is left of equality. *)
From Coq Require Import ZArith QArith Qreals Reals List Bool Lia Lra.
From Flocq Require Import Core BinarySingleNaN.
From Verif Require Import Outcome FloatModel FloatFacts FracModel FracSpec FracFacts FracMore FracDouble.
Open Scope Z_scope.

Theorem eq_rounded : forall x y, valid x -> valid y -> (frac_eqb x y = true <-> drnd (Q2R (qval x)) = drnd (Q2R (qval y))).
Proof.
  intros x y Vx Vy. destruct (to_double x Vx) as (Fx & Rx). destruct (to_double y Vy) as (Fy & Ry).
  unfold frac_eqb, deqb. rewrite Beqb_correct by auto. rewrite Rx, Ry. destruct (Req_bool_spec (drnd (Q2R (qval x))) (drnd (Q2R (qval y)))); split; auto; discriminate.
Qed.
Theorem eq_equivalence : (forall x, valid x -> frac_eqb x x = true) /\
  (forall x y, valid x -> valid y -> frac_eqb x y = frac_eqb y x) /\
  (forall x y z, valid x -> valid y -> valid z -> frac_eqb x y = true -> frac_eqb y z = true -> frac_eqb x z = true).
Proof.
  split; [|split].
  - intros x V. apply eq_rounded; auto.
  - intros x y Vx Vy. apply Bool.eq_iff_eq_true. rewrite !eq_rounded by auto. split; auto.
  - intros x y z Vx Vy Vz. rewrite !eq_rounded by auto. congruence.
Qed.
Theorem eq_between : forall x y z, valid x -> valid y -> valid z -> (qval x <= qval y)%Q -> (qval y <= qval z)%Q ->
  frac_eqb x z = true -> frac_eqb x y = true /\ frac_eqb y z = true.
Proof.
  intros x y z Vx Vy Vz A B. rewrite !eq_rounded by auto. apply Qle_Rle in A. apply Qle_Rle in B. apply drnd_le in A. apply drnd_le in B. lra.
Qed.
Theorem eq_close : forall x y, valid x -> valid y -> frac_eqb x y = true ->
  (Rabs (Q2R (qval x) - Q2R (qval y)) <= / IZR (2 ^ 53) * (Rabs (Q2R (qval x)) + Rabs (Q2R (qval y))))%R.
Proof.
  intros x y Vx Vy H. apply eq_rounded in H; auto. pose proof (to_double_err x Vx) as Ex. pose proof (to_double_err y Vy) as Ey.
  rewrite (proj2 (to_double x Vx)) in Ex. rewrite (proj2 (to_double y Vy)), <- H in Ey. revert Ex Ey.
  generalize (drnd (Q2R (qval x))). intros d. generalize (Q2R (qval x)) (Q2R (qval y)) (/ IZR (2 ^ 53))%R. intros a b e Ea Eb.
  rewrite Rmult_plus_distr_l. replace (a - b)%R with ((d - b) - (d - a))%R by lra.
  eapply Rle_trans; [apply Rabs_triang|]. rewrite Rabs_Ropp. lra.
Qed.
