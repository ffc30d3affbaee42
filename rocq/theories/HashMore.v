(** The hashes of Fraction, Complex and Str. *)
From Coq Require Import ZArith List Bool Lia.
From Flocq Require Import BinarySingleNaN.
From Verif Require Import Outcome FloatModel FracModel FracSpec ComplexModel StrModel IntHashSpec.
Import ListNotations.
Open Scope Z_scope.

Lemma frac_hash_exactly : forall f g, (forall hi lxor shl1, frac_hash hi lxor shl1 f = frac_hash hi lxor shl1 g) <-> f = g.
Proof.
  intros [n d] [n' d']; split; [|intros ->; auto]. intros H.
  pose proof (H (fun z => z) (fun a _ => a) (fun z => z)) as A. pose proof (H (fun z => z) (fun _ b => b) (fun z => z)) as B.
  cbn in A, B. congruence.
Qed.

Lemma sf_dec : forall x y : SpecFloat.spec_float, {x = y} + {x <> y}.
Proof. repeat decide equality. Qed.

Lemma cx_hash_exactly : forall a b, (forall h lxor shl1, cx_hash h lxor shl1 a = cx_hash h lxor shl1 b) <-> a = b.
Proof.
  intros [x y] [x' y']; split; [|intros ->; auto]. intros H. unfold cx_hash in H. cbn [re im] in H.
  assert (K : forall u v : double, (forall h : double -> Z, h u = h v) -> u = v).
  { intros u v E. specialize (E (fun w => if sf_dec (B2SF w) (B2SF u) then 1 else 0)). cbn beta in E.
    destruct (sf_dec (B2SF u) (B2SF u)) as [_|N]; [|congruence]. destruct (sf_dec (B2SF v) (B2SF u)) as [F|_]; [|discriminate].
    symmetry. apply B2SF_inj. auto. }
  f_equal; apply K; intros h.
  - exact (H h (fun a _ => a) (fun z => z)).
  - exact (H h (fun _ b => b) (fun z => z)).
Qed.

Lemma word_lxor : forall a b, word (Z.lxor a b) = Z.lxor (word a) (word b).
Proof.
  intros a b. unfold word. apply Z.bits_inj'. intros n N. rewrite Z.lxor_spec.
  destruct (Z_lt_le_dec n 64).
  - rewrite !Z.mod_pow2_bits_low, Z.lxor_spec by lia. auto.
  - rewrite !Z.mod_pow2_bits_high by lia. auto.
Qed.

Lemma lxor_bound : forall k a b, 0 <= k -> 0 <= a < 2 ^ k -> 0 <= b < 2 ^ k -> 0 <= Z.lxor a b < 2 ^ k.
Proof.
  intros k a b K A B. assert (N : 0 <= Z.lxor a b) by (apply Z.lxor_nonneg; lia). split; auto.
  destruct (Z.eq_dec (Z.lxor a b) 0) as [E|E]; [rewrite E; apply Z.pow_pos_nonneg; lia|].
  apply Z.log2_lt_pow2; [lia|]. pose proof (Z.log2_lxor a b (proj1 A) (proj1 B)) as L.
  assert (X : forall z, 0 <= z < 2 ^ k -> z = 0 \/ Z.log2 z < k).
  { intros z Hz. destruct (Z.eq_dec z 0); auto. right. apply Z.log2_lt_pow2; lia. }
  destruct (X a A) as [->|P]; destruct (X b B) as [->|Q]; cbn in E; try lia.
  - rewrite Z.lxor_0_l in *. lia.
  - rewrite Z.lxor_0_r in *. lia.
Qed.

Lemma double_lxor : forall a b, Z.lxor (2 * a) (2 * b) = 2 * Z.lxor a b.
Proof. intros a b. rewrite !(Z.mul_comm 2). change 2 with (2 ^ 1). rewrite <- !Z.shiftl_mul_pow2 by lia. symmetry. apply Z.shiftl_lxor. Qed.

Lemma lxor_eq_swap : forall a b c d, Z.lxor a b = Z.lxor c d <-> Z.lxor a c = Z.lxor b d.
Proof.
  assert (K : forall a b c d, Z.lxor a b = Z.lxor c d -> Z.lxor a c = Z.lxor b d).
  { intros a b c d H. apply Z.bits_inj'. intros n N. apply (f_equal (fun z => Z.testbit z n)) in H. rewrite !Z.lxor_spec in *.
    destruct (Z.testbit a n), (Z.testbit b n), (Z.testbit c n), (Z.testbit d n); auto. }
  split; apply K.
Qed.

Lemma lxor_signed : forall k a b, 0 <= k -> - 2 ^ k <= a < 2 ^ k -> - 2 ^ k <= b < 2 ^ k -> - 2 ^ k <= Z.lxor a b < 2 ^ k.
Proof.
  intros k a b K A B. pose proof (Z.lnot_lxor_l a b) as L. pose proof (Z.lnot_lxor_r a b) as R.
  assert (N : forall z, Z.lnot z = - z - 1) by (intros z; unfold Z.lnot; lia). rewrite !N in L, R.
  destruct (Z_lt_le_dec a 0), (Z_lt_le_dec b 0).
  - rewrite <- (Z.lnot_involutive a), <- (Z.lnot_involutive b), <- Z.lxor_lnot_lnot, !Z.lnot_involutive, !N.
    pose proof (lxor_bound k (- a - 1) (- b - 1)). lia.
  - pose proof (lxor_bound k (- a - 1) b). lia.
  - pose proof (lxor_bound k a (- b - 1)). lia.
  - pose proof (lxor_bound k a b). lia.
Qed.

Theorem frac_hash_word : forall f g, valid f -> valid g ->
  (frac_hash word Z.lxor (fun w => word (2 * w)) f = frac_hash word Z.lxor (fun w => word (2 * w)) g <->
   Z.lxor (num f) (num g) = 2 * Z.lxor (den f) (den g)).
Proof.
  intros [n d] [n' d'] (D & N & _) (D' & N' & _). cbn [num den] in *. unfold INT_MAX in *. unfold frac_hash. cbn [num den].
  assert (W : forall z, 0 < z <= 2147483647 -> word (2 * word z) = 2 * z).
  { intros z Z0. unfold word. rewrite (Z.mod_small z) by lia. apply Z.mod_small. lia. }
  rewrite !W by auto. rewrite lxor_eq_swap, double_lxor, <- word_lxor.
  pose proof (lxor_signed 31 n n' ltac:(lia) ltac:(lia) ltac:(lia)) as X. pose proof (lxor_bound 31 d d' ltac:(lia) ltac:(lia) ltac:(lia)) as Y.
  set (x := Z.lxor n n') in *. set (y := Z.lxor d d') in *. clearbody x y. unfold word.
  destruct (Z_lt_le_dec x 0).
  - replace (x mod 2 ^ 64) with (x + 2 ^ 64); [|apply (Z.mod_unique _ _ (-1)); lia]. split; lia.
  - rewrite Z.mod_small by lia. tauto.
Qed.

Theorem frac_hash_separates : forall f g, valid f -> valid g -> f <> g -> num f = num g \/ den f = den g ->
  frac_hash word Z.lxor (fun w => word (2 * w)) f <> frac_hash word Z.lxor (fun w => word (2 * w)) g.
Proof.
  intros f g F G N H E. apply frac_hash_word in E; auto. apply N. destruct f as [n d], g as [n' d']. cbn [num den] in *.
  destruct H as [<-| <-]; rewrite Z.lxor_nilpotent in E; f_equal; apply Z.lxor_eq; lia.
Qed.

Theorem frac_hash_collision : valid (Frac 1 3) /\ valid (Frac 3 2) /\
  frac_hash word Z.lxor (fun w => word (2 * w)) (Frac 1 3) = frac_hash word Z.lxor (fun w => word (2 * w)) (Frac 3 2).
Proof. split; [|split]; vm_compute; repeat split; congruence. Qed.

Lemma str_hash_exactly : forall s t, (forall h, str_hash h s = str_hash h t) <-> s = t.
Proof.
  intros s t; split; [|intros ->; auto]. intros H. unfold str_hash in H.
  specialize (H (fun u => if list_eq_dec Ascii.ascii_dec u s then 1 else 0)). cbn beta in H.
  destruct (list_eq_dec Ascii.ascii_dec s s) as [_|N]; [|congruence]. destruct (list_eq_dec Ascii.ascii_dec t s); congruence.
Qed.
