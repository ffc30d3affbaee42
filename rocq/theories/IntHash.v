(** How many hash values the Ints have. *)
From Coq Require Import ZArith List Bool Lia Permutation.
From Verif Require Import Outcome IntModel IntSpec IntBase IntHashSpec ExTools.
Import ListNotations.
Open Scope Z_scope.

Section Hash.
Variables hs hi : Z -> Z.
Let g (d : Z) : Z := (Z.shiftl (hi d) 1) mod 2 ^ 64.

Lemma hash_fold : forall l a, fold_left (fun v d => Z.lxor v (g d)) l a = Z.lxor a (fold_right (fun d v => Z.lxor (g d) v) 0 l).
Proof.
  induction l as [|d l IH]; intros a; cbn [fold_left fold_right]; [rewrite Z.lxor_0_r; auto|]. rewrite IH, Z.lxor_assoc. auto.
Qed.
Lemma hash_eq : forall x, int_hash hs hi x = Z.lxor (hs (sign x)) (fold_right (fun d v => Z.lxor (g d) v) 0 (chunks x)).
Proof. intros x. unfold int_hash. apply hash_fold. Qed.

Lemma hash_perm : forall x y, sign x = sign y -> Permutation (chunks x) (chunks y) -> int_hash hs hi x = int_hash hs hi y.
Proof.
  intros x y S P. rewrite !hash_eq, S. f_equal. clear S. induction P; cbn [fold_right]; try congruence.
  rewrite <- !Z.lxor_assoc, (Z.lxor_comm (g y0)). auto.
Qed.
Lemma hash_pair : forall s d c, int_hash hs hi (MkInt s (d :: d :: c)) = int_hash hs hi (MkInt s c).
Proof. intros s d c. rewrite !hash_eq. cbn [sign chunks fold_right]. rewrite <- (Z.lxor_assoc (g d)), Z.lxor_nilpotent, Z.lxor_0_l. auto. Qed.

Fixpoint span (l : list Z) : list Z := match l with [] => [0] | d :: l' => span l' ++ map (Z.lxor (g d)) (span l') end.
Lemma span_length : forall l, Z.of_nat (length (span l)) = 2 ^ Z.of_nat (length l).
Proof.
  induction l; cbn [span length]; auto. rewrite app_length, map_length, Nat2Z.inj_add, IHl, Nat2Z.inj_succ, Z.pow_succ_r by lia. lia.
Qed.
Lemma span_0 : forall l, In 0 (span l).
Proof. induction l; cbn [span]; [left; auto|]. apply in_or_app. auto. Qed.
Lemma span_closed : forall l d v, In d l -> In v (span l) -> In (Z.lxor (g d) v) (span l).
Proof.
  induction l as [|e l IH]; intros d v D V; [destruct D|]. cbn [span] in *. apply in_or_app. apply in_app_or in V.
  destruct D as [->|D].
  - destruct V as [V|V]; [right; apply in_map; auto|]. apply in_map_iff in V as (w & <- & W). left.
    rewrite <- Z.lxor_assoc, Z.lxor_nilpotent, Z.lxor_0_l. auto.
  - destruct V as [V|V]; [left; auto|]. apply in_map_iff in V as (w & <- & W). right.
    rewrite <- Z.lxor_assoc, (Z.lxor_comm (g d)), Z.lxor_assoc. apply in_map. auto.
Qed.
Lemma span_all : forall l c, (forall d, In d c -> In d l) -> In (fold_right (fun d v => Z.lxor (g d) v) 0 c) (span l).
Proof. induction c as [|d c IH]; intros H; cbn [fold_right]; [apply span_0|]. apply span_closed; [apply H; left; auto|]. apply IH. intros; apply H; right; auto. Qed.

Definition ten := [0; 1; 2; 3; 4; 5; 6; 7; 8; 9].
Lemma hash_few : exists L, Z.of_nat (length L) = 2049 /\ forall x, canonical x -> In (int_hash hs hi x) L.
Proof.
  exists (hs 0 :: map (Z.lxor (hs 1)) (span ten) ++ map (Z.lxor (hs (-1))) (span ten)). split.
  - cbn [length]. rewrite app_length, !map_length, Nat2Z.inj_succ, Nat2Z.inj_add, span_length. reflexivity.
  - intros x (D & _ & S & Z0). rewrite hash_eq. assert (T: forall d, In d (chunks x) -> In d ten).
    { intros d I. rewrite Forall_forall in D. specialize (D d I). unfold digit in D. assert (H: d = 0 \/ d = 1 \/ d = 2 \/ d = 3 \/ d = 4 \/ d = 5 \/ d = 6 \/ d = 7 \/ d = 8 \/ d = 9) by lia.
      cbn. intuition. }
    pose proof (span_all ten _ T) as M. destruct S as [->|[S| ->]].
    + right. apply in_or_app. right. apply in_map. auto.
    + left. rewrite S, (proj1 Z0 S). cbn [fold_right]. rewrite Z.lxor_0_r. auto.
    + right. apply in_or_app. left. apply in_map. auto.
Qed.
End Hash.

(** libstdc++ *)
Lemma xor_digits : forall l, Forall digit l -> 0 <= fold_right Z.lxor 0 l < 16 /\ fold_right (fun d v => Z.lxor ((Z.shiftl (d mod 2 ^ 64) 1) mod 2 ^ 64) v) 0 l = 2 * fold_right Z.lxor 0 l.
Proof.
  induction 1 as [|d l D F (I1 & I2)]; cbn [fold_right]; [lia|]. unfold digit in D. split.
  - split; [apply Z.lxor_nonneg; lia|]. assert (H: Z.log2 (Z.lxor d (fold_right Z.lxor 0 l)) < 4 \/ Z.lxor d (fold_right Z.lxor 0 l) = 0).
    { destruct (Z.eq_dec (Z.lxor d (fold_right Z.lxor 0 l)) 0); [auto|left]. eapply Z.le_lt_trans; [apply Z.log2_lxor; lia|].
      apply Z.max_lub_lt.
      - destruct (Z.eq_dec d 0) as [->|]; [cbn; lia|]. apply Z.log2_lt_pow2; lia.
      - set (v := fold_right Z.lxor 0 l) in *. destruct (Z.eq_dec v 0) as [->|]; [cbn; lia|]. apply Z.log2_lt_pow2; lia. }
    destruct H as [H| ->]; [|lia]. set (w := Z.lxor d _) in *. destruct (Z.le_gt_cases w 0); [lia|]. apply Z.log2_lt_pow2 in H; lia.
  - rewrite I2. change (2 ^ 64) with 18446744073709551616. rewrite (Z.mod_small d) by lia.
    assert (M: forall v, 2 * v = Z.shiftl v 1) by (intros; rewrite Z.shiftl_mul_pow2, Z.pow_1_r by lia; lia).
    rewrite <- M, (Z.mod_small (2 * d)) by lia. rewrite !M, Z.shiftl_lxor. auto.
Qed.

Lemma hash_word : forall x, canonical x -> int_hash word word x = Z.lxor (word (sign x)) (2 * fold_right Z.lxor 0 (chunks x)) /\ (0 <= sign x -> 0 <= int_hash word word x < 32).
Proof.
  intros x (D & _ & S & _). destruct (xor_digits _ D) as (B & E).
  assert (H: int_hash word word x = Z.lxor (word (sign x)) (2 * fold_right Z.lxor 0 (chunks x))) by (rewrite hash_eq, <- E; reflexivity).
  split; [exact H|]. rewrite H. intros P.
  assert (W: word (sign x) = 0 \/ word (sign x) = 1) by (destruct S as [S|[S|S]]; rewrite S in *; [lia|left; reflexivity|right; reflexivity]).
  set (v := fold_right Z.lxor 0 (chunks x)) in *.
  destruct W as [-> | ->]; [rewrite Z.lxor_0_l; lia|]. rewrite <- Z.add_nocarry_lxor; [lia|].
  apply Z.bits_inj'. intros n N. rewrite Z.land_spec, Z.bits_0. destruct (Z.eq_dec n 0) as [->|].
  - rewrite Z.testbit_even_0. apply andb_false_r.
  - replace (Z.testbit 1 n) with false; auto. symmetry. change 1 with (2 ^ 0). apply Z.pow2_bits_false. lia.
Qed.

(** Which Ints collide whatever the hashes of the digits are. *)
Lemma odd_cons : forall d e c, odd_count d (e :: c) = xorb (if Z.eq_dec e d then true else false) (odd_count d c).
Proof.
  intros d e c. unfold odd_count. cbn [count_occ]. destruct (Z.eq_dec e d); [|destruct (Nat.odd _); auto].
  rewrite Nat.odd_succ, <- Nat.negb_odd. destruct (Nat.odd _); auto.
Qed.

Section Exact.
Variable g : Z -> Z.
Let by_parity (c l : list Z) : Z := fold_right (fun d v => Z.lxor (if odd_count d c then g d else 0) v) 0 l.

Lemma parity_other : forall l d c, ~ In d l -> by_parity (d :: c) l = by_parity c l.
Proof.
  induction l as [|e l IH]; intros d c N; cbn [by_parity fold_right]; auto. fold (by_parity (d :: c) l). fold (by_parity c l).
  rewrite IH by (intros H; apply N; right; auto). rewrite odd_cons. destruct (Z.eq_dec d e); [exfalso; apply N; left; auto|]. rewrite xorb_false_l. auto.
Qed.
Lemma parity_cons : forall l d c, NoDup l -> In d l -> by_parity (d :: c) l = Z.lxor (g d) (by_parity c l).
Proof.
  induction l as [|e l IH]; intros d c U I; [destruct I|]. inversion U as [|? ? E U']; subst. cbn [by_parity fold_right]. fold (by_parity (d :: c) l). fold (by_parity c l).
  rewrite odd_cons. destruct (Z.eq_dec d e) as [->|N].
  - rewrite parity_other by auto. rewrite xorb_true_l. destruct (odd_count e c); cbn [negb]; [|rewrite Z.lxor_0_l; auto].
    rewrite Z.lxor_0_l, <- Z.lxor_assoc, Z.lxor_nilpotent, Z.lxor_0_l. auto.
  - destruct I as [->|I]; [congruence|]. rewrite xorb_false_l, IH by auto. rewrite <- !Z.lxor_assoc. f_equal. apply Z.lxor_comm.
Qed.
Lemma parity_all : forall l c, NoDup l -> (forall d, In d c -> In d l) -> fold_right (fun d v => Z.lxor (g d) v) 0 c = by_parity c l.
Proof.
  intros l c U. induction c as [|d c IH]; intros H; cbn [fold_right].
  - clear. unfold by_parity. induction l as [|d l IH]; cbn [fold_right]; auto.
  - rewrite parity_cons by (auto; apply H; left; auto). rewrite IH; auto. intros; apply H; right; auto.
Qed.
Lemma parity_same : forall l c c', (forall d, odd_count d c = odd_count d c') -> by_parity c l = by_parity c' l.
Proof. intros l c c' H. unfold by_parity. induction l; cbn [fold_right]; auto. rewrite H, IHl. auto. Qed.
End Exact.

Lemma parity_detect : forall d c, fold_right (fun e v => Z.lxor ((Z.shiftl (if Z.eq_dec e d then 1 else 0) 1) mod 2 ^ 64) v) 0 c = (if odd_count d c then 2 else 0).
Proof.
  intros d c. induction c as [|e c IH]; cbn [fold_right]; auto. rewrite IH, odd_cons. destruct (Z.eq_dec e d), (odd_count d c); reflexivity.
Qed.

Lemma collide_exact : forall x y,
  ((forall hs hi, int_hash hs hi x = int_hash hs hi y) <-> (sign x = sign y /\ forall d, odd_count d (chunks x) = odd_count d (chunks y))).
Proof.
  intros x y. split.
  - intros H. split.
    + specialize (H (fun s => s) (fun _ => 0)). rewrite !hash_eq in H.
      assert (Z0: forall c : list Z, fold_right (fun d v => Z.lxor ((Z.shiftl 0 1) mod 2 ^ 64) v) 0 c = 0) by (induction c; cbn [fold_right]; auto; rewrite IHc; auto).
      rewrite !Z0, !Z.lxor_0_r in H. auto.
    + intros d. specialize (H (fun _ => 0) (fun e => if Z.eq_dec e d then 1 else 0)). rewrite !hash_eq, !Z.lxor_0_l, !parity_detect in H.
      destruct (odd_count d (chunks x)), (odd_count d (chunks y)); auto; discriminate.
  - intros (S & P) hs hi. rewrite !hash_eq, S. f_equal.
    set (g := fun d => Z.shiftl (hi d) 1 mod 2 ^ 64). set (l := nodup Z.eq_dec (chunks x ++ chunks y)).
    assert (U: NoDup l) by apply NoDup_nodup.
    transitivity (fold_right (fun d v => Z.lxor (if odd_count d (chunks x) then g d else 0) v) 0 l).
    { apply (parity_all g l (chunks x)); auto. intros d I; apply nodup_In, in_or_app; auto. }
    transitivity (fold_right (fun d v => Z.lxor (if odd_count d (chunks y) then g d else 0) v) 0 l).
    { apply (parity_same g l); auto. }
    symmetry. apply (parity_all g l (chunks y)); auto. intros d I; apply nodup_In, in_or_app; auto.
Qed.

Lemma hash_order : forall hs hi, (forall x y, sign x = sign y -> Permutation (chunks x) (chunks y) -> int_hash hs hi x = int_hash hs hi y) /\
  (forall s d c, int_hash hs hi (MkInt s (d :: d :: c)) = int_hash hs hi (MkInt s c)).
Proof. intros hs hi. split; [apply hash_perm|apply hash_pair]. Qed.

Lemma hash_refuted : exists a b c d, repr a 12 /\ repr b 21 /\ repr c 1 /\ repr d 122 /\
  forall hs hi, int_hash hs hi a = int_hash hs hi b /\ int_hash hs hi c = int_hash hs hi d.
Proof.
  exists (MkInt 1 [2; 1]), (MkInt 1 [1; 2]), (MkInt 1 [1]), (MkInt 1 [2; 2; 1]).
  do 4 (split; [apply repr_check; reflexivity|]). intros hs hi. split; [apply hash_perm; [auto|apply perm_swap]|symmetry; apply hash_pair].
Qed.
