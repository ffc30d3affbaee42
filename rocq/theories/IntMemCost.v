(** How many allocations the operations of [Int] make. *)
From Coq Require Import ZArith Ascii List Bool Lia.
From Verif Require Import Outcome IntModel IntSpec IntBase IntAddSub IntMulDiv IntProgModel IntProgSpec ExTools
  IntMemModel IntMemSpec IntMemFacts IntMem IntMemSem IntMemMore IntIO IntMore.
Import ListNotations.
Open Scope Z_scope.

Section Cost.
Variable grow : nat -> nat -> nat.
Variable ok : nat -> bool.
Hypothesis enough : forall j, ok j = true.
Local Notation p := Benign.

Lemma alloc_1 : forall k, alloc ok k = (MRet tt, S k).
Proof. intros k. unfold alloc. rewrite enough. reflexivity. Qed.
Lemma new_1 : forall l k, l <> [] -> v_new ok l k = (MRet (Vec l (length l)), S k).
Proof. intros [|d l] k H; [congruence|]. unfold v_new, abind. rewrite alloc_1. reflexivity. Qed.
Lemma grow_1 : forall v l k, (room v < length l)%nat ->
  v_grow grow ok v l k = (MRet (Vec l (Nat.max (length l) (grow (length (items v)) (length l)))), S k).
Proof. intros v l k H. apply Nat.leb_gt in H. unfold v_grow. rewrite H. unfold abind. rewrite alloc_1. reflexivity. Qed.
Lemma grow_0 : forall v l k, (length l <= room v)%nat -> v_grow grow ok v l k = (MRet (Vec l (room v)), k).
Proof. intros v l k H. apply Nat.leb_le in H. unfold v_grow. rewrite H. reflexivity. Qed.

Lemma assign_1 : forall v l k, v_assign ok v l k =
  (MRet (Vec l (Nat.max (room v) (length l))), (k + beyond (room v) (length l))%nat).
Proof.
  intros v l k. unfold v_assign, beyond. destruct (Nat.leb (length l) (room v)) eqn:B.
  - apply Nat.leb_le in B. rewrite Nat.max_l, Nat.add_0_r by exact B. reflexivity.
  - apply Nat.leb_gt in B. unfold abind. rewrite alloc_1. cbn. rewrite Nat.max_r by lia. rewrite (Nat.add_1_r k). reflexivity.
Qed.

(** Copies *)
Lemma some_len : forall x z, repr x z -> some z = match chunks x with [] => 0%nat | _ => 1%nat end.
Proof.
  intros x z H. unfold some. destruct (Z.eqb_spec z 0) as [->|N].
  - apply repr_zero_inv in H. subst x. reflexivity.
  - pose proof (repr_nonnil _ _ H N). destruct (chunks x); congruence.
Qed.
Lemma copy_cost : forall x z k, repr (forget x) z ->
  m_copy ok x k = (MRet (MI (msign x) (Vec (items (mvec x)) (length (items (mvec x))))), (k + some z)%nat).
Proof.
  intros x z k H. rewrite (some_len _ _ H). unfold m_copy, abind. cbn [chunks forget].
  destruct (items (mvec x)) as [|d l] eqn:E; [cbn; rewrite Nat.add_0_r; reflexivity|].
  rewrite <- E. rewrite new_1 by congruence. unfold aret. rewrite E. rewrite (Nat.add_1_r k). reflexivity.
Qed.
Lemma copy_makes : forall x z, repr (forget x) z -> makes_new (m_copy ok x) (some z) z.
Proof.
  intros x z H k. rewrite (copy_cost x z k H). eexists. split; [reflexivity|]. split; [exact H|]. unfold fits. cbn. lia.
Qed.
Lemma neg_makes : forall x z, repr (forget x) z -> makes_new (m_neg ok x) (some z) (- z).
Proof.
  intros x z H k. unfold m_neg, abind. rewrite (copy_cost x z k H). eexists. split; [reflexivity|]. split.
  - exact (int_neg_spec _ _ H).
  - unfold fits. cbn. lia.
Qed.
Lemma abs_makes : forall x z, repr (forget x) z -> makes_new (m_abs ok x) (some z) (Z.abs z).
Proof.
  intros x z H. unfold m_abs. change (msign x) with (sign (forget x)). rewrite (repr_sign _ _ H).
  destruct (Z.eqb_spec (Z.sgn z) (-1)).
  - replace (Z.abs z) with (- z) by lia. apply neg_makes. exact H.
  - replace (Z.abs z) with z by lia. apply copy_makes. exact H.
Qed.

(** Assignment *)
Lemma assign_makes : forall x y b, repr (forget y) b ->
  makes x (m_assign_copy ok y) (beyond (room (mvec x)) (length (items (mvec y)))) b.
Proof.
  intros x y b H k. unfold m_assign_copy, obind, oget, oput, olift. cbn [fst snd]. rewrite assign_1. cbn [fst snd].
  eexists. split; [reflexivity|]. split; [exact H|]. unfold fits. cbn. lia.
Qed.
Lemma makes_get : forall x (f : MInt -> om unit) n z, makes x (f x) n z -> makes x (obind oget f) n z.
Proof. intros x f n z H k. exact (H k). Qed.
Lemma makes_ret : forall x z, repr (forget x) z -> fits x -> makes x (oret tt) 0 z.
Proof. intros x z H F k. exists x. rewrite Nat.add_0_r. split; [reflexivity|auto]. Qed.
Lemma makes_lift : forall A x (m : am A) (f : A -> om unit) a n1 n2 z,
  (forall k, m k = (MRet a, (k + n1)%nat)) -> makes x (f a) n2 z -> makes x (obind (olift m) f) (n1 + n2) z.
Proof.
  intros A x m f a n1 n2 z Hm Hf k. unfold obind, olift. cbn [fst snd]. rewrite Hm. cbn [fst snd].
  destruct (Hf (k + n1)%nat) as (x' & E & R). exists x'. rewrite E. rewrite Nat.add_assoc. auto.
Qed.
Lemma makes_new_then : forall x (m : am MInt) (f : MInt -> om unit) n1 n2 a z,
  makes_new m n1 a -> (forall r, repr (forget r) a -> fits r -> makes x (f r) n2 z) -> makes x (obind (olift m) f) (n1 + n2) z.
Proof.
  intros x m f n1 n2 a z Hm Hf k. unfold obind, olift. cbn [fst snd]. destruct (Hm k) as (r & E & R & F). rewrite E. cbn [fst snd].
  destruct (Hf r R F (k + n1)%nat) as (x' & E' & R'). exists x'. rewrite E'. rewrite Nat.add_assoc. auto.
Qed.
Lemma lift_ok : forall A (a : A) k, alift (Ok a) k = (MRet a, (k + 0)%nat).
Proof. intros A a k. rewrite Nat.add_0_r. reflexivity. Qed.
Lemma makes_put : forall x y (f : unit -> om unit) n z, makes y (f tt) n z -> makes x (obind (oput y) f) n z.
Proof. intros x y f n z H k. exact (H k). Qed.
Lemma makes_done : forall x y z, repr (forget y) z -> fits y -> makes x (oput y) 0 z.
Proof. intros x y z H F k. exists y. rewrite Nat.add_0_r. split; [reflexivity|auto]. Qed.
Lemma grow_n : forall v (l : list Z) k, v_grow grow ok v l k =
  (MRet (Vec l (if Nat.leb (length l) (room v) then room v else Nat.max (length l) (grow (length (items v)) (length l)))),
   (k + beyond (room v) (length l))%nat).
Proof.
  intros v l k. unfold v_grow, beyond. destruct (Nat.leb (length l) (room v)).
  - rewrite Nat.add_0_r. reflexivity.
  - unfold abind. rewrite alloc_1. rewrite (Nat.add_1_r k). reflexivity.
Qed.
Lemma grow_room : forall v (l : list Z), (length l <= (if Nat.leb (length l) (room v) then room v else Nat.max (length l) (grow (length (items v)) (length l))))%nat.
Proof. intros v l. destruct (Nat.leb (length l) (room v)) eqn:B; [apply Nat.leb_le in B; exact B|lia]. Qed.

(** The last step: a digit loop whose result replaces the object *)
Lemma makes_loop : forall x (o : outcome Int) r n z, o = Ok r -> repr r z -> (length (chunks r) <= n)%nat ->
  makes x (obind (olift (alift o)) (fun r => oput (with_room r n))) 0 z.
Proof.
  intros x o r n z -> R L. apply makes_lift with (n1 := 0%nat) (n2 := 0%nat) (a := r); [apply lift_ok|].
  apply makes_done; [rewrite forget_with; exact R|exact L].
Qed.

Lemma add_same_makes : forall x y a b, repr (forget x) a -> repr (forget y) b -> a <> 0 -> Z.sgn a = Z.sgn b ->
  makes x (m_add_same grow ok p y)
    (beyond (room (mvec x)) (Nat.max (length (items (mvec x))) (length (items (mvec y))) + 1)) (a + b).
Proof.
  intros x y a b Hx Hy Ha Hs. unfold m_add_same. apply makes_get. unfold v_resize.
  destruct (add_same_spec p _ _ _ _ Hx Hy) as (r & E & R); auto.
  set (n := (Nat.max _ _ + 1)%nat). rewrite <- (Nat.add_0_r (beyond _ _)).
  assert (L : length (resize (items (mvec x)) n) = n) by apply resize_length.
  eapply makes_lift; [intros k; rewrite grow_n; rewrite L; reflexivity|]. apply makes_put. eapply makes_loop; [exact E|exact R|].
  apply add_same_length in E. cbn [room]. pose proof (grow_room (mvec x) (resize (items (mvec x)) n)) as G. rewrite L in G.
  unfold forget in E. cbn [chunks] in E. unfold n in *. lia.
Qed.
Lemma sub_same_makes : forall x y a b, repr (forget x) a -> fits x -> repr (forget y) b -> a <> 0 -> Z.sgn a = Z.sgn b ->
  makes x (m_sub_same ok p y) 1 (a - b).
Proof.
  intros x y a b Hx Fx Hy Ha Hs. unfold m_sub_same. apply makes_get. assert (Hb : b <> 0) by lia.
  pose proof (repr_nonnil _ _ Hy Hb) as Ny. destruct (sub_same_spec p _ _ _ _ Hx Hy) as (r & E & R); auto.
  change 1%nat with (1 + (0 + 0))%nat. eapply makes_lift; [intros k; rewrite new_1 by exact Ny; rewrite (Nat.add_1_r k); reflexivity|].
  pose proof (abs_cmp_spec _ _ _ _ Hx Hy) as C.
  eapply makes_lift; [rewrite C; apply lift_ok|]. eapply makes_loop; [exact E|exact R|].
  pose proof (sub_same_length _ _ _ _ _ C E) as L. unfold fits in Fx. unfold forget in L. cbn [chunks] in L. cbn [room].
  destruct (_ =? -1); lia.
Qed.

Lemma msign_sgn : forall x z, repr (forget x) z -> msign x = Z.sgn z.
Proof. intros x z H. change (msign x) with (sign (forget x)). apply repr_sign. exact H. Qed.
Lemma some_1 : forall z, z <> 0 -> some z = 1%nat.
Proof. intros z H. unfold some. apply Z.eqb_neq in H. rewrite H. reflexivity. Qed.

(** [x += y] *)
Lemma add_makes : forall x y a b, repr (forget x) a -> fits x -> repr (forget y) b ->
  makes x (m_add_assign grow ok p y) (add_allocs x y a b) (a + b).
Proof.
  intros x y a b Hx Fx Hy. unfold m_add_assign. cbn [m_add_sub]. apply makes_get.
  rewrite (msign_sgn _ _ Hx), (msign_sgn _ _ Hy). unfold add_allocs.
  destruct (Z.eqb_spec a 0) as [A0|A0].
  - subst a. cbn [Z.sgn Z.eqb orb Z.add]. apply assign_makes. exact Hy.
  - destruct (Z.eqb_spec (Z.sgn a) 0); [lia|]. cbn [orb]. destruct (Z.eqb_spec b 0) as [B0|B0].
    + subst b. cbn [Z.sgn Z.eqb]. rewrite Z.add_0_r. apply makes_ret; assumption.
    + destruct (Z.eqb_spec (Z.sgn b) 0); [lia|]. destruct (Z.eqb_spec (Z.sgn a) (Z.sgn b)) as [S|S]; cbn [negb].
      * apply add_same_makes; auto.
      * change 2%nat with (1 + 1)%nat. rewrite <- (some_1 b B0) at 1. eapply makes_new_then; [apply neg_makes; exact Hy|].
        intros r Rr Fr. apply makes_get. rewrite (msign_sgn _ _ Hx), (msign_sgn _ _ Rr).
        destruct (Z.eqb_spec (Z.sgn a) 0); [lia|]. destruct (Z.eqb_spec (Z.sgn (- b)) 0); [lia|]. cbn [orb].
        destruct (Z.eqb_spec (Z.sgn a) (Z.sgn (- b))); [|lia]. cbn [negb]. replace (a + b) with (a - - b) by lia.
        apply sub_same_makes; auto.
Qed.
(** [x -= y] *)
Lemma repr_len : forall x y z, repr x z -> repr y (- z) -> length (chunks x) = length (chunks y).
Proof.
  intros x y z Hx Hy. pose proof (int_neg_spec _ _ Hx) as H. rewrite (repr_unique _ _ _ Hy H). reflexivity.
Qed.
Lemma sub_makes : forall x y a b, repr (forget x) a -> fits x -> repr (forget y) b ->
  makes x (m_sub_assign grow ok p y) (sub_allocs x y a b) (a - b).
Proof.
  intros x y a b Hx Fx Hy. unfold m_sub_assign. cbn [m_add_sub]. apply makes_get.
  rewrite (msign_sgn _ _ Hx), (msign_sgn _ _ Hy). unfold sub_allocs.
  destruct (Z.eqb_spec a 0) as [A0|A0].
  - subst a. cbn [Z.sgn Z.eqb orb]. rewrite <- (Nat.add_0_r (some b)). eapply makes_new_then; [apply neg_makes; exact Hy|].
    intros r Rr Fr. apply makes_done; [replace (0 - b) with (- b) by lia; exact Rr|exact Fr].
  - destruct (Z.eqb_spec (Z.sgn a) 0); [lia|]. cbn [orb]. destruct (Z.eqb_spec b 0) as [B0|B0].
    + subst b. cbn [Z.sgn Z.eqb]. rewrite Z.sub_0_r. apply makes_ret; assumption.
    + destruct (Z.eqb_spec (Z.sgn b) 0); [lia|]. destruct (Z.eqb_spec (Z.sgn a) (Z.sgn b)) as [S|S]; cbn [negb].
      * apply sub_same_makes; auto.
      * rewrite <- (some_1 b B0) at 1. eapply makes_new_then; [apply neg_makes; exact Hy|].
        intros r Rr Fr. apply makes_get. rewrite (msign_sgn _ _ Hx), (msign_sgn _ _ Rr).
        destruct (Z.eqb_spec (Z.sgn a) 0); [lia|]. destruct (Z.eqb_spec (Z.sgn (- b)) 0); [lia|]. cbn [orb].
        destruct (Z.eqb_spec (Z.sgn a) (Z.sgn (- b))); [|lia]. cbn [negb]. replace (a - b) with (a + - b) by lia.
        pose proof (repr_len _ _ _ Hy Rr) as L. unfold forget in L. cbn [chunks] in L. rewrite L.
        apply add_same_makes; auto.
Qed.

(** [x *= y] *)
Lemma len_room : forall x z n, repr x z -> (length (chunks x) <= n)%nat <-> Z.abs z < 10 ^ Z.of_nat n.
Proof.
  intros x z n H. change (10 ^ Z.of_nat n) with (p10 n). pose proof (val_lt _ (repr_digits _ _ H)) as B. rewrite (repr_val _ _ H) in B.
  destruct (Z.eq_dec z 0) as [->|N].
  - apply repr_zero_inv in H. subst x. cbn. pose proof (p10_pos n). lia.
  - pose proof (repr_bounds _ _ H N) as [B2 _]. pose proof (repr_nonnil _ _ H N) as NN. destruct (chunks x) as [|d l] eqn:E; [congruence|].
    rewrite <- E in *. assert (0 < length (chunks x))%nat by (rewrite E; cbn; lia). split; intros L.
    + assert (p10 (length (chunks x)) <= p10 n). { replace n with (length (chunks x) + (n - length (chunks x)))%nat by lia. rewrite p10_add. pose proof (p10_pos (n - length (chunks x))). pose proof (p10_pos (length (chunks x))). nia. }
      lia.
    + destruct (Nat.le_gt_cases (length (chunks x)) n) as [|G]; [assumption|]. exfalso.
      replace (length (chunks x) - 1)%nat with (n + (length (chunks x) - 1 - n))%nat in B2 by lia. rewrite p10_add in B2.
      pose proof (p10_pos (length (chunks x) - 1 - n)). pose proof (p10_pos n). nia.
Qed.
Lemma mul_makes : forall x y a b, repr (forget x) a -> fits x -> repr (forget y) b ->
  makes x (m_mul_assign ok p y) (mul_allocs x y a b) (a * b).
Proof.
  intros x y a b Hx Fx Hy. unfold m_mul_assign. apply makes_get. rewrite (msign_sgn _ _ Hx), (msign_sgn _ _ Hy). unfold mul_allocs.
  destruct (Z.eqb_spec (a * b) 0) as [P|P].
  - replace ((Z.sgn a =? 0) || (Z.sgn b =? 0)) with true.
    + rewrite P. apply makes_done; [apply repr_zero|]. unfold fits. cbn. lia.
    + symmetry. apply orb_true_iff. rewrite !Z.eqb_eq. nia.
  - replace ((Z.sgn a =? 0) || (Z.sgn b =? 0)) with false.
    2:{ symmetry. apply orb_false_iff. rewrite !Z.eqb_neq. nia. }
    assert (Ha : a <> 0) by nia. pose proof (repr_nonnil _ _ Hx Ha) as Nx. cbn [chunks forget] in Nx.
    destruct (int_mul_assign_spec p _ _ _ _ Hx Hy) as (r & E & R).
    set (zs := repeat 0 _). assert (Nz : zs <> []). { unfold zs. destruct (items (mvec x)); [congruence|]. cbn. discriminate. }
    replace (if Z.abs (a * b) <? _ then 2%nat else 3%nat) with (1 + (1 + (0 + beyond (room (mvec x)) (length (chunks r)))))%nat.
    2:{ unfold beyond. pose proof (len_room _ _ (room (mvec x)) R) as L. destruct (Nat.leb_spec (length (chunks r)) (room (mvec x))); destruct (Z.ltb_spec (Z.abs (a * b)) (10 ^ Z.of_nat (room (mvec x)))); try reflexivity; exfalso; intuition lia. }
    eapply makes_lift; [intros k; rewrite new_1 by exact Nz; rewrite (Nat.add_1_r k); reflexivity|]. cbn [items].
    eapply makes_lift; [intros k; rewrite new_1 by exact Nz; rewrite (Nat.add_1_r k); reflexivity|]. cbn [room].
    eapply makes_lift; [rewrite E; apply lift_ok|]. apply (assign_makes x (with_room r (length zs)) (a * b)). rewrite forget_with. exact R.
Qed.

(** The differences of a division *)
Lemma sub_cost : forall x y a b k, repr (forget x) a -> repr (forget y) b -> 0 < b <= a ->
  exists x', m_sub_assign grow ok p y (x, k) = (MRet tt, (x', S k)) /\ repr (forget x') (a - b) /\ room (mvec x') = room (mvec x).
Proof.
  intros x y a b k Hx Hy Hab. unfold m_sub_assign. cbn [m_add_sub]. unfold obind at 1, oget at 1. cbn [fst snd].
  rewrite (msign_sgn _ _ Hx), (msign_sgn _ _ Hy). rewrite !Z.sgn_pos by lia. cbn [Z.eqb Pos.eqb orb negb].
  pose proof (repr_nonnil _ _ Hy ltac:(lia)) as Ny.
  unfold m_sub_same, obind, oget, olift, oput. cbn [fst snd]. rewrite new_1 by exact Ny.
  rewrite (abs_cmp_spec _ _ _ _ Hx Hy). cbn [alift aret].
  destruct (sub_same_spec p _ _ _ _ Hx Hy) as (r & E & R); [lia|lia|auto|]. rewrite E. cbn [alift aret fst snd].
  destruct (Z.eqb_spec (Z.sgn (Z.abs a - Z.abs b)) (-1)); [lia|]. unfold aret. cbn [fst snd].
  eexists. split; [reflexivity|]. split; [rewrite forget_with; exact R|reflexivity].
Qed.

Definition total (l : list Z) : Z := fold_right Z.add 0 l.
Lemma total_upd : forall l i x, (i < length l)%nat -> total (upd l i x) = total l - nth i l 0 + x.
Proof.
  induction l as [|d l IH]; intros i x H; [cbn in H; lia|]. destruct i as [|i]; cbn [upd total fold_right nth]; [lia|].
  cbn in H. change (fold_right Z.add 0 (upd l i x)) with (total (upd l i x)). rewrite IH by lia. unfold total. lia.
Qed.

Lemma div_digit_cost : forall f x t i res N T k, repr (forget x) N -> repr t T -> 0 < T -> 0 <= N < Z.of_nat f * T ->
  (i < length res)%nat -> 0 <= nth i res 0 -> nth i res 0 + N / T <= 9 ->
  exists x' r' n, m_div_digit grow ok p f t i res (x, k) = (MRet r', (x', (k + n)%nat)) /\
    div_digit p f (forget x) t i res = Ok (forget x', r') /\ Z.of_nat n = total r' - total res /\ room (mvec x') = room (mvec x).
Proof.
  induction f as [|f IH]; intros x t i res N T k Hx Ht HT HN Hi H0 H9; [nia|].
  cbn [m_div_digit div_digit]. unfold obind at 1, oget at 1. cbn [fst snd].
  rewrite (int_ge_spec _ _ _ _ Hx Ht). cbn [alift]. unfold obind at 1, olift at 1. cbn [fst snd aret bind].
  destruct (Z.leb_spec T N).
  - assert (ED : N / T = (N - T) / T + 1).
    { replace N with (N - T + 1 * T) at 1 by ring. rewrite Z.div_add by lia. reflexivity. }
    assert (0 <= (N - T) / T) by (apply Z.div_pos; lia).
    rewrite vadd_ok by (try assumption; unfold INT_MIN, INT_MAX; lia). cbn [alift]. unfold obind at 1, olift at 1. cbn [fst snd aret bind].
    destruct (sub_cost x (with_room t 0) N T k Hx) as (x1 & E1 & R1 & Q1); [rewrite forget_with; exact Ht|lia|].
    unfold obind at 1. rewrite E1.
    destruct (int_sub_assign_spec p _ _ _ _ Hx Ht ltac:(auto)) as (t1 & E2 & R2). rewrite E2. cbn [bind].
    rewrite (repr_unique _ _ _ R2 R1).
    destruct (IH x1 t i (upd res i (nth i res 0 + 1)) (N - T) T (S k)) as (x' & r' & n & E & D & C & Q); auto; try lia.
    + rewrite upd_length. exact Hi.
    + rewrite nth_upd, Nat.eqb_refl by exact Hi. lia.
    + rewrite nth_upd, Nat.eqb_refl by exact Hi. lia.
    + exists x', r', (S n). rewrite E. split; [do 2 f_equal; lia|]. split; [exact D|]. rewrite total_upd in C by exact Hi. split; [lia|congruence].
  - exists x, res, 0%nat. rewrite Nat.add_0_r. split; [reflexivity|]. split; [reflexivity|]. split; [lia|reflexivity].
Qed.

Lemma div_loop_cost : forall n x y b res N k, repr (forget x) N -> repr y b -> b <> 0 -> 0 <= N < Z.abs b * p10 n ->
  (n <= length res)%nat -> Forall digit res -> (forall j, (j < n)%nat -> nth j res 0 = 0) ->
  exists x' r' c, m_div_loop grow ok p n (MkInt 1 (repeat 0 n ++ chunks y)) res (x, k) = (MRet r', (x', (k + c)%nat)) /\
    div_loop p n (forget x) (MkInt 1 (repeat 0 n ++ chunks y)) res = Ok (forget x', r') /\ Z.of_nat c = total r' - total res /\ room (mvec x') = room (mvec x).
Proof.
  induction n as [|n IH]; intros x y b res N k Hx Hy Hb HN HL HD Hz; cbn [m_div_loop div_loop].
  - exists x, res, 0%nat. rewrite Nat.add_0_r. split; [reflexivity|]. split; [reflexivity|]. split; [lia|reflexivity].
  - cbn [chunks repeat app erase_first bind sign alift]. unfold obind at 1, olift at 1. cbn [fst snd aret].
    pose proof (p10_pos n) as Hp. set (T := Z.abs b * p10 n). assert (HT : 0 < T) by (unfold T; nia).
    assert (HNT : N < 10 * T) by (unfold T; rewrite p10_S in HN; lia).
    assert (Hq : 0 <= N / T < 10) by (split; [apply Z.div_pos; lia|apply Z.div_lt_upper_bound; lia]).
    pose proof (repr_shift _ _ n Hy Hb) as Rt.
    destruct (div_digit_cost 10 x (MkInt 1 (repeat 0 n ++ chunks y)) n res N T k Hx Rt HT) as (x1 & r1 & c1 & E1 & D1 & C1 & Q1); auto.
    { change (Z.of_nat 10) with 10. lia. }
    { rewrite Hz by lia. lia. }
    { rewrite Hz by lia. lia. }
    destruct (div_digit_spec 10 (forget x) (MkInt 1 (repeat 0 n ++ chunks y)) n res N T Hx Rt HT) as (t1 & r2 & E2 & R & L & C & V); auto.
    { change (Z.of_nat 10) with 10. lia. }
    { rewrite Hz by lia. lia. }
    { rewrite Hz by lia. lia. }
    rewrite D1 in E2. inversion E2; subst t1 r2. clear E2.
    unfold obind at 1. rewrite E1. rewrite D1. cbn [bind fst snd]. pose proof (Z.mod_pos_bound N T HT).
    destruct (IH x1 y b r1 (N mod T) (k + c1)%nat R Hy Hb) as (x' & r' & c & E & D & C' & Q'); try lia.
    + apply Forall_cells. intros j Hj. rewrite C. rewrite L in Hj.
      destruct (Nat.eqb j n); [rewrite Hz by lia; lia|]. apply (proj1 (Forall_cells res) HD j Hj).
    + intros j Hj. rewrite C. rewrite (proj2 (Nat.eqb_neq j n)) by lia. apply Hz; lia.
    + exists x', r', (c1 + c)%nat. rewrite E. split; [do 2 f_equal; lia|]. split; [exact D|]. split; [lia|congruence].
Qed.

(** The remainder loop subtracts as often as the quotient loop. *)
Lemma mod_digit_cost : forall f x t i res r' x' k c, m_div_digit grow ok p f t i res (x, k) = (MRet r', (x', c)) ->
  m_mod_digit grow ok p f t (x, k) = (MRet tt, (x', c)).
Proof.
  induction f as [|f IH]; intros x t i res r' x' k c; cbn [m_div_digit m_mod_digit]; [discriminate|].
  unfold obind, oget, olift. cbn [fst snd].
  destruct (int_ge (forget x) t) as [b|e|u|]; cbn [alift]; unfold aret, afail; cbn [fst snd]; try discriminate.
  destruct b.
  - cbn [fst snd]. destruct (vadd p res i 1) as [r1|e|u|]; cbn [alift]; unfold aret, afail; cbn [fst snd]; try discriminate.
    destruct (m_sub_assign grow ok p (with_room t 0) (x, k)) as [[a|e] [x1 k1]]; [|discriminate]. apply IH.
  - intros E. inversion E; subst. reflexivity.
Qed.
Lemma mod_loop_cost : forall n x t res r' x' k c, m_div_loop grow ok p n t res (x, k) = (MRet r', (x', c)) ->
  m_mod_loop grow ok p n t (x, k) = (MRet tt, (x', c)).
Proof.
  induction n as [|n IH]; intros x t res r' x' k c; cbn [m_div_loop m_mod_loop].
  - intros E. inversion E; subst. reflexivity.
  - unfold obind, olift. cbn [fst snd].
    destruct (erase_first (chunks t)) as [tc|e|u|]; cbn [alift]; unfold aret, afail; cbn [fst snd]; try discriminate.
    destruct (m_div_digit grow ok p 10 (MkInt (sign t) tc) n res (x, k)) as [[a|e] [x1 k1]] eqn:E; [|discriminate].
    rewrite (mod_digit_cost _ _ _ _ _ _ _ _ _ E). apply IH.
Qed.

(** Sums of digits *)
Lemma val_zero : forall l, Forall digit l -> val l = 0 -> total l = 0.
Proof.
  induction l as [|d l IH]; intros D V; [reflexivity|]. inversion D as [|? ? D1 D2]; subst. unfold digit in D1.
  cbn [val fold_right total] in *. change (fold_right (fun d acc => d + 10 * acc) 0 l) with (val l) in V. change (fold_right Z.add 0 l) with (total l).
  pose proof (val_lt l D2). rewrite IH; auto; lia.
Qed.
Lemma total_unique : forall l l', Forall digit l -> Forall digit l' -> val l = val l' -> total l = total l'.
Proof.
  induction l as [|d l IH]; intros l' D D' V.
  - cbn in V. symmetry in V. rewrite (val_zero l' D' V). reflexivity.
  - destruct l' as [|d' l']; [rewrite (val_zero (d :: l) D V); reflexivity|].
    inversion D as [|? ? D1 D2]; subst. inversion D' as [|? ? D1' D2']; subst. unfold digit in *.
    cbn [val fold_right total] in *.
    change (fold_right (fun d acc => d + 10 * acc) 0 l) with (val l) in V. change (fold_right Z.add 0 l) with (total l).
    change (fold_right (fun d acc => d + 10 * acc) 0 l') with (val l') in V. change (fold_right Z.add 0 l') with (total l').
    pose proof (IH l' D2 D2'). assert (d = d' /\ val l = val l') by lia. lia.
Qed.
Lemma total_repeat : forall n, total (repeat 0 n) = 0.
Proof. induction n as [|n IH]; [reflexivity|]. cbn. exact IH. Qed.
Lemma digit_sum_unique : forall q s s', digit_sum q s -> digit_sum q s' -> s = s'.
Proof.
  intros q s s' (l & D & V & E) (l' & D' & V' & E'). pose proof (total_unique l l' D D' ltac:(congruence)) as T. unfold total in T. lia.
Qed.

(** [x /= y] and [x %= y] *)
Lemma div_digit_length : forall f x t i res x' r', div_digit p f x t i res = Ok (x', r') -> length r' = length res.
Proof.
  induction f as [|f IH]; intros x t i res x' r'; cbn [div_digit]; [discriminate|]. intros H. unbind H. destruct a.
  - unbind H. unbind H. apply IH in H. apply vadd_length in E0. congruence.
  - inversion H; subst. reflexivity.
Qed.
Lemma div_loop_length : forall n x t res x' r', div_loop p n x t res = Ok (x', r') -> length r' = length res.
Proof.
  induction n as [|n IH]; intros x t res x' r'; cbn [div_loop]; intros H; [inversion H; reflexivity|].
  unbind H. unbind H. destruct a0 as [x1 r1]. apply IH in H. apply div_digit_length in E0. cbn [snd] in H. congruence.
Qed.
Lemma zeros_resize : forall n, resize [] n = repeat 0 n.
Proof. intros n. unfold resize. rewrite firstn_nil. cbn. rewrite Nat.sub_0_r. reflexivity. Qed.
Lemma quot_loop : forall x y a b s k, repr (forget x) a -> repr (forget y) b -> b <> 0 ->
  (length (items (mvec y)) <= length (items (mvec x)))%nat -> digit_sum (Z.abs a / Z.abs b) s ->
  exists x' r', m_div_loop grow ok p (size_of x y) (MkInt 1 (repeat 0 (size_of x y) ++ items (mvec y))) (repeat 0 (size_of x y)) (MI 1 (mvec x), k)
      = (MRet r', (x', (k + s)%nat)) /\
    div_loop p (size_of x y) (MkInt 1 (items (mvec x))) (MkInt 1 (repeat 0 (size_of x y) ++ items (mvec y))) (repeat 0 (size_of x y)) = Ok (forget x', r') /\
    repr (forget x') (Z.abs a mod Z.abs b) /\ Forall digit r' /\ val r' = Z.abs a / Z.abs b /\ length r' = size_of x y /\ room (mvec x') = room (mvec x).
Proof.
  intros x y a b s k Hx Hy Hb L Hs.
  assert (Ha : a <> 0).
  { intros ->. pose proof (repr_zero_inv _ Hx) as E. pose proof (f_equal chunks E) as E2. cbn [chunks forget] in E2. rewrite E2 in L. cbn in L.
    pose proof (repr_nonnil _ _ Hy Hb) as N. cbn in N. destruct (items (mvec y)); [congruence|]. cbn in L. lia. }
  pose proof (repr_abs_obj _ _ Hx Ha) as Rx. change (MkInt 1 (chunks (forget x))) with (forget (MI 1 (mvec x))) in Rx.
  pose proof (div_size _ _ _ _ Hx Hy Hb L) as SZ. change (length (chunks (forget x)) - length (chunks (forget y)) + 1)%nat with (size_of x y) in SZ.
  destruct (div_loop_cost (size_of x y) (MI 1 (mvec x)) (forget y) b (repeat 0 (size_of x y)) (Z.abs a) k Rx Hy Hb) as (x' & r' & c & E & D & C & Q).
  { lia. } { rewrite repeat_length. lia. } { apply repeat0_digits. } { intros; apply nth_repeat. }
  destruct (div_loop_spec (size_of x y) (forget (MI 1 (mvec x))) (forget y) b (repeat 0 (size_of x y)) (Z.abs a) Rx Hy Hb) as (t & r & D' & R & F & V).
  { lia. } { rewrite repeat_length. lia. } { apply repeat0_digits. } { intros; apply nth_repeat. }
  rewrite D in D'. inversion D'; subst t r. clear D'. rewrite val_repeat0 in V. rewrite total_repeat in C.
  assert (Hc : c = s). { apply digit_sum_unique with (q := Z.abs a / Z.abs b); [|exact Hs]. exists r'. split; [exact F|]. split; [lia|]. unfold total in C. lia. }
  subst c. exists x', r'. split; [exact E|]. split; [exact D|]. split; [exact R|]. split; [exact F|]. split; [lia|]. split; [|exact Q].
  apply div_loop_length in D. rewrite D, repeat_length. reflexivity.
Qed.
Lemma div_makes : forall x y a b s, repr (forget x) a -> fits x -> repr (forget y) b -> b <> 0 ->
  (length (items (mvec y)) <= length (items (mvec x)))%nat -> digit_sum (Z.abs a / Z.abs b) s ->
  makes x (m_div_assign grow ok p y) (3 + s) (Z.quot a b).
Proof.
  intros x y a b s Hx Fx Hy Hb L Hs k.
  pose proof (repr_nonnil _ _ Hy Hb) as Ny. cbn [chunks forget] in Ny.
  destruct (quot_loop x y a b s (S (S (S k))) Hx Hy Hb L Hs) as (x' & r' & E & D & R & F & V & LR & Q).
  unfold m_div_assign. rewrite (msign_sgn y b Hy). unfold check_zero. destruct (Z.eqb_spec (Z.sgn b) 0); [lia|].
  unfold obind, olift, oget, oput. cbn [alift aret fst snd].
  rewrite (int_digits_spec _ _ Hx), (int_digits_spec _ _ Hy). cbn [alift]. unfold aret. cbn [fst snd].
  cbn [chunks forget]. destruct (Z.ltb_spec (Z.of_nat (length (items (mvec x)))) (Z.of_nat (length (items (mvec y))))); [lia|].
  cbv zeta. fold (size_of x y).
  assert (NS : repeat 0 (size_of x y) <> []) by (unfold size_of; rewrite Nat.add_1_r; discriminate).
  rewrite new_1 by exact NS. cbn [fst snd items room]. unfold v_append, v_resize.
  rewrite grow_1; [|cbn [room items]; rewrite app_length; destruct (items (mvec y)); [congruence|cbn; lia]]. cbn [fst snd items room].
  rewrite zeros_resize. rewrite grow_1; [|cbn [room items]; destruct (repeat 0 (size_of x y)); [congruence|cbn; lia]]. cbn [fst snd items room].
  rewrite E. cbn [fst snd].
  set (res := m_trim _).
  assert (FR : forget res = trim (MkInt (if sign (forget x) =? sign (forget y) then 1 else -1) r')).
  { unfold res, m_trim. rewrite forget_with. rewrite (repr_sign _ _ Hy). reflexivity. }
  assert (RR : repr (forget res) (Z.quot a b)).
  { rewrite FR. rewrite (repr_sign _ _ Hx), (repr_sign _ _ Hy), quot_cases by exact Hb. rewrite <- V. apply trim_repr; auto. destruct (Z.sgn a =? Z.sgn b); auto. }
  assert (NE : (length (items (mvec x)) > 0)%nat). { destruct (items (mvec y)); [congruence|]. cbn in L. lia. }
  assert (B : beyond (room (mvec x')) (length (items (mvec res))) = 0%nat).
  { unfold beyond. pose proof (trim_length (MkInt (if sign (forget x) =? sign (forget y) then 1 else -1) r')) as T. rewrite <- FR in T.
    cbn [chunks forget] in T. rewrite LR in T. assert (size_of x y <= length (items (mvec x)))%nat. { unfold size_of. destruct (items (mvec y)); [congruence|]. cbn [length] in *. lia. }
    unfold fits in Fx. rewrite Q. destruct (Nat.leb_spec (length (items (mvec res))) (room (mvec x))); [reflexivity|lia]. }
  destruct (assign_makes x' res _ RR (S (S (S k)) + s)%nat) as (x2 & E2 & R2). rewrite B in E2. exists x2.
  unfold m_assign_copy, obind, oget, oput, olift in E2. cbn [fst snd] in E2. unfold m_assign_copy, obind, oget, oput, olift. cbn [fst snd].
  rewrite E2. split; [do 2 f_equal; lia|exact R2].
Qed.
Lemma mod_makes : forall x y a b s, repr (forget x) a -> fits x -> repr (forget y) b -> b <> 0 ->
  (length (items (mvec y)) <= length (items (mvec x)))%nat -> digit_sum (Z.abs a / Z.abs b) s ->
  makes x (m_mod_assign grow ok p y) (2 + s) (Z.abs a mod Z.abs b).
Proof.
  intros x y a b s Hx Fx Hy Hb L Hs k.
  pose proof (repr_nonnil _ _ Hy Hb) as Ny. cbn [chunks forget] in Ny.
  destruct (quot_loop x y a b s (S (S k)) Hx Hy Hb L Hs) as (x' & r' & E & D & R & F & V & LR & Q).
  apply mod_loop_cost in E.
  unfold m_mod_assign. rewrite (msign_sgn y b Hy). unfold check_zero. destruct (Z.eqb_spec (Z.sgn b) 0); [lia|].
  unfold obind, olift, oget, oput. cbn [alift aret fst snd].
  rewrite (int_digits_spec _ _ Hx), (int_digits_spec _ _ Hy). cbn [alift]. unfold aret. cbn [fst snd].
  cbn [chunks forget]. destruct (Z.ltb_spec (Z.of_nat (length (items (mvec x)))) (Z.of_nat (length (items (mvec y))))); [lia|].
  cbv zeta. fold (size_of x y).
  assert (NS : repeat 0 (size_of x y) <> []) by (unfold size_of; rewrite Nat.add_1_r; discriminate).
  rewrite new_1 by exact NS. cbn [fst snd items room]. unfold v_append.
  rewrite grow_1; [|cbn [room items]; rewrite app_length; destruct (items (mvec y)); [congruence|cbn; lia]]. cbn [fst snd items room].
  rewrite E. cbn [fst snd]. eexists. split; [do 2 f_equal; lia|]. unfold m_trim. rewrite forget_with.
  rewrite trim_canonical_id by (exact (proj1 R)). split; [exact R|]. unfold fits. cbn [mvec room items with_room chunks forget].
  pose proof (proj2 (len_room _ _ (room (mvec x')) R)) as LL. apply LL. rewrite Q.
  pose proof (proj1 (len_room _ _ (room (mvec x)) Hx) Fx) as LX. pose proof (Z.mod_pos_bound (Z.abs a) (Z.abs b)). pose proof (Z.mod_le (Z.abs a) (Z.abs b)). lia.
Qed.
Lemma short_div_makes : forall x y a b, repr (forget x) a -> fits x -> repr (forget y) b -> b <> 0 ->
  (length (items (mvec x)) < length (items (mvec y)))%nat ->
  makes x (m_div_assign grow ok p y) 0 0 /\ makes x (m_mod_assign grow ok p y) 0 a.
Proof.
  intros x y a b Hx Fx Hy Hb L. unfold m_div_assign, m_mod_assign. rewrite (msign_sgn y b Hy). unfold check_zero. destruct (Z.eqb_spec (Z.sgn b) 0); [lia|].
  split; intros k; unfold obind, olift, oget, oput; cbn [alift aret fst snd];
    rewrite (int_digits_spec _ _ Hx), (int_digits_spec _ _ Hy); cbn [alift]; unfold aret; cbn [fst snd chunks forget];
    destruct (Z.ltb_spec (Z.of_nat (length (items (mvec x)))) (Z.of_nat (length (items (mvec y))))); try lia; rewrite Nat.add_0_r.
  - exists mzero. split; [reflexivity|]. split; [apply repr_zero|]. unfold fits. cbn. lia.
  - exists x. split; [reflexivity|]. auto.
Qed.

(** [++x] and [--x] *)
Lemma inc_makes : forall x a, repr (forget x) a -> fits x ->
  makes x (m_inc grow ok) (if a <? 0 then 0%nat else beyond (room (mvec x)) (length (items (mvec x)) + 1)) (a + 1).
Proof.
  intros x a Hx Fx. unfold m_inc. apply makes_get. rewrite (msign_sgn x a Hx).
  destruct (Z.eqb_spec (Z.sgn a) 0) as [A|A].
  - assert (a = 0) by lia. subst a. cbn [Z.ltb Z.compare]. pose proof (repr_zero_inv _ Hx) as E. pose proof (f_equal chunks E) as E2. cbn [chunks forget] in E2.
    apply makes_put. rewrite E2. cbn [length]. rewrite <- (Nat.add_0_r (beyond _ _)). unfold v_push. rewrite E2. cbn [app].
    eapply makes_lift; [intros k; rewrite grow_n; reflexivity|]. apply makes_done.
    + apply repr_check; reflexivity.
    + unfold fits. cbn [mvec items room]. apply grow_room.
  - destruct (Z.eqb_spec (Z.sgn a) 1).
    + destruct (Z.ltb_spec a 0); [lia|]. unfold m_abs_inc. apply makes_get.
      rewrite <- (Nat.add_0_r (beyond _ _)). unfold v_push.
      eapply makes_lift; [intros k; rewrite grow_n; rewrite app_length; reflexivity|]. apply makes_put.
      destruct (abs_inc_spec _ _ Hx) as (r & E & R); [lia|]. replace (a + Z.sgn a) with (a + 1) in R by lia.
      eapply makes_loop; [exact E|exact R|]. apply abs_inc_length in E. cbn [chunks forget] in E. cbn [room].
      pose proof (grow_room (mvec x) (items (mvec x) ++ [0])) as G. rewrite app_length in G. cbn [length] in *. lia.
    + destruct (Z.ltb_spec a 0); [|lia]. unfold m_abs_dec. apply makes_get.
      destruct (abs_dec_spec _ _ Hx) as (r & E & R); [lia|]. replace (a - Z.sgn a) with (a + 1) in R by lia.
      eapply makes_loop; [exact E|exact R|]. apply abs_dec_length in E. cbn [chunks forget] in E. unfold fits in Fx. lia.
Qed.
Lemma dec_makes : forall x a, repr (forget x) a -> fits x ->
  makes x (m_dec grow ok) (if 0 <? a then 0%nat else beyond (room (mvec x)) (length (items (mvec x)) + 1)) (a - 1).
Proof.
  intros x a Hx Fx. unfold m_dec. apply makes_get. rewrite (msign_sgn x a Hx).
  destruct (Z.eqb_spec (Z.sgn a) 0) as [A|A].
  - assert (a = 0) by lia. subst a. cbn [Z.ltb Z.compare]. pose proof (repr_zero_inv _ Hx) as E. pose proof (f_equal chunks E) as E2. cbn [chunks forget] in E2.
    apply makes_put. rewrite E2. cbn [length]. rewrite <- (Nat.add_0_r (beyond _ _)). unfold v_push. rewrite E2. cbn [app].
    eapply makes_lift; [intros k; rewrite grow_n; reflexivity|]. apply makes_done.
    + apply repr_check; reflexivity.
    + unfold fits. cbn [mvec items room]. apply grow_room.
  - destruct (Z.eqb_spec (Z.sgn a) 1).
    + destruct (Z.ltb_spec 0 a); [|lia]. unfold m_abs_dec. apply makes_get.
      destruct (abs_dec_spec _ _ Hx) as (r & E & R); [lia|]. replace (a - Z.sgn a) with (a - 1) in R by lia.
      eapply makes_loop; [exact E|exact R|]. apply abs_dec_length in E. cbn [chunks forget] in E. unfold fits in Fx. lia.
    + destruct (Z.ltb_spec 0 a); [lia|]. unfold m_abs_inc. apply makes_get.
      rewrite <- (Nat.add_0_r (beyond _ _)). unfold v_push.
      eapply makes_lift; [intros k; rewrite grow_n; rewrite app_length; reflexivity|]. apply makes_put.
      destruct (abs_inc_spec _ _ Hx) as (r & E & R); [lia|]. replace (a + Z.sgn a) with (a - 1) in R by lia.
      eapply makes_loop; [exact E|exact R|]. apply abs_inc_length in E. cbn [chunks forget] in E. cbn [room].
      pose proof (grow_room (mvec x) (items (mvec x) ++ [0])) as G. rewrite app_length in G. cbn [length] in *. lia.
Qed.

(** Binary operators *)
Definition snug (x : MInt) : MInt := MI (msign x) (Vec (items (mvec x)) (length (items (mvec x)))).
Lemma bin_makes : forall op x y a n z, repr (forget x) a -> makes (snug x) (op y) n z -> makes_new (m_bin ok op x y) (some a + n + some z) z.
Proof.
  intros op x y a n z Hx H k. unfold m_bin, abind. rewrite (copy_cost x a k Hx). unfold local. fold (snug x).
  destruct (H (k + some a)%nat) as (x' & E & R & F). rewrite E. rewrite (copy_cost x' z _ R). eexists. split; [f_equal; lia|].
  split; [exact R|]. unfold fits. cbn. lia.
Qed.
Lemma snug_repr : forall x a, repr (forget x) a -> repr (forget (snug x)) a.
Proof. intros x a H. exact H. Qed.
Lemma snug_fits : forall x, fits (snug x).
Proof. intros x. unfold fits. cbn. lia. Qed.
Lemma beyond_more : forall n m, (n < m)%nat -> beyond n m = 1%nat.
Proof. intros n m H. unfold beyond. destruct (Nat.leb_spec m n); [lia|reflexivity]. Qed.

Lemma binary_makes : forall x y a b, repr (forget x) a -> repr (forget y) b -> a <> 0 -> b <> 0 ->
  makes_new (m_add grow ok p x y) ((if Z.sgn a =? Z.sgn b then 2 else 3) + some (a + b)) (a + b) /\
  makes_new (m_sub grow ok p x y) ((if Z.sgn a =? Z.sgn b then 2 else 3) + some (a - b)) (a - b) /\
  makes_new (m_mul ok p x y) (if Z.abs (a * b) <? 10 ^ Z.of_nat (length (items (mvec x))) then 4 else 5) (a * b).
Proof.
  intros x y a b Hx Hy Ha Hb. pose proof (snug_repr _ _ Hx) as Sx. pose proof (snug_fits x) as Fx. split; [|split].
  - pose proof (bin_makes _ x y a _ _ Hx (add_makes _ y a b Sx Fx Hy)) as M. unfold add_allocs in M. rewrite (some_1 a Ha) in M.
    destruct (Z.eqb_spec a 0); [lia|]. destruct (Z.eqb_spec b 0); [lia|].
    destruct (Z.eqb_spec (Z.sgn a) (Z.sgn b)); [|exact M]. rewrite beyond_more in M; [exact M|]. cbn [room mvec snug items]. lia.
  - pose proof (bin_makes _ x y a _ _ Hx (sub_makes _ y a b Sx Fx Hy)) as M. unfold sub_allocs in M. rewrite (some_1 a Ha) in M.
    destruct (Z.eqb_spec a 0); [lia|]. destruct (Z.eqb_spec b 0); [lia|].
    destruct (Z.eqb_spec (Z.sgn a) (Z.sgn b)); [exact M|]. rewrite beyond_more in M; [exact M|]. cbn [room mvec snug items]. lia.
  - pose proof (bin_makes _ x y a _ _ Hx (mul_makes _ y a b Sx Fx Hy)) as M. unfold mul_allocs in M. rewrite (some_1 a Ha) in M.
    rewrite (some_1 (a * b)) in M by nia. destruct (Z.eqb_spec (a * b) 0); [nia|]. cbn [room mvec snug] in M. destruct (_ <? _); exact M.
Qed.
Lemma quotient_makes : forall x y a b s, repr (forget x) a -> repr (forget y) b -> b <> 0 ->
  (length (items (mvec y)) <= length (items (mvec x)))%nat -> digit_sum (Z.abs a / Z.abs b) s ->
  makes_new (m_div grow ok p x y) (4 + s + some (Z.quot a b)) (Z.quot a b) /\
  makes_new (m_mod grow ok p x y) (3 + s + some (Z.abs a mod Z.abs b)) (Z.abs a mod Z.abs b).
Proof.
  intros x y a b s Hx Hy Hb L Hs. pose proof (snug_repr _ _ Hx) as Sx. pose proof (snug_fits x) as Fx.
  assert (Ha : a <> 0).
  { intros ->. pose proof (repr_zero_inv _ Hx) as E. pose proof (f_equal chunks E) as E2. cbn [chunks forget] in E2. rewrite E2 in L. cbn in L.
    pose proof (repr_nonnil _ _ Hy Hb) as N. cbn in N. destruct (items (mvec y)); [congruence|]. cbn in L. lia. }
  split.
  - pose proof (bin_makes _ x y a _ _ Hx (div_makes _ y a b s Sx Fx Hy Hb L Hs)) as M. rewrite (some_1 a Ha) in M. exact M.
  - pose proof (bin_makes _ x y a _ _ Hx (mod_makes _ y a b s Sx Fx Hy Hb L Hs)) as M. rewrite (some_1 a Ha) in M. exact M.
Qed.

(** Literals *)
Lemma of_chars_makes : forall cs z, literal cs = Some z -> makes_new (m_of_chars grow ok cs) 1 z.
Proof.
  intros cs z H k. pose proof (of_chars_gives grow ok cs k) as G. destruct (int_of_chars_ok cs z H) as (r & E & R).
  rewrite E in G. destruct (m_of_chars grow ok cs k) as [[x|f] k'] eqn:M.
  - destruct G as (_ & _ & b & Eb & Fb & Fx). injection Eb as <-. exists x. split; [|rewrite Fb; auto].
    f_equal. revert M. unfold m_of_chars. destruct (negb (is_integer cs)) eqn:I; [discriminate|]. cbv zeta.
    unfold v_resize, abind. rewrite grow_1.
    + cbn [items room fst snd]. rewrite E. cbn [alift]. unfold aret. intros M. inversion M. lia.
    + cbn [room]. rewrite resize_length. destruct cs as [|c cs]; [discriminate|]. destruct (is_sign_char c) eqn:S; [|cbn; lia].
      destruct cs; [|cbn; lia]. unfold is_integer in I. rewrite S in I. discriminate.
  - destruct f as [|e|u|]; [|destruct G as (_ & _ & Mi); cbn in Mi; discriminate Mi ..].
    destruct G as (j & _ & J). rewrite enough in J. discriminate.
Qed.
End Cost.

(** ** Construction from [int] *)
Section FromInt.
Variable grow : nat -> nat -> nat.
Variable ok : nat -> bool.
Hypothesis enough : forall j, ok j = true.
Hypothesis doubles : doubling grow.

Local Definition cap (c : nat) : nat := match c with O => O | _ => 2 ^ Nat.log2_up c end%nat.
Local Definition paid (c : nat) : nat := match c with O => O | _ => S (Nat.log2_up c) end.
Lemma cap_step : forall c, (c <= 9)%nat ->
  (S c <= cap c /\ cap (S c) = cap c /\ paid (S c) = paid c)%nat \/ (cap c < S c /\ Nat.max (S c) (2 * c) = cap (S c) /\ paid (S c) = S (paid c))%nat.
Proof.
  intros c H. do 10 (destruct c as [|c]; [vm_compute; intuition lia|]). lia.
Qed.
Lemma push_cost : forall d f n v k, (d < f)%nat -> (length (items v) + d <= 10)%nat -> room v = cap (length (items v)) ->
  0 <= n < 10 ^ Z.of_nat d -> (d = 0%nat \/ 10 ^ (Z.of_nat d - 1) <= n) ->
  exists v' k', m_push_digits grow ok f n v k = (MRet v', k') /\ (k' + paid (length (items v)) = k + paid (length (items v) + d))%nat.
Proof.
  induction d as [|d IH]; intros f n v k F L R B N; destruct f as [|f]; try lia; cbn [m_push_digits].
  - change (10 ^ Z.of_nat 0) with 1 in B. assert (n = 0) by lia. subst n. cbn. exists v, k. rewrite Nat.add_0_r. auto.
  - destruct N as [N|N]; [lia|]. replace (Z.of_nat (S d) - 1) with (Z.of_nat d) in N by lia.
    assert (P : 0 < 10 ^ Z.of_nat d) by (apply Z.pow_pos_nonneg; lia).
    rewrite Z.gtb_ltb. destruct (Z.ltb_spec 0 n) as [_|X]; [|lia]. unfold BASE. rewrite Z.quot_div_nonneg by lia.
    assert (B' : 0 <= n / 10 < 10 ^ Z.of_nat d).
    { split; [apply Z.div_pos; lia|]. apply Z.div_lt_upper_bound; [lia|]. rewrite <- Z.pow_succ_r, <- Nat2Z.inj_succ by lia. apply B. }
    assert (N' : d = 0%nat \/ 10 ^ (Z.of_nat d - 1) <= n / 10).
    { destruct d as [|d]; [left; reflexivity|right]. apply Z.div_le_lower_bound; [lia|]. rewrite <- Z.pow_succ_r by lia.
      replace (Z.succ (Z.of_nat (S d) - 1)) with (Z.of_nat (S d)) by lia. exact N. }
    unfold abind, v_push. set (l := items v ++ [Z.rem n 10]).
    assert (LL : length l = S (length (items v))) by (unfold l; rewrite app_length; cbn; lia).
    destruct (cap_step (length (items v))) as [(C1 & C2 & C3)|(C1 & C2 & C3)]; [lia| |].
    + rewrite grow_0 by lia. destruct (IH f (n / 10) (Vec l (room v)) k) as (v' & k' & E & Q); cbn [items room]; try lia; [rewrite LL, C2; exact R|].
      exists v', k'. split; [exact E|]. cbn [items] in Q. rewrite LL in Q. replace (length (items v) + S d)%nat with (S (length (items v)) + d)%nat by lia. lia.
    + rewrite (grow_1 grow ok enough) by lia. rewrite doubles. rewrite LL.
      destruct (IH f (n / 10) (Vec l (Nat.max (S (length (items v))) (2 * length (items v)))) (S k)) as (v' & k' & E & Q); cbn [items room]; try lia.
      { rewrite LL. exact C2. }
      exists v', k'. split; [exact E|]. cbn [items] in Q. rewrite LL in Q. replace (length (items v) + S d)%nat with (S (length (items v)) + d)%nat by lia. lia.
Qed.
Lemma of_int_makes : forall n d, INT_MIN < n <= INT_MAX -> 10 ^ Z.of_nat d <= Z.abs n < 10 ^ (Z.of_nat d + 1) ->
  makes_new (m_of_int grow ok n) (S (Nat.log2_up (S d))) n.
Proof.
  intros n d H D k. pose proof (of_int_gives grow ok n k) as G. destruct (int_of_int_spec n H) as (r & Er & Rr).
  assert (T : (d <= 9)%nat).
  { destruct (Nat.le_gt_cases d 9) as [T|T]; [exact T|]. assert (10 ^ 10 <= 10 ^ Z.of_nat d) by (apply Z.pow_le_mono_r; lia).
    unfold INT_MIN, INT_MAX in H. change (10 ^ 10) with 10000000000 in *. lia. }
  assert (E : exists x, m_of_int grow ok n k = (MRet x, (k + S (Nat.log2_up (S d)))%nat)).
  { unfold m_of_int, abind. rewrite chk32_ok by (unfold INT_MIN, INT_MAX in *; lia). cbn [alift aret].
    destruct (push_cost (S d) 11 (Z.abs n) (Vec [] 0) k) as (v & k' & E & Q).
    - lia. - cbn [items length]. lia. - reflexivity. - split; [lia|]. replace (Z.of_nat (S d)) with (Z.of_nat d + 1) by lia. apply D.
    - right. replace (Z.of_nat (S d) - 1) with (Z.of_nat d) by lia. apply D.
    - rewrite E. cbn [items length plus paid] in Q. exists (MI (if n =? 0 then 0 else if n >? 0 then 1 else -1) v). unfold aret. f_equal. lia. }
  destruct E as (x & E). rewrite E in *. destruct G as (_ & _ & r' & Er' & I1 & I2). exists x. split; [reflexivity|]. split; [|exact I2].
  rewrite I1. congruence.
Qed.
Lemma of_zero_makes : makes_new (m_of_int grow ok 0) 0 0.
Proof. intros k. exists mzero. split; [cbn; rewrite Nat.add_0_r; reflexivity|]. split; [apply repr_zero|cbn; unfold fits; cbn; lia]. Qed.
End FromInt.
