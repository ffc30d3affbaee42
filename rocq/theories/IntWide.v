(** Facts about IntWideModel.v: which sizes the [int] loop counters of class [Int]
    can handle, and what happens beyond. *)
From Coq Require Import ZArith List Bool Ascii Lia.
From Verif Require Import Outcome IntModel IntSpec IntProgSpec IntWideModel
  IntBase IntAddSub IntMulDiv IntIO IntFuncs IntProg IntMore IntCanon.
Import ListNotations.
Open Scope Z_scope.

(** ** Counters *)

Lemma next_ok : forall i, Z.of_nat i + 1 <= INT_MAX -> next i = Ok (S i).
Proof.
  intros i H. unfold next. rewrite chk32_ok by (unfold INT_MIN; lia). cbn [bind]. f_equal. lia.
Qed.

Lemma next_inv : forall i k, next i = Ok k -> k = S i /\ Z.of_nat i + 1 <= INT_MAX.
Proof.
  intros i k H. unfold next in H. destruct (chk32 (Z.of_nat i + 1)) eqn:E; cbn [bind] in H; try discriminate.
  apply chk32_inv in E. destruct E as [-> E]. inversion H. split; lia.
Qed.

Lemma from_top_id : forall n, Z.of_nat n <= INT_MAX + 1 -> from_top n = n.
Proof.
  intros n H. unfold from_top. rewrite wrap32_id by (unfold INT_MIN, INT_MAX in *; lia).
  destruct (Z.ltb_spec (Z.of_nat n - 1) 0); lia.
Qed.

Lemma from_top_none : forall n, INT_MAX + 1 < Z.of_nat n <= 2 * (INT_MAX + 1) -> from_top n = O.
Proof.
  intros n H. unfold from_top, wrap32, INT_MAX in *.
  replace (Z.of_nat n - 1 + 2147483648) with ((Z.of_nat n - 2147483649) + 1 * 4294967296) by lia.
  rewrite Z.mod_add, Z.mod_small by lia.
  destruct (Z.ltb_spec (Z.of_nat n - 2147483649 - 2147483648) 0); lia.
Qed.

(** ** Lengths *)

Lemma vset_length : forall v i x r, vset v i x = Ok r -> length r = length v.
Proof.
  intros v i x r H. unfold vset in H. destruct (nth_error v i); inversion H. apply upd_length.
Qed.

Lemma vadd_length : forall p v i x r, vadd p v i x = Ok r -> length r = length v.
Proof.
  intros p v i x r H. unfold vadd in H. destruct (nth_error v i).
  - destruct (chk32 (z + x)); cbn [bind] in H; inversion H. apply upd_length.
  - destruct p; try discriminate. destruct (Nat.eqb i (length v) && (x =? 0)); inversion H. auto.
Qed.

Lemma vadd_index : forall p v i x r, x <> 0 -> vadd p v i x = Ok r -> (i < length v)%nat.
Proof.
  intros p v i x r X H. unfold vadd in H. destruct (nth_error v i) eqn:E.
  - apply nth_error_Some. rewrite E. discriminate.
  - destruct p; try discriminate. destruct (Z.eqb_spec x 0); [contradiction|].
    rewrite andb_false_r in H. discriminate.
Qed.

Lemma skip_zeros_length : forall r, (length (skip_zeros r) <= length r)%nat.
Proof. induction r; cbn [skip_zeros length]; auto. destruct (a =? 0); cbn [length]; lia. Qed.

Lemma trim_len : forall x, (length (chunks (trim x)) <= length (chunks x))%nat.
Proof.
  intros x. unfold trim. cbn [chunks]. rewrite rev_length.
  pose proof (skip_zeros_length (rev (chunks x))) as H. rewrite rev_length in H. auto.
Qed.

Lemma trim_sign : forall x, sign (trim x) = 0 \/ sign (trim x) = sign x.
Proof. intros x. unfold trim. cbn [sign]. destruct (rev (skip_zeros (rev (chunks x)))); auto. Qed.

(** ** The loops agree with those of IntModel.v *)

Ltac peel := match goal with
  | |- bind ?o _ = bind ?o _ => destruct o; cbn [bind]; auto
  end.

Lemma add_loop_w_eq : forall p n i a b, Z.of_nat i + Z.of_nat n <= INT_MAX ->
  add_loop_w p n i a b = add_loop p n i a b.
Proof.
  induction n; intros i a b H; cbn [add_loop_w add_loop]; auto.
  do 4 peel. rewrite next_ok by lia. cbn [bind]. peel. apply IHn. lia.
Qed.

Lemma sub_loop_w_eq : forall p n i a b, Z.of_nat i + Z.of_nat n <= INT_MAX ->
  sub_loop_w p n i a b = sub_loop p n i a b.
Proof.
  induction n; intros i a b H; cbn [sub_loop_w sub_loop]; auto.
  do 5 peel. rewrite next_ok by lia. cbn [bind]. peel. apply IHn. lia.
Qed.

Ltac step H := match type of H with
  | bind ?o _ = Ok _ => let v := fresh "v" in let E := fresh "E" in destruct o as [v|?|?|] eqn:E; cbn [bind] in H |- *; try discriminate H
  end.

Lemma add_carry_w_ok : forall p n i a r, Z.of_nat (length a) <= INT_MAX + 1 ->
  add_carry p n i a = Ok r -> add_carry_w p n i a = Ok r.
Proof.
  induction n; intros i a r L H; cbn [add_carry_w add_carry] in *; auto.
  step H. destruct (v >=? BASE); auto.
  step H. step H. pose proof (vadd_index p a (S i) 1 _ ltac:(lia) E0).
  rewrite next_ok by lia. cbn [bind]. rewrite E0. cbn [bind]. rewrite E1. cbn [bind]. apply IHn; auto.
  rewrite (vset_length _ _ _ _ E1), (vadd_length _ _ _ _ _ E0). auto.
Qed.

Lemma sub_borrow_w_ok : forall p n i a r, Z.of_nat (length a) <= INT_MAX + 1 ->
  sub_borrow p n i a = Ok r -> sub_borrow_w p n i a = Ok r.
Proof.
  induction n; intros i a r L H; cbn [sub_borrow_w sub_borrow] in *; auto.
  step H. destruct (v <? 0); auto.
  step H. step H. pose proof (vadd_index p a (S i) (-1) _ ltac:(lia) E0).
  rewrite next_ok by lia. cbn [bind]. rewrite E0. cbn [bind]. rewrite E1. cbn [bind]. apply IHn; auto.
  rewrite (vset_length _ _ _ _ E1), (vadd_length _ _ _ _ _ E0). auto.
Qed.

Lemma add_loop_length : forall p n i a b r, add_loop p n i a b = Ok r -> length r = length a.
Proof.
  induction n; intros i a b r H; cbn [add_loop] in H. { inversion H. auto. }
  do 5 step H. apply IHn in H.
  rewrite H, (vadd_length _ _ _ _ _ E3), (vset_length _ _ _ _ E2). auto.
Qed.

Lemma sub_loop_length : forall p n i a b r, sub_loop p n i a b = Ok r -> length r = length a.
Proof.
  induction n; intros i a b r H; cbn [sub_loop] in H. { inversion H. auto. }
  do 6 step H. apply IHn in H.
  rewrite H, (vadd_length _ _ _ _ _ E4), (vset_length _ _ _ _ E3). auto.
Qed.

Lemma sub_borrow_length : forall p n i a r, sub_borrow p n i a = Ok r -> length r = length a.
Proof.
  induction n; intros i a r H; cbn [sub_borrow] in H. { inversion H. auto. }
  step H. destruct (v <? 0); [|inversion H; auto]. do 2 step H. apply IHn in H.
  rewrite H, (vset_length _ _ _ _ E1), (vadd_length _ _ _ _ _ E0). auto.
Qed.

Lemma resize_len : forall v n, length (resize v n) = n.
Proof.
  intros v n. unfold resize. rewrite app_length, repeat_length.
  destruct (Nat.le_gt_cases n (length v)).
  - rewrite firstn_length_le by lia. lia.
  - rewrite firstn_all2 by lia. lia.
Qed.

Lemma from_size_id : forall n loop a, Z.of_nat n <= INT_MAX -> from_size n loop a = loop n.
Proof.
  intros n loop a H. unfold from_size. rewrite wrap32_id by (unfold INT_MIN; lia).
  destruct (Z.ltb_spec (Z.of_nat n) 0); [lia|]. f_equal. lia.
Qed.

(** ** The operators *)

(** Few enough digits for an [int] to count. *)
Definition small (x : Int) : Prop := Z.of_nat (length (chunks x)) <= INT_MAX.

Lemma abs_cmp_w_eq : forall x y, Z.of_nat (length (chunks x)) <= INT_MAX + 1 ->
  abs_cmp_w x y = abs_cmp x y.
Proof. intros x y H. unfold abs_cmp_w, abs_cmp. rewrite from_top_id; auto. Qed.

Lemma int_cmp_w_eq : forall x y, Z.of_nat (length (chunks x)) <= INT_MAX + 1 ->
  int_cmp_w x y = int_cmp x y.
Proof. intros x y H. unfold int_cmp_w, int_cmp. rewrite abs_cmp_w_eq; auto. Qed.

Lemma int_ge_w_eq : forall x y, small x -> int_ge_w x y = int_ge x y.
Proof. intros x y H. unfold small in H. unfold int_ge_w, int_ge. rewrite int_cmp_w_eq by lia. auto. Qed.

Lemma int_digits_w_eq : forall x z, repr x z -> small x -> int_digits_w x = int_digits x.
Proof.
  intros x z R H. unfold small in H. unfold int_digits_w. rewrite (int_digits_spec _ _ R). cbn [bind].
  destruct (Z.leb_spec (Z.of_nat (length (chunks x))) INT_MAX); auto. lia.
Qed.

Lemma add_same_w_ok : forall p x y r, small x -> small y ->
  add_same p x y = Ok r -> add_same_w p x y = Ok r.
Proof.
  intros p x y r Sx Sy H. unfold add_same_w, add_same, small in *. cbv zeta in *.
  rewrite add_loop_w_eq by lia. step H. rewrite from_size_id by lia. step H.
  apply add_loop_length in E. rewrite resize_len in E.
  erewrite add_carry_w_ok; [|lia|exact E0]. cbn [bind]. auto.
Qed.

Lemma sub_same_w_ok : forall p x y r, small x -> small y ->
  sub_same p x y = Ok r -> sub_same_w p x y = Ok r.
Proof.
  intros p x y r Sx Sy H. unfold sub_same_w, sub_same, small in *.
  rewrite abs_cmp_w_eq by lia. step H.
  destruct (v =? -1); cbv iota beta zeta in *.
  - rewrite sub_loop_w_eq by lia. step H. rewrite from_size_id by lia. step H.
    apply sub_loop_length in E0.
    erewrite sub_borrow_w_ok; [|lia|exact E1]. cbn [bind]. auto.
  - rewrite sub_loop_w_eq by lia. step H. rewrite from_size_id by lia. step H.
    apply sub_loop_length in E0.
    erewrite sub_borrow_w_ok; [|lia|exact E1]. cbn [bind]. auto.
Qed.

Lemma add_sub_w_ok : forall p d m x y r, small x -> small y ->
  add_sub p d m x y = Ok r -> add_sub_w p d m x y = Ok r.
Proof.
  induction d; intros m x y r Sx Sy H; cbn [add_sub add_sub_w] in *; auto.
  assert (Sn : small (int_neg y)) by (unfold small, int_neg; auto).
  destruct m.
  - destruct ((sign x =? 0) || (sign y =? 0)); auto.
    destruct (negb (sign x =? sign y)); auto using sub_same_w_ok.
  - destruct ((sign x =? 0) || (sign y =? 0)); auto.
    destruct (negb (sign x =? sign y)); auto using add_same_w_ok.
Qed.

Lemma scan_eq_w_ok : forall f v d i k, Z.of_nat (length v) <= INT_MAX + 1 ->
  scan_eq f v d i = Ok k -> scan_eq_w f v d i = Ok k.
Proof.
  induction f; intros v d i k L H; cbn [scan_eq scan_eq_w] in *; auto.
  step H. destruct (v0 =? d); auto.
  assert (S i < length v)%nat.
  { destruct f; cbn [scan_eq] in H; [discriminate|]. unfold vget in H.
    destruct (nth_error v (S i)) eqn:E1; [|discriminate H]. apply nth_error_Some. rewrite E1. discriminate. }
  rewrite next_ok by lia. cbn [bind]. auto.
Qed.

Lemma abs_inc_w_ok : forall x r, small x -> abs_inc x = Ok r -> abs_inc_w x = Ok r.
Proof.
  intros x r Sx H. unfold abs_inc, abs_inc_w, small in *. cbv zeta in *. step H.
  erewrite scan_eq_w_ok; [|rewrite app_length; cbn [length]; lia|exact E]. cbn [bind]. auto.
Qed.

Lemma abs_dec_w_ok : forall x r, small x -> abs_dec x = Ok r -> abs_dec_w x = Ok r.
Proof.
  intros x r Sx H. unfold abs_dec, abs_dec_w, small in *. cbv zeta in *. step H.
  erewrite scan_eq_w_ok; [|lia|exact E]. cbn [bind]. auto.
Qed.

(** ** Multiplication *)

Lemma mul_inner_w_eq : forall p n i j ai b c, Z.of_nat i + Z.of_nat j + Z.of_nat n <= INT_MAX ->
  mul_inner_w p n i j ai b c = mul_inner p n i j ai b c.
Proof.
  induction n; intros i j ai b c H; cbn [mul_inner_w mul_inner]; auto.
  peel. peel. rewrite chk32_ok by (unfold INT_MIN; lia). cbn [bind]. cbv zeta.
  replace (Z.to_nat (Z.of_nat i + Z.of_nat j)) with (i + j)%nat by lia.
  peel. peel. rewrite next_ok by lia. cbn [bind]. replace (S (i + j)) with (i + j + 1)%nat by lia.
  do 3 peel. rewrite next_ok by lia. cbn [bind]. apply IHn. lia.
Qed.

Lemma mul_outer_w_eq : forall p n i a b c, b <> [] -> Z.of_nat i + Z.of_nat n + Z.of_nat (length b) <= INT_MAX + 1 ->
  mul_outer_w p n i a b c = mul_outer p n i a b c.
Proof.
  induction n; intros i a b c B H; cbn [mul_outer_w mul_outer]; auto.
  assert (1 <= Z.of_nat (length b)) by (destruct b; [contradiction|cbn [length]; lia]).
  peel. rewrite mul_inner_w_eq by lia. peel. rewrite next_ok by lia. cbn [bind]. apply IHn; auto. lia.
Qed.

Lemma mul_inner_w_inv : forall p n i j ai b c r, mul_inner_w p n i j ai b c = Ok r -> n <> O ->
  Z.of_nat i + Z.of_nat j + Z.of_nat n <= INT_MAX.
Proof.
  induction n; intros i j ai b c r H N; [contradiction|]. cbn [mul_inner_w] in H.
  step H. step H. step H. cbv zeta in H. step H. step H. step H.
  apply chk32_inv in E1. destruct E1 as [-> E1]. apply next_inv in E4. destruct E4 as [_ E4].
  do 4 step H. apply next_inv in E8. destruct E8 as [-> E8].
  destruct n; [lia|]. apply IHn in H; [lia|discriminate].
Qed.

Lemma mul_outer_w_inv : forall p n i a b c r, b <> [] -> mul_outer_w p n i a b c = Ok r -> n <> O ->
  Z.of_nat i + Z.of_nat n + Z.of_nat (length b) <= INT_MAX + 1.
Proof.
  induction n; intros i a b c r B H N; [contradiction|]. cbn [mul_outer_w] in H.
  step H. step H. step H. apply next_inv in E1. destruct E1 as [-> E1].
  apply mul_inner_w_inv in E0; [|destruct b; [contradiction|discriminate]].
  destruct n; [lia|]. apply IHn in H; auto; lia.
Qed.

(** No exception and no lack of fuel: these loops return or are undefined. *)
Definition ok_or_ub {A} (o : outcome A) : Prop := match o with Ok _ | UB _ => True | _ => False end.

Lemma ok_or_ub_bind : forall A B (o : outcome A) (f : A -> outcome B),
  ok_or_ub o -> (forall a, ok_or_ub (f a)) -> ok_or_ub (bind o f).
Proof. intros A B [| | |] f H K; cbn [bind]; auto. Qed.

Lemma ok_or_ub_chk : forall z, ok_or_ub (chk32 z).
Proof. intros z. unfold chk32. destruct (in_int z); exact I. Qed.
Lemma ok_or_ub_vget : forall v i, ok_or_ub (vget v i).
Proof. intros. unfold vget. destruct (nth_error v i); exact I. Qed.
Lemma ok_or_ub_vset : forall v i x, ok_or_ub (vset v i x).
Proof. intros. unfold vset. destruct (nth_error v i); exact I. Qed.
Lemma ok_or_ub_vadd : forall p v i x, ok_or_ub (vadd p v i x).
Proof.
  intros. unfold vadd. destruct (nth_error v i).
  - apply ok_or_ub_bind; [apply ok_or_ub_chk|intros; exact I].
  - destruct p; [exact I|]. destruct (Nat.eqb i (length v) && (x =? 0)); exact I.
Qed.
Lemma ok_or_ub_next : forall i, ok_or_ub (next i).
Proof. intros. unfold next. apply ok_or_ub_bind; [apply ok_or_ub_chk|intros; exact I]. Qed.
Lemma ok_or_ub_cycle_mod : forall a b, ok_or_ub (cycle_mod a b).
Proof. intros. unfold cycle_mod. apply ok_or_ub_bind; intros; apply ok_or_ub_chk. Qed.

Create HintDb okub.
#[local] Hint Resolve ok_or_ub_chk ok_or_ub_vget ok_or_ub_vset ok_or_ub_vadd ok_or_ub_next ok_or_ub_cycle_mod : okub.

Lemma ok_or_ub_mul_inner : forall p n i j ai b c, ok_or_ub (mul_inner_w p n i j ai b c).
Proof.
  induction n; intros; cbn [mul_inner_w]; [exact I|].
  repeat (apply ok_or_ub_bind; [auto with okub|intros; cbv zeta]). apply IHn.
Qed.

Lemma ok_or_ub_mul_outer : forall p n i a b c, ok_or_ub (mul_outer_w p n i a b c).
Proof.
  induction n; intros; cbn [mul_outer_w]; [exact I|].
  apply ok_or_ub_bind; [auto with okub|intros]. apply ok_or_ub_bind; [apply ok_or_ub_mul_inner|intros].
  apply ok_or_ub_bind; [auto with okub|intros]. apply IHn.
Qed.

Lemma ok_or_ub_add_loop : forall p n i a b, ok_or_ub (add_loop_w p n i a b).
Proof.
  induction n; intros; cbn [add_loop_w]; [exact I|].
  repeat (apply ok_or_ub_bind; [auto with okub|intros]). apply IHn.
Qed.

Lemma add_loop_w_inv : forall p n i a b r, add_loop_w p n i a b = Ok r -> n <> O ->
  Z.of_nat i + Z.of_nat n <= INT_MAX.
Proof.
  induction n; intros i a b r H N; [contradiction|]. cbn [add_loop_w] in H.
  do 6 step H. apply next_inv in E3. destruct E3 as [-> E3].
  destruct n; [lia|]. apply IHn in H; [lia|discriminate].
Qed.

Lemma ok_or_ub_sub_loop : forall p n i a b, ok_or_ub (sub_loop_w p n i a b).
Proof.
  induction n; intros; cbn [sub_loop_w]; [exact I|].
  repeat (apply ok_or_ub_bind; [auto with okub|intros]). apply IHn.
Qed.

Lemma sub_loop_w_inv : forall p n i a b r, sub_loop_w p n i a b = Ok r -> n <> O ->
  Z.of_nat i + Z.of_nat n <= INT_MAX.
Proof.
  induction n; intros i a b r H N; [contradiction|]. cbn [sub_loop_w] in H.
  do 7 step H. apply next_inv in E4. destruct E4 as [-> E4].
  destruct n; [lia|]. apply IHn in H; [lia|discriminate].
Qed.

(** ** Division *)

Lemma sub_same_len : forall p x y r, sub_same p x y = Ok r ->
  (length (chunks r) <= Nat.max (length (chunks x)) (length (chunks y)))%nat.
Proof.
  intros p x y r H. unfold sub_same in H. step H. destruct (v =? -1); cbv iota beta zeta in H.
  - step H. step H. inversion H. eapply Nat.le_trans; [apply trim_len|]. cbn [chunks].
    rewrite (sub_borrow_length _ _ _ _ _ E1), (sub_loop_length _ _ _ _ _ _ E0). lia.
  - step H. step H. inversion H. eapply Nat.le_trans; [apply trim_len|]. cbn [chunks].
    rewrite (sub_borrow_length _ _ _ _ _ E1), (sub_loop_length _ _ _ _ _ _ E0). lia.
Qed.

(** One subtraction in the loop of [/=] and [%=]. *)
Lemma sub_step : forall p x y r, (sign x = 0 \/ sign x = 1) -> sign y = 1 ->
  int_ge x y = Ok true -> int_sub_assign p x y = Ok r -> small x -> small y ->
  int_sub_w p x y = Ok r /\ (sign r = 0 \/ sign r = 1) /\ small r.
Proof.
  intros p x y r Sx Sy G H Lx Ly. split. { apply add_sub_w_ok; auto. }
  unfold int_sub_assign in H. cbn [add_sub] in H. unfold int_ge, int_cmp in G. rewrite Sy in *.
  destruct Sx as [Sx|Sx]; rewrite Sx in *; cbn in G, H; [discriminate|].
  destruct (abs_cmp x y) as [v| | |] eqn:E; cbn [bind] in G; try discriminate.
  destruct (Z.geb_spec v 0); [|discriminate].
  pose proof (sub_same_len _ _ _ _ H) as L.
  unfold sub_same in H. rewrite E in H. cbn [bind] in H.
  destruct (Z.eqb_spec v (-1)); [lia|]. step H. step H. inversion H as [K].
  rewrite K. split; [|unfold small in *; lia].
  rewrite <- K. destruct (trim_sign (MkInt (sign x) v1)) as [->| ->]; cbn [sign]; auto.
Qed.

Lemma div_digit_w_ok : forall p f this tmp i res t r, (sign this = 0 \/ sign this = 1) -> sign tmp = 1 ->
  small this -> small tmp ->
  div_digit p f this tmp i res = Ok (t, r) ->
  div_digit_w p f this tmp i res = Ok (t, r) /\ (sign t = 0 \/ sign t = 1) /\ small t.
Proof.
  induction f; intros this tmp i res t r St Sp Lt Lp H; cbn [div_digit div_digit_w] in *; [discriminate|].
  rewrite int_ge_w_eq by auto. step H. destruct v.
  - step H. step H. destruct (sub_step _ _ _ _ St Sp E E1 Lt Lp) as (K & Sr & Lr).
    rewrite K. cbn [bind]. auto.
  - inversion H; subst. auto.
Qed.

Lemma erase_first_inv : forall v r, erase_first v = Ok r -> length v = S (length r).
Proof. intros [|a v] r H; cbn in H; inversion H; subst; auto. Qed.

Lemma div_loop_w_ok : forall p n this tmp res t r, (sign this = 0 \/ sign this = 1) -> sign tmp = 1 ->
  small this -> Z.of_nat (length (chunks tmp)) <= INT_MAX + 1 ->
  div_loop p n this tmp res = Ok (t, r) -> div_loop_w p n this tmp res = Ok (t, r).
Proof.
  induction n; intros this tmp res t r St Sp Lt Lp H; cbn [div_loop div_loop_w] in *; [exact H|].
  step H. cbv zeta in *. step H. destruct v0 as [t1 r1]. apply erase_first_inv in E.
  destruct (div_digit_w_ok p 10 this (MkInt (sign tmp) v) n res t1 r1 St Sp Lt
              ltac:(unfold small; cbn [chunks]; lia) E0) as (K & S1 & L1).
  rewrite K. cbn [bind fst snd] in *. apply IHn; auto. cbn [chunks]. lia.
Qed.

Lemma mod_digit_w_ok : forall p f this tmp t, (sign this = 0 \/ sign this = 1) -> sign tmp = 1 ->
  small this -> small tmp ->
  mod_digit p f this tmp = Ok t ->
  mod_digit_w p f this tmp = Ok t /\ (sign t = 0 \/ sign t = 1) /\ small t.
Proof.
  induction f; intros this tmp t St Sp Lt Lp H; cbn [mod_digit mod_digit_w] in *; [discriminate|].
  rewrite int_ge_w_eq by auto. step H. destruct v.
  - step H. destruct (sub_step _ _ _ _ St Sp E E0 Lt Lp) as (K & Sr & Lr).
    rewrite K. cbn [bind]. auto.
  - inversion H; subst. auto.
Qed.

Lemma mod_loop_w_ok : forall p n this tmp t, (sign this = 0 \/ sign this = 1) -> sign tmp = 1 ->
  small this -> Z.of_nat (length (chunks tmp)) <= INT_MAX + 1 ->
  mod_loop p n this tmp = Ok t -> mod_loop_w p n this tmp = Ok t.
Proof.
  induction n; intros this tmp t St Sp Lt Lp H; cbn [mod_loop mod_loop_w] in *; [exact H|].
  step H. cbv zeta in *. step H. apply erase_first_inv in E.
  destruct (mod_digit_w_ok p 10 this (MkInt (sign tmp) v) v0 St Sp Lt
              ltac:(unfold small; cbn [chunks]; lia) E0) as (K & S1 & L1).
  rewrite K. cbn [bind] in *. apply IHn; auto. cbn [chunks]. lia.
Qed.

Lemma quot_size_eq : forall x y, small x -> (length (chunks y) <= length (chunks x))%nat -> chunks y <> [] ->
  quot_size x y = Ok (length (chunks x) - length (chunks y) + 1)%nat.
Proof.
  intros x y Sx L N. unfold quot_size, small in *. cbv zeta.
  assert (1 <= length (chunks y))%nat by (destruct (chunks y); [contradiction|cbn [length]; lia]).
  rewrite wrap32_id by (unfold INT_MIN; lia).
  destruct (Z.ltb_spec (Z.of_nat (length (chunks x)) - Z.of_nat (length (chunks y)) + 1) 0); [lia|].
  f_equal. lia.
Qed.

Lemma repr_chunks : forall x z, repr x z -> z <> 0 -> chunks x <> [].
Proof.
  intros x z [C V] N E. unfold value in V. rewrite E in V. cbn in V. lia.
Qed.

Lemma repr_sgn : forall x z, repr x z -> sign x = Z.sgn z.
Proof. intros. apply repr_sign; auto. Qed.

Lemma div_w_ok : forall p x y a b r, repr x a -> repr y b -> b <> 0 -> small x -> small y ->
  int_div p x y = Ok r -> int_div_w p x y = Ok r.
Proof.
  intros p x y a b r Rx Ry B Sx Sy H. unfold int_div, int_div_assign, int_div_w in *.
  destruct (check_zero (sign y)) eqn:Ez; cbn [bind] in *; try discriminate.
  unfold div_core in H. rewrite (int_digits_w_eq _ _ Rx Sx), (int_digits_w_eq _ _ Ry Sy).
  rewrite (int_digits_spec _ _ Rx), (int_digits_spec _ _ Ry) in *. cbn [bind] in *.
  destruct (Z.ltb_spec (Z.of_nat (length (chunks x))) (Z.of_nat (length (chunks y)))).
  - destruct (int_of_int 0); try discriminate. auto.
  - cbv zeta in H. rewrite quot_size_eq by (eauto using repr_chunks; lia). cbn [bind]. cbv zeta.
    match type of H with context[bind ?o _] => destruct o as [[t q]| | |] eqn:E end; cbn [bind snd] in *; try discriminate.
    erewrite div_loop_w_ok; [| | | | |exact E]; cbn [bind snd sign chunks]; auto.
    rewrite app_length, repeat_length. unfold small in *.
    assert (1 <= length (chunks y))%nat.
    { pose proof (repr_chunks _ _ Ry B). destruct (chunks y); [contradiction|cbn [length]; lia]. }
    lia.
Qed.

Lemma mod_w_ok : forall p x y a b r, repr x a -> repr y b -> b <> 0 -> small x -> small y ->
  int_mod p x y = Ok r -> int_mod_w p x y = Ok r.
Proof.
  intros p x y a b r Rx Ry B Sx Sy H. unfold int_mod, int_mod_assign, int_mod_w in *.
  destruct (check_zero (sign y)) eqn:Ez; cbn [bind] in *; try discriminate.
  unfold mod_core in H. rewrite (int_digits_w_eq _ _ Rx Sx), (int_digits_w_eq _ _ Ry Sy).
  rewrite (int_digits_spec _ _ Rx), (int_digits_spec _ _ Ry) in *. cbn [bind] in *.
  destruct (Z.ltb_spec (Z.of_nat (length (chunks x))) (Z.of_nat (length (chunks y)))).
  - auto.
  - cbv zeta in H. rewrite quot_size_eq by (eauto using repr_chunks; lia). cbn [bind]. cbv zeta.
    match type of H with context[bind ?o _] => destruct o eqn:E end; cbn [bind] in *; try discriminate.
    erewrite mod_loop_w_ok; [| | | | |exact E]; cbn [bind sign chunks]; auto.
    rewrite app_length, repeat_length. unfold small in *.
    assert (1 <= length (chunks y))%nat.
    { pose proof (repr_chunks _ _ Ry B). destruct (chunks y); [contradiction|cbn [length]; lia]. }
    lia.
Qed.

(** ** Up to INT_MAX digits everything is as in IntModel.v *)

Lemma count_length : forall x a m, repr x a -> digit_count a m -> Z.of_nat (length (chunks x)) = m.
Proof. intros x a m R D. exact (digit_count_unique _ _ _ (digit_count_spec _ _ R) D). Qed.

Lemma mul_w_eq : forall p x y a b, repr x a -> repr y b -> b <> 0 ->
  Z.of_nat (length (chunks x)) + Z.of_nat (length (chunks y)) <= INT_MAX + 1 ->
  int_mul_w p x y = int_mul p x y.
Proof.
  intros p x y a b Rx Ry B H. unfold int_mul_w, int_mul, int_mul_assign.
  destruct ((sign x =? 0) || (sign y =? 0)); auto. cbv zeta.
  rewrite mul_outer_w_eq; [reflexivity|eauto using repr_chunks|lia].
Qed.

Lemma mul_w_zero : forall p x y a b, repr x a -> repr y b -> a = 0 \/ b = 0 ->
  int_mul_w p x y = Ok (MkInt 0 []).
Proof.
  intros p x y a b Rx Ry H. unfold int_mul_w.
  rewrite (repr_sgn _ _ Rx), (repr_sgn _ _ Ry).
  destruct H as [-> | ->]; cbn [Z.sgn Z.eqb]; [|rewrite orb_true_r]; reflexivity.
Qed.

Lemma wide_arith : forall x y a b m n, repr x a -> repr y b ->
  digit_count a m -> digit_count b n -> m <= INT_MAX -> n <= INT_MAX ->
  returns (int_add_w Benign x y) (a + b) /\ returns (int_sub_w Benign x y) (a - b) /\
  returns (int_inc_w x) (a + 1) /\ returns (int_dec_w x) (a - 1) /\
  (b <> 0 -> returns (int_div_w Benign x y) (Z.quot a b) /\
     exists z, returns (int_mod_w Benign x y) z /\ rem_value a b z) /\
  (b = 0 -> int_div_w Benign x y = Throw DivideByZero /\ int_mod_w Benign x y = Throw DivideByZero) /\
  (m + n <= INT_MAX + 1 -> forall p, returns (int_mul_w p x y) (a * b)).
Proof.
  intros x y a b m n Rx Ry Dm Dn M N.
  pose proof (count_length _ _ _ Rx Dm) as Lx. pose proof (count_length _ _ _ Ry Dn) as Ly.
  assert (Sx : small x) by (unfold small; lia). assert (Sy : small y) by (unfold small; lia).
  split. { destruct (add_exact _ _ _ _ Rx Ry) as (_ & (r & E & R) & _). exists r. split; auto.
           apply add_sub_w_ok; auto. }
  split. { destruct (sub_exact _ _ _ _ Rx Ry) as (_ & (r & E & R) & _). exists r. split; auto.
           apply add_sub_w_ok; auto. }
  destruct (inc_dec _ _ Rx) as [(r1 & E1 & R1) (r2 & E2 & R2)].
  split. { exists r1. split; auto. unfold int_inc, int_inc_w in *. destruct (sign x =? 0); auto.
           destruct (sign x =? 1); auto using abs_inc_w_ok, abs_dec_w_ok. }
  split. { exists r2. split; auto. unfold int_dec, int_dec_w in *. destruct (sign x =? 0); auto.
           destruct (sign x =? 1); auto using abs_inc_w_ok, abs_dec_w_ok. }
  split.
  { intros B. split.
    - destruct (div_trunc _ _ _ _ Rx Ry) as [K _]. destruct (K B) as [(r & E & R) _].
      exists r. split; auto. eapply div_w_ok; eauto.
    - destruct (mod_value _ _ _ _ Rx Ry) as [K _]. destruct (K B) as (z & (r & E & R) & V & _).
      exists z. split; auto. exists r. split; auto. eapply mod_w_ok; eauto. }
  split.
  { intros ->. assert (sign y = 0) as S0 by (rewrite (repr_sgn _ _ Ry); reflexivity).
    unfold int_div_w, int_mod_w. rewrite S0. cbn. auto. }
  intros MN p. destruct (Z.eq_dec b 0) as [->|B].
  - exists (MkInt 0 []). split; [eapply mul_w_zero; eauto|]. rewrite Z.mul_0_r.
    destruct Ry as [C V]. split; [|reflexivity]. repeat split; cbn; auto; lia.
  - destruct (mul_exact p _ _ _ _ Rx Ry) as ((r & E & R) & _). exists r. split; auto.
    erewrite mul_w_eq; eauto. lia.
Qed.

Lemma wide_queries : forall x a m, repr x a -> digit_count a m ->
  int_digits_w x = (if m <=? INT_MAX then Ok m else UB BadConversion) /\
  (m <= INT_MAX + 1 -> forall t, int_to_integer_w t x = int_to_integer t x).
Proof.
  intros x a m R D. pose proof (count_length _ _ _ R D) as L. split.
  - unfold int_digits_w. rewrite (int_digits_spec _ _ R). cbn [bind]. rewrite L. auto.
  - intros M t. unfold int_to_integer_w, int_to_integer. rewrite from_top_id by lia. auto.
Qed.

(** ** Comparison *)

Lemma compare_wide : forall x y a b m n, repr x a -> repr y b -> digit_count a m -> digit_count b n ->
  (m <> n \/ m <= INT_MAX + 1 \/ Z.sgn a <> Z.sgn b -> int_cmp_w x y = Ok (Z.sgn (a - b))) /\
  (m = n -> INT_MAX + 1 < m <= 2 * (INT_MAX + 1) -> Z.sgn a = Z.sgn b -> int_cmp_w x y = Ok 0).
Proof.
  intros x y a b m n Rx Ry Dm Dn.
  pose proof (count_length _ _ _ Rx Dm) as Lx. pose proof (count_length _ _ _ Ry Dn) as Ly.
  destruct (compare_exact _ _ _ _ Rx Ry) as (K & _). split.
  - intros H. rewrite <- K. destruct H as [H|[H|H]].
    + unfold int_cmp_w, int_cmp, abs_cmp_w, abs_cmp. cbv zeta.
      destruct (Nat.eqb_spec (length (chunks x)) (length (chunks y))); [lia|]. auto.
    + apply int_cmp_w_eq. lia.
    + unfold int_cmp_w, int_cmp. rewrite (repr_sgn _ _ Rx), (repr_sgn _ _ Ry).
      destruct (Z.eqb_spec (Z.sgn a) (Z.sgn b)); [contradiction|]. auto.
  - intros -> M S. unfold int_cmp_w. rewrite (repr_sgn _ _ Rx), (repr_sgn _ _ Ry), S, Z.eqb_refl. cbn [negb].
    unfold abs_cmp_w. cbv zeta. destruct (Nat.eqb_spec (length (chunks x)) (length (chunks y))); [|lia].
    cbn [negb]. rewrite from_top_none by lia. cbn [abs_cmp_loop bind].
    destruct (0 <=? Z.sgn b); auto.
Qed.

(** A number with [k + 2] digits: 10 ^ (k + 1) + d. *)
Definition far (d : Z) (k : nat) : Int := MkInt 1 (d :: repeat 0 k ++ [1]).

Lemma far_repr : forall d k, digit d -> repr (far d k) (value (far d k)).
Proof.
  intros d k D. split; auto. unfold canonical, far. cbn [chunks sign]. split; [|split; [|split]].
  - constructor; auto. apply Forall_app. split.
    + apply Forall_forall. intros z H. apply repeat_spec in H. subst. unfold digit. lia.
    + repeat constructor; lia.
  - change (d :: repeat 0 k ++ [1]) with ((d :: repeat 0 k) ++ [1]). rewrite last_last. lia.
  - auto.
  - split; discriminate.
Qed.

Lemma far_length : forall d k, Z.of_nat (length (chunks (far d k))) = Z.of_nat k + 2.
Proof. intros. unfold far. cbn [chunks length]. rewrite app_length, repeat_length. cbn [length]. lia. Qed.

Lemma far_value : forall d k, value (far d k) = d + 10 * p10 k.
Proof.
  intros. unfold value, far. cbn [sign chunks]. rewrite val_cons, val_app, val_repeat0, repeat_length.
  rewrite val_cons, val_nil. lia.
Qed.

Lemma far_count : forall d k, digit d -> digit_count (value (far d k)) (Z.of_nat k + 2).
Proof. intros d k D. rewrite <- (far_length d k). apply digit_count_spec. apply far_repr; auto. Qed.

Lemma far_sgn : forall d k, digit d -> Z.sgn (value (far d k)) = 1.
Proof. intros d k D. rewrite <- (repr_sgn _ _ (far_repr d k D)). reflexivity. Qed.

(** As many zeros as no [int] can count. *)
Lemma many : exists k, Z.of_nat k = 2147483648.
Proof. exists (Z.to_nat 2147483648). apply Z2Nat.id. lia. Qed.

Lemma compare_wide_refuted : exists x y a b, repr x a /\ repr y b /\ a < b /\
  int_cmp_w x y = Ok 0 /\ int_eqb x y = false.
Proof.
  destruct many as [k K].
  assert (D0 : digit 0) by (unfold digit; lia). assert (D1 : digit 1) by (unfold digit; lia).
  exists (far 0 k), (far 1 k), (value (far 0 k)), (value (far 1 k)).
  split; [apply far_repr; auto|]. split; [apply far_repr; auto|].
  assert (L : value (far 0 k) < value (far 1 k)) by (rewrite !far_value; lia).
  split; auto. split.
  - destruct (compare_wide _ _ _ _ _ _ (far_repr 0 k D0) (far_repr 1 k D1) (far_count 0 k D0) (far_count 1 k D1)) as [_ C].
    apply C; auto; [unfold INT_MAX; lia|]. rewrite !far_sgn; auto.
  - destruct (compare_exact _ _ _ _ (far_repr 0 k D0) (far_repr 1 k D1)) as (_ & E & _). rewrite E.
    apply Z.eqb_neq. lia.
Qed.

(** ** Beyond INT_MAX digits *)

Lemma ok_or_ub_cases : forall A (o : outcome A), ok_or_ub o -> (exists r, o = Ok r) \/ exists u, o = UB u.
Proof. intros A [| | |] H; try contradiction H; eauto. Qed.

Lemma mul_wide_exact : forall p x y a b m n, repr x a -> repr y b -> a <> 0 -> b <> 0 ->
  digit_count a m -> digit_count b n ->
  ((exists u, int_mul_w p x y = UB u) <-> INT_MAX + 1 < m + n).
Proof.
  intros p x y a b m n Rx Ry A B Dm Dn.
  pose proof (count_length _ _ _ Rx Dm) as Lx. pose proof (count_length _ _ _ Ry Dn) as Ly. split.
  - intros [u U]. destruct (Z.le_gt_cases (m + n) (INT_MAX + 1)); [|lia]. exfalso.
    erewrite mul_w_eq in U; eauto; [|lia].
    destruct (mul_exact p _ _ _ _ Rx Ry) as ((r & E & _) & _). congruence.
  - intros H. unfold int_mul_w. rewrite (repr_sgn _ _ Rx), (repr_sgn _ _ Ry).
    destruct (Z.eqb_spec (Z.sgn a) 0); [lia|]. destruct (Z.eqb_spec (Z.sgn b) 0); [lia|]. cbn [orb]. cbv zeta.
    destruct (ok_or_ub_cases _ _ (ok_or_ub_mul_outer p (length (chunks x)) 0 (chunks x) (chunks y)
                (repeat 0 (length (chunks x) + length (chunks y))))) as [[r E]|[u E]].
    + apply mul_outer_w_inv in E; [lia|eauto using repr_chunks|].
      pose proof (repr_chunks _ _ Rx A). destruct (chunks x); [contradiction|discriminate].
    + rewrite E. exists u. reflexivity.
Qed.

Lemma add_same_wide_ub : forall p x y, INT_MAX < Z.of_nat (length (chunks y)) ->
  exists u, add_same_w p x y = UB u.
Proof.
  intros p x y H. unfold add_same_w. cbv zeta.
  match goal with |- context[add_loop_w ?p ?n ?i ?a ?b] =>
    destruct (ok_or_ub_cases _ _ (ok_or_ub_add_loop p n i a b)) as [[r E]|[u E]] end.
  - apply add_loop_w_inv in E; [lia|]. intros K. rewrite K in H. unfold INT_MAX in H. lia.
  - rewrite E. exists u. reflexivity.
Qed.

Lemma sub_same_wide_ub : forall p x y a b, repr x a -> repr y b ->
  INT_MAX < Z.of_nat (length (chunks x)) -> INT_MAX < Z.of_nat (length (chunks y)) ->
  exists u, sub_same_w p x y = UB u.
Proof.
  intros p x y a b Rx Ry Hx Hy. unfold sub_same_w.
  assert (C : exists c, abs_cmp_w x y = Ok c).
  { unfold abs_cmp_w. cbv zeta. destruct (negb (length (chunks x) =? length (chunks y))%nat) eqn:N; eauto.
    assert (L : length (chunks x) = length (chunks y)) by (destruct (Nat.eqb_spec (length (chunks x)) (length (chunks y))); auto; discriminate).
    assert (T : (from_top (length (chunks x)) <= length (chunks x))%nat).
    { unfold from_top, wrap32. cbv zeta. 
      destruct (Z.ltb_spec ((Z.of_nat (length (chunks x)) - 1 + 2147483648) mod 4294967296 - 2147483648) 0); [lia|].
      pose proof (Z.mod_le (Z.of_nat (length (chunks x)) - 1 + 2147483648) 4294967296 ltac:(unfold INT_MAX in *; lia) ltac:(lia)). lia. }
    rewrite L in T at 2. revert T. rewrite L. generalize (from_top (length (chunks y))). intros k T.
    assert (G : forall k a b, (k <= length a)%nat -> (k <= length b)%nat -> exists c, abs_cmp_loop k a b = Ok c).
    { induction k0; intros u v U V; cbn [abs_cmp_loop]; eauto.
      unfold vget. destruct (nth_error u k0) eqn:E1; [|apply nth_error_None in E1; lia].
      destruct (nth_error v k0) eqn:E2; [|apply nth_error_None in E2; lia]. cbn [bind].
      destruct (negb (z =? z0)); eauto. apply IHk0; lia. }
    apply G; lia. }
  destruct C as [c C]. rewrite C. cbn [bind]. clear C.
  destruct (c =? -1); cbv iota beta;
  match goal with |- context[sub_loop_w ?p ?n ?i ?a ?b] =>
    destruct (ok_or_ub_cases _ _ (ok_or_ub_sub_loop p n i a b)) as [[r E]|[u E]] end.
  1, 3: apply sub_loop_w_inv in E; [lia|]; intros K; rewrite K in *; unfold INT_MAX in *; lia.
  all: rewrite E; exists u; reflexivity.
Qed.

Lemma add_sub_wide_ub : forall p x y a b m n, repr x a -> repr y b -> digit_count a m -> digit_count b n ->
  a <> 0 -> b <> 0 ->
  (Z.sgn a = Z.sgn b -> INT_MAX < n -> exists u, int_add_w p x y = UB u) /\
  (Z.sgn a <> Z.sgn b -> INT_MAX < n -> exists u, int_sub_w p x y = UB u) /\
  (Z.sgn a = Z.sgn b -> INT_MAX < m -> INT_MAX < n -> exists u, int_sub_w p x y = UB u) /\
  (Z.sgn a <> Z.sgn b -> INT_MAX < m -> INT_MAX < n -> exists u, int_add_w p x y = UB u).
Proof.
  intros p x y a b m n Rx Ry Dm Dn A B.
  pose proof (count_length _ _ _ Rx Dm) as Lx. pose proof (count_length _ _ _ Ry Dn) as Ly.
  assert (Rn : repr (int_neg y) (- b)) by (apply int_neg_spec; auto).
  unfold int_add_w, int_sub_w. cbn [add_sub_w].
  rewrite (repr_sgn _ _ Rx), (repr_sgn _ _ Ry), (repr_sgn _ _ Rn).
  destruct (Z.eqb_spec (Z.sgn a) 0); [lia|]. destruct (Z.eqb_spec (Z.sgn b) 0); [lia|].
  destruct (Z.eqb_spec (Z.sgn (- b)) 0); [lia|]. cbn [orb].
  repeat split; intros S M; try intros N;
  destruct (Z.eqb_spec (Z.sgn a) (Z.sgn b)); try contradiction; cbn [negb];
  try (destruct (Z.eqb_spec (Z.sgn a) (Z.sgn (- b))); [|lia]; cbn [negb]).
  - apply add_same_wide_ub. lia.
  - apply add_same_wide_ub. cbn [int_neg chunks]. lia.
  - eapply sub_same_wide_ub; eauto; lia.
  - eapply sub_same_wide_ub; eauto; [lia|]. cbn [int_neg chunks]. lia.
Qed.

Lemma div_wide_exact : forall x y a b m n, repr x a -> repr y b -> b <> 0 ->
  digit_count a m -> digit_count b n ->
  ((exists u, int_div_w Benign x y = UB u) <-> INT_MAX < m \/ INT_MAX < n) /\
  ((exists u, int_mod_w Benign x y = UB u) <-> INT_MAX < m \/ INT_MAX < n).
Proof.
  intros x y a b m n Rx Ry B Dm Dn.
  assert (K : INT_MAX < m \/ INT_MAX < n -> (exists u, int_div_w Benign x y = UB u) /\ exists u, int_mod_w Benign x y = UB u).
  { intros H. unfold int_div_w, int_mod_w, check_zero. rewrite (repr_sgn _ _ Ry).
    destruct (Z.eqb_spec (Z.sgn b) 0); [lia|]. cbn [bind].
    destruct (wide_queries _ _ _ Rx Dm) as [-> _]. destruct (wide_queries _ _ _ Ry Dn) as [-> _].
    destruct (Z.leb_spec m INT_MAX); cbn [bind]; [|split; eexists; reflexivity].
    destruct (Z.leb_spec n INT_MAX); cbn [bind]; [lia|split; eexists; reflexivity]. }
  split; (split; [|intros; apply K; auto]); intros [u U];
  destruct (Z.le_gt_cases m INT_MAX); try lia; destruct (Z.le_gt_cases n INT_MAX); try lia; exfalso;
  destruct (wide_arith _ _ _ _ _ _ Rx Ry Dm Dn) as (_ & _ & _ & _ & D & _); auto;
  destruct (D B) as [(r & E & _) (z & (r2 & E2 & _) & _)]; congruence.
Qed.

(** Adding one to a number of more than INT_MAX digits is right; the same sum with
    the operands exchanged is undefined. *)
Lemma add_one_wide : forall p k, returns (int_add_w p (far 0 (S k)) (MkInt 1 [1])) (value (far 0 (S k)) + 1).
Proof.
  intros p k. exists (far 1 (S k)). split.
  - unfold int_add_w. cbn [add_sub_w far sign Z.eqb orb negb]. unfold add_same_w. cbn [chunks sign]. cbv zeta.
    assert (E : resize (0 :: repeat 0 (S k) ++ [1]) (Nat.max (length (0 :: repeat 0 (S k) ++ [1])) (length [1]) + 1)
                = 0 :: 0 :: repeat 0 k ++ [1; 0]).
    { unfold resize. rewrite Nat.max_l by (cbn [length]; lia). rewrite firstn_all2 by lia.
      match goal with |- context[repeat 0 (?n - ?m)] => replace (n - m)%nat with 1%nat by lia end.
      cbn [repeat app]. rewrite <- app_assoc. reflexivity. }
    cbn [chunks far]. rewrite E. clear E. cbn [length add_loop_w vget nth_error bind].
    change (0 + 1) with 1. change (chk32 1) with (Ok 1). cbn [bind].
    change (Z.rem 1 BASE) with 1. change (Z.quot 1 BASE) with 0.
    unfold vset. cbn [nth_error bind upd]. change (next 0) with (Ok 1%nat). cbn [bind].
    unfold vadd. cbn [nth_error]. change (0 + 0) with 0. change (chk32 0) with (Ok 0). cbn [bind upd].
    rewrite from_size_id by (unfold INT_MAX; cbn; lia).
    cbv beta. match goal with |- context[add_carry_w p ?n 1] => replace n with (S (length (repeat 0 k ++ [1; 0])))
      by (cbn [length]; lia) end.
    cbn [add_carry_w vget nth_error bind]. change (0 >=? BASE) with false. cbv iota. cbn [bind].
    f_equal. unfold trim, far. cbn [chunks sign].
    assert (R : rev (1 :: 0 :: repeat 0 k ++ [1; 0]) = 0 :: 1 :: rev (1 :: repeat 0 (S k))).
    { cbn [rev repeat]. rewrite rev_app_distr. cbn [rev app]. reflexivity. }
    rewrite R. cbn [skip_zeros]. change (0 =? 0) with true. change (1 =? 0) with false. cbv iota.
    change (rev (1 :: rev (1 :: repeat 0 (S k)))) with (rev (rev (1 :: repeat 0 (S k))) ++ [1]).
    rewrite rev_involutive. reflexivity.
  - replace (value (far 0 (S k)) + 1) with (value (far 1 (S k))) by (rewrite !far_value; lia).
    apply far_repr. unfold digit. lia.
Qed.

Lemma add_wide_asym : exists x y a, repr x a /\ repr y 1 /\ (forall p, returns (int_add_w p x y) (a + 1)) /\
  forall p, exists u, int_add_w p y x = UB u.
Proof.
  destruct many as [k K]. assert (D0 : digit 0) by (unfold digit; lia).
  assert (R1 : repr (MkInt 1 [1]) 1).
  { split; [|reflexivity]. split; [|split; [|split]]; cbn; try lia.
    - repeat constructor; unfold digit; lia.
    - split; discriminate. }
  exists (far 0 (S k)), (MkInt 1 [1]), (value (far 0 (S k))).
  split; [apply far_repr; auto|]. split; auto. split; [intros; apply add_one_wide|].
  intros p. pose proof (far_count 0 (S k) D0) as C. pose proof (far_sgn 0 (S k) D0) as S1.
  destruct (add_sub_wide_ub p _ _ _ _ 1 _ R1 (far_repr 0 (S k) D0) ltac:(right; cbn; lia) C) as (H & _); try lia.
  apply H; [rewrite S1; reflexivity|unfold INT_MAX; lia].
Qed.

(** ** Conversion to a C++ integer *)

Lemma to_integer_wide_refuted : exists x a, repr x a /\ Z.odd a = true /\
  forall w, int_to_integer_w (CType w false) x = Ok (0 mod 2 ^ w).
Proof.
  destruct many as [k K]. assert (D1 : digit 1) by (unfold digit; lia).
  exists (far 1 k), (value (far 1 k)). split; [apply far_repr; auto|]. split.
  - rewrite far_value. replace (1 + 10 * p10 k) with (1 + 2 * (5 * p10 k)) by lia.
    rewrite Z.odd_add_mul_2. reflexivity.
  - intros w. unfold int_to_integer_w. rewrite from_top_none by (rewrite far_length; unfold INT_MAX; lia).
    cbn [to_integer_loop bind far sign]. unfold carith, promoted, conv. cbn [bits signed_].
    destruct (w <? 32); cbn [bits signed_ bind]; auto.
Qed.

(** ** The constructor from text *)

Lemma wrap32_big : forall z, 0 <= z -> INT_MAX < z mod 4294967296 -> wrap32 z < 0.
Proof.
  intros z Z0 H. unfold wrap32, INT_MAX in *.
  pose proof (Z.div_mod z 4294967296 ltac:(lia)) as E.
  pose proof (Z.mod_pos_bound z 4294967296 ltac:(lia)) as B.
  replace (z + 2147483648) with ((z mod 4294967296 - 2147483648) + (z / 4294967296 + 1) * 4294967296) by lia.
  rewrite Z.mod_add by lia. rewrite (Z.mod_small (z mod 4294967296 - 2147483648)) by lia. lia.
Qed.

Lemma wrap32_low : forall z, z mod 4294967296 <= INT_MAX -> wrap32 z = z mod 4294967296.
Proof.
  intros z H. unfold wrap32, INT_MAX in *.
  pose proof (Z.div_mod z 4294967296 ltac:(lia)) as E.
  pose proof (Z.mod_pos_bound z 4294967296 ltac:(lia)) as B.
  replace (z + 2147483648) with ((z mod 4294967296 + 2147483648) + (z / 4294967296) * 4294967296) by lia.
  rewrite Z.mod_add by lia. rewrite (Z.mod_small (z mod 4294967296 + 2147483648)) by lia. lia.
Qed.

Lemma text_wide : forall cs,
  let len := Z.of_nat (length cs) in
  (len <= INT_MAX -> int_of_chars_w cs = int_of_chars cs) /\
  (INT_MAX < len mod 4294967296 -> int_of_chars_w cs = UB InvalidRange) /\
  (len mod 4294967296 <= INT_MAX ->
     match literal (firstn (Z.to_nat (len mod 4294967296)) cs) with
     | Some z => returns (int_of_chars_w cs) z
     | None => int_of_chars_w cs = Throw WrongIntegerLiteral
     end).
Proof.
  intros cs len. subst len. unfold int_of_chars_w. cbv zeta.
  split; [|split].
  - intros H. rewrite wrap32_id by (unfold INT_MIN; lia).
    destruct (Z.ltb_spec (Z.of_nat (length cs)) 0); [lia|]. rewrite Nat2Z.id, firstn_all. auto.
  - intros H. pose proof (wrap32_big _ (Zle_0_nat (length cs)) H).
    destruct (Z.ltb_spec (wrap32 (Z.of_nat (length cs))) 0); [auto|lia].
  - intros H. rewrite (wrap32_low _ H).
    pose proof (Z.mod_pos_bound (Z.of_nat (length cs)) 4294967296 ltac:(lia)) as B.
    destruct (Z.ltb_spec (Z.of_nat (length cs) mod 4294967296) 0); [lia|]. apply string_constructor.
Qed.

Lemma text_wide_refuted : exists cs, literal cs = None /\ returns (int_of_chars_w cs) 7.
Proof.
  assert (K : exists k, Z.of_nat k = 4294967296).
  { exists (Z.to_nat 4294967296). apply Z2Nat.id. lia. }
  destruct K as [k K]. exists ("7"%char :: repeat "x"%char k). split.
  - destruct k; [lia|]. reflexivity.
  - destruct (text_wide ("7"%char :: repeat "x"%char k)) as (_ & _ & H). cbv zeta in H.
    cbn [length] in H. rewrite repeat_length in H.
    replace (Z.of_nat (S k) mod 4294967296) with 1 in H
      by (replace (Z.of_nat (S k)) with (1 + 1 * 4294967296) by lia; rewrite Z.mod_add by lia; reflexivity).
    assert (F : firstn (Z.to_nat 1) ("7"%char :: repeat "x"%char k) = ["7"%char]) by reflexivity.
    rewrite F in H. apply H. unfold INT_MAX. lia.
Qed.
