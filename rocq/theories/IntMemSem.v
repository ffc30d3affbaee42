(** What a member function of [Int] leaves behind when memory runs out. *)
From Coq Require Import ZArith List Bool Ascii Lia.
From Verif Require Import Outcome IntModel IntSpec IntBase IntAddSub IntMulDiv IntPolicy IntProgModel IntProgSpec
  IntMemModel IntMemSpec IntMemFacts IntMem.
Import ListNotations.
Open Scope Z_scope.

(** ** Results under either policy *)

Lemma sub_value : forall p x y a b r, repr x a -> repr y b -> int_sub_assign p x y = Ok r -> repr r (a - b).
Proof.
  intros p x y a b r Hx Hy E. destruct (int_sub_assign_spec Benign _ _ _ _ Hx Hy ltac:(auto)) as (r' & E' & R).
  destruct p; [|rewrite E in E'; inversion E'; subst; exact R].
  destruct (int_sub_assign_refines x y) as [S|(u & S)]; rewrite S in E; [|discriminate].
  rewrite E in E'. inversion E'; subst. exact R.
Qed.
Lemma mul_value : forall p x y a b r, repr x a -> repr y b -> int_mul_assign p x y = Ok r -> repr r (a * b).
Proof.
  intros p x y a b r Hx Hy E. destruct (int_mul_assign_spec Benign _ _ _ _ Hx Hy) as (r' & E' & R).
  destruct p; [|rewrite E in E'; inversion E'; subst; exact R].
  destruct (int_mul_refines x y) as [S|(u & S)]; rewrite S in E; [|discriminate].
  rewrite E in E'. inversion E'; subst. exact R.
Qed.
Lemma div_value : forall p x y a b r, repr x a -> repr y b -> b <> 0 ->
  result_of (int_div_assign p x y) = Ok r -> repr r (Z.quot a b).
Proof.
  intros p x y a b r Hx Hy Hb E. destruct (int_div_assign_spec _ _ _ _ Hx Hy Hb) as (r' & E' & R).
  destruct p.
  - destruct (int_div_assign_refines x y) as [S|(u & S)].
    + rewrite S, E' in E. inversion E; subst. exact R.
    + destruct (int_div_assign Strict x y) as [o z]. cbn in S. subst o. discriminate E.
  - rewrite E' in E. inversion E; subst. exact R.
Qed.

Lemma repr_flip : forall x a s, repr x a -> a <> 0 -> s = 1 \/ s = -1 -> repr (MkInt s (chunks x)) (s * Z.abs a).
Proof.
  intros x a s H Ha Hs. rewrite <- (repr_val _ _ H). apply repr_intro; auto.
  - exact (repr_digits _ _ H).
  - exact (repr_last _ _ H).
  - exact (repr_nonnil _ _ H Ha).
Qed.

Section Harm.
Variable grow : nat -> nat -> nat.
Variable ok : nat -> bool.
Variable p : policy.

(** ** The loops of a division *)

Definition partway (x : MInt) (a b : Z) (x' : MInt) : Prop :=
  exists a', midway a b a' /\ repr (forget x') a' /\ room (mvec x') = room (mvec x).
Definition shifted (y : Int) (n : nat) (t : Int) : Prop := t = MkInt 1 (repeat 0 n ++ chunks y).

Lemma shifted_erase : forall y n t tc, shifted y (S n) t -> erase_first (chunks t) = Ok tc -> shifted y n (MkInt (sign t) tc).
Proof. intros y n t tc -> E. cbn in E. inversion E; subst. reflexivity. Qed.

Lemma partway_sub : forall x y a b n x1 t, repr y b -> b <> 0 -> partway x a b x1 -> shifted y n t -> fits x1 ->
  int_ge (forget x1) t = Ok true ->
  owp ok x1 (m_sub_assign grow ok p (with_room t 0))
    (fun _ x' => partway x a b x' /\ fits x' /\ int_sub_assign p (forget x1) t = Ok (forget x'))
    (fun x' => fits x' /\ partway x a b x') (fun f _ => mirrors f (int_sub_assign p (forget x1) t)).
Proof.
  intros x y a b n x1 t Hy Hb (a' & (j & Hj & Ea & Pa) & R & Rm) Ht F1 G. unfold shifted in Ht. subst t.
  pose proof (repr_shift _ _ n Hy Hb) as Rt. pose proof (p10_pos n) as Pn.
  rewrite (int_ge_spec _ _ _ _ R Rt) in G. inversion G as [G']. apply Z.leb_le in G'. clear G.
  set (t := MkInt 1 (repeat 0 n ++ chunks y)) in *.
  assert (Pt : 0 < Z.abs b * p10 n) by nia.
  assert (S1 : msign x1 = 1). { change (msign x1) with (sign (forget x1)). rewrite (repr_sign _ _ R). lia. }
  assert (AC : abs_cmp (forget x1) t = Ok (Z.sgn (a' - Z.abs b * p10 n))).
  { rewrite (abs_cmp_spec _ _ _ _ R Rt). f_equal. f_equal. lia. }
  assert (IS : int_sub_assign p (forget x1) t = sub_same p (forget x1) t).
  { unfold int_sub_assign. cbn [add_sub]. change (sign (forget x1)) with (msign x1). rewrite S1. reflexivity. }
  unfold m_sub_assign. cbn [m_add_sub]. apply owp_bind, owp_get. change (msign (with_room t 0)) with 1. rewrite S1.
  cbn [Z.eqb Pos.eqb orb negb]. unfold m_sub_same.
  assert (P1 : partway x a b x1) by (exists a'; split; [exists j; auto|auto]).
  apply owp_bind, owp_get, owp_bind, owp_lift; [auto|].
  eapply awp_mono; [apply awp_new with (F := fun _ => False)| |intros ? []]. intros c0 _.
  rewrite !forget_with, AC. apply owp_bind, owp_lift; [auto|]. apply awp_ret.
  apply owp_bind, owp_lift; [auto|]. rewrite <- IS. apply awp_lift; [|intros f _ M; exact M].
  intros r E. apply owp_put. rewrite E. rewrite forget_with.
  destruct (Z.eqb_spec (Z.sgn (a' - Z.abs b * p10 n)) (-1)); [lia|].
  split; [|split; [|reflexivity]].
  - exists (a' - Z.abs b * p10 n). split.
    + exists (j + p10 n). split; [lia|]. split; [rewrite Ea; ring|lia].
    + split; [|exact Rm]. rewrite forget_with. exact (sub_value p _ _ _ _ _ R Rt E).
  - apply fits_with. rewrite IS in E. pose proof (sub_same_length _ _ _ _ _ AC E) as L.
    destruct (Z.eqb_spec (Z.sgn (a' - Z.abs b * p10 n)) (-1)); [lia|]. unfold fits in F1. unfold forget in L. cbn [chunks] in L. lia.
Qed.

Lemma partway_start : forall x y a b d1 d2, repr (forget x) a -> repr (forget y) b ->
  int_digits (forget x) = Ok d1 -> int_digits (forget y) = Ok d2 -> (d1 <? d2) = false -> msign y <> 0 ->
  partway x a b (MI 1 (mvec x)) /\
  shifted (forget y) (size_of x y) (MkInt 1 (repeat 0 (size_of x y) ++ items (mvec y))).
Proof.
  intros x y a b d1 d2 Hx Hy D1 D2 L NZ. split; [|reflexivity].
  rewrite (int_digits_spec _ _ Hx) in D1. rewrite (int_digits_spec _ _ Hy) in D2. inversion D1; inversion D2; subst.
  apply Z.ltb_ge in L. change (msign y) with (sign (forget y)) in NZ. rewrite (repr_sign _ _ Hy) in NZ.
  assert (Hb : b <> 0) by lia. pose proof (repr_nonnil _ _ Hy Hb) as Nb.
  assert (Ha : a <> 0).
  { intros ->. pose proof (repr_zero_inv _ Hx) as Z0. apply (f_equal chunks) in Z0. cbn [chunks] in Z0, L |- *. unfold forget in *. cbn [chunks] in *. rewrite Z0 in L. destruct (items (mvec y)); [congruence|cbn in L; lia]. }
  exists (Z.abs a). split; [exists 0; lia|]. split; [|reflexivity].
  replace (Z.abs a) with (1 * Z.abs a) by lia. apply (repr_flip (forget x)); auto.
Qed.

Lemma div_harm : forall x y a b, fits x -> repr (forget x) a -> repr (forget y) b ->
  does ok x (m_div_assign grow ok p y) (result_of (int_div_assign p (forget x) (forget y)))
    (fun x' => x' = x \/ partway x a b x').
Proof.
  intros x y a b Fx Hx Hy. destruct (Z.eq_dec b 0) as [->|Hb].
  - eapply does_weaken; [apply (div_does_with grow ok p (fun _ => False) (fun _ _ => True)); auto|].
    + intros n x0 t [].
    + intros d1 d2 _ _ _ NZ. change (msign y) with (sign (forget y)) in NZ. rewrite (repr_sign _ _ Hy) in NZ. cbn in NZ. lia.
    + cbv beta. intros x' [E|[[]|(x1 & r & [] & _)]]. auto.
  - eapply does_weaken; [apply (div_does_with grow ok p (partway x a b) (shifted (forget y))); auto|].
    + apply shifted_erase.
    + intros n x0 t I0 T0 F0 G. exact (partway_sub x _ a b n x0 t Hy Hb I0 T0 F0 G).
    + intros d1 d2. apply partway_start; assumption.
    + cbv beta. intros x' [E|[E|(x1 & r & (a' & _ & _ & Rm) & _ & _ & Er & L)]]; auto. exfalso.
      pose proof (div_value p _ _ _ _ _ Hx Hy Hb Er) as R.
      assert (LE : (length (chunks r) <= length (chunks (forget x)))%nat).
      { apply (repr_len_le _ _ _ _ R Hx). rewrite <- Z.quot_abs by assumption.
        apply Z.quot_le_upper_bound; nia. }
      unfold fits in Fx. unfold forget in LE at 1. cbn [chunks] in LE. unfold forget in LE. cbn [chunks] in LE. lia.
Qed.
Lemma mod_harm : forall x y a b, fits x -> repr (forget x) a -> repr (forget y) b ->
  does ok x (m_mod_assign grow ok p y) (result_of (int_mod_assign p (forget x) (forget y)))
    (fun x' => partway x a b x').
Proof.
  intros x y a b Fx Hx Hy. destruct (Z.eq_dec b 0) as [->|Hb].
  - eapply does_weaken; [apply (mod_does_with grow ok p (fun _ => False) (fun _ _ => True)); auto|].
    + intros n x0 t [].
    + intros d1 d2 _ _ _ NZ. change (msign y) with (sign (forget y)) in NZ. rewrite (repr_sign _ _ Hy) in NZ. cbn in NZ. lia.
    + cbv beta. intros x' [_ []].
  - eapply does_weaken; [apply (mod_does_with grow ok p (partway x a b) (shifted (forget y))); auto|].
    + apply shifted_erase.
    + intros n x0 t I0 T0 F0 G. exact (partway_sub x _ a b n x0 t Hy Hb I0 T0 F0 G).
    + intros d1 d2. apply partway_start; assumption.
    + cbv beta. intros x' [_ E]. exact E.
Qed.

(** ** Every member, in terms of values *)

(** The object left behind is the integer of [after], or a sign without digits. *)
Definition left_by (o : aop) (a b : Z) (x' : MInt) : Prop :=
  (exists a', after o a b a' /\ repr (forget x') a') \/ (o = AAdd /\ a = 0 /\ b <> 0 /\ wreck x' (Z.sgn b)).

Lemma wreck_intro : forall x s, repr (forget x) 0 -> s = 1 \/ s = -1 -> wreck (MI s (mvec x)) s.
Proof.
  intros x s H Hs. apply repr_zero_inv in H. unfold forget in H. inversion H. split; [reflexivity|]. split; [assumption|exact Hs].
Qed.

Lemma copy_harm : forall x that a b, fits x -> repr (forget x) a -> repr (forget that) b ->
  does ok x (m_assign_copy ok that) (Ok (forget that))
    (fun x' => (a <> 0 /\ b <> 0 /\ repr (forget x') (Z.sgn b * Z.abs a)) \/ (a = 0 /\ b <> 0 /\ wreck x' (Z.sgn b))).
Proof.
  intros x that a b Fx Hx Hy. eapply does_weaken; [apply assign_copy_does; exact Fx|]. cbv beta. intros x' [-> L].
  change (msign that) with (sign (forget that)). rewrite (repr_sign _ _ Hy).
  assert (Hb : b <> 0). { intros ->. apply repr_zero_inv in Hy. unfold forget in Hy. inversion Hy as [[E1 E2]]. rewrite E2 in L. cbn in L. lia. }
  assert (Sb : Z.sgn b = 1 \/ Z.sgn b = -1) by lia.
  destruct (Z.eq_dec a 0) as [->|Ha].
  - right. split; [reflexivity|]. split; [exact Hb|]. apply wreck_intro; assumption.
  - left. split; [exact Ha|]. split; [exact Hb|]. apply (repr_flip (forget x)); assumption.
Qed.

Lemma step_harm_value : forall s x x' a, s = 1 \/ s = -1 -> repr (forget x) a -> step_harm s x x' ->
  (a <> 0 /\ x' = x) \/ (a = 0 /\ wreck x' s).
Proof.
  intros s x x' a Hs Hx. unfold step_harm. change (msign x) with (sign (forget x)). rewrite (repr_sign _ _ Hx).
  intros [[N ->]|(Z0 & -> & _)].
  - left. split; [lia|reflexivity].
  - right. assert (a = 0) by lia. subst a. split; [reflexivity|]. apply wreck_intro; assumption.
Qed.

Lemma compound_harm : forall o same x y a b, fits x -> repr (forget x) a -> repr (forget y) b ->
  (same = true -> x = y) ->
  does ok x (m_compound grow ok p o same y) (compound p o same (forget x) (forget y)) (left_by o a b).
Proof.
  intros o same x y a b Fx Hx Hy Same. destruct o; cbn [m_compound compound].
  - destruct same.
    + destruct (Z.eq_dec a 0) as [->|Ha].
      * intros k. unfold m_add_assign_self, obind, oget. cbn [fst snd].
        change (msign x) with (sign (forget x)). rewrite (repr_sign _ _ Hx). cbn. split; [lia|]. split; [apply plenty_nil|].
        exists (forget x). split; [|apply is_int_self; exact Fx]. unfold int_add_assign_self. rewrite (repr_sign _ _ Hx). reflexivity.
      * eapply does_weaken; [apply add_self_does; exact Fx|]. cbv beta. intros x' ->. left. exists a. split; [cbn; auto|exact Hx].
    + eapply does_weaken; [apply add_sub_does; exact Fx|]. cbv beta. cbn [addsub_harm].
      change (msign x) with (sign (forget x)). change (msign y) with (sign (forget y)).
      rewrite (repr_sign _ _ Hx), (repr_sign _ _ Hy). intros x' [[N ->]|(Z0 & -> & L)].
      * left. exists a. split; [cbn; lia|exact Hx].
      * right. assert (a = 0) by lia. subst a.
        assert (Hb : b <> 0). { intros ->. apply repr_zero_inv in Hy. unfold forget in Hy. inversion Hy as [[E1 E2]]. rewrite E2 in L. cbn in L. lia. }
        split; [reflexivity|]. split; [reflexivity|]. split; [exact Hb|]. apply wreck_intro; [exact Hx|lia].
  - eapply does_weaken; [apply add_sub_does; exact Fx|]. cbv beta. cbn [addsub_harm]. intros x' ->. left. exists a. split; [reflexivity|exact Hx].
  - eapply does_weaken; [apply mul_does; exact Fx|]. cbv beta. intros x' [->|(r & E & -> & L & Nx & Ny)].
    + left. exists a. split; [left; reflexivity|exact Hx].
    + pose proof (mul_value p _ _ _ _ _ Hx Hy E) as R. rewrite (repr_sign _ _ R).
      change (msign x) with (sign (forget x)) in Nx. change (msign y) with (sign (forget y)) in Ny.
      rewrite (repr_sign _ _ Hx) in Nx. rewrite (repr_sign _ _ Hy) in Ny.
      assert (AB : a * b <> 0) by nia.
      left. exists (Z.sgn (a * b) * Z.abs a). split; [right; auto|]. apply (repr_flip (forget x)); [exact Hx|lia|lia].
  - eapply does_weaken; [apply div_harm; eassumption|]. cbv beta. intros x' [->|(a' & M & R & _)].
    + left. exists a. split; [left; reflexivity|exact Hx].
    + left. exists a'. split; [right; exact M|exact R].
  - eapply does_weaken; [apply mod_harm; eassumption|]. cbv beta. intros x' (a' & M & R & _).
    left. exists a'. split; [exact M|exact R].
Qed.

End Harm.
