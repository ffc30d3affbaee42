(** Calls of Int members that may run out of memory: rules, and every member against IntModel.v. *)
From Coq Require Import ZArith List Bool Ascii Lia.
From Verif Require Import Outcome IntModel IntSpec IntProgModel IntMemModel IntMemSpec IntBase IntAddSub IntMulDiv.
Import ListNotations.
Open Scope Z_scope.

(** ** Lengths *)

Lemma vset_length : forall v i x w, vset v i x = Ok w -> length w = length v.
Proof. intros v i x w. unfold vset. destruct (nth_error v i); intros H; inversion H. apply upd_length. Qed.

Lemma vadd_length : forall p v i x w, vadd p v i x = Ok w -> length w = length v.
Proof.
  intros p v i x w. unfold vadd. destruct (nth_error v i).
  - unfold bind. destruct (chk32 (z + x)); intros H; inversion H. apply upd_length.
  - destruct p; [discriminate|]. destruct (_ && _); intros H; inversion H; reflexivity.
Qed.

Ltac unbind H :=
  match type of H with
  | bind ?o _ = Ok _ => let E := fresh "E" in destruct o eqn:E; cbn [bind] in H; try discriminate H
  end.

Ltac lengths :=
  repeat match goal with
  | H : vset _ _ _ = Ok _ |- _ => apply vset_length in H
  | H : vadd _ _ _ _ = Ok _ |- _ => apply vadd_length in H
  end.

Lemma add_loop_length : forall p n i a b w, add_loop p n i a b = Ok w -> length w = length a.
Proof.
  induction n as [|n IH]; intros i a b w; cbn [add_loop]; intros H.
  - inversion H. reflexivity.
  - repeat unbind H. apply IH in H. lengths. congruence.
Qed.
Lemma add_loop_self_length : forall p n i a w, add_loop_self p n i a = Ok w -> length w = length a.
Proof.
  induction n as [|n IH]; intros i a w; cbn [add_loop_self]; intros H.
  - inversion H. reflexivity.
  - repeat unbind H. apply IH in H. lengths. congruence.
Qed.
Lemma add_carry_length : forall p n i a w, add_carry p n i a = Ok w -> length w = length a.
Proof.
  induction n as [|n IH]; intros i a w; cbn [add_carry]; intros H.
  - inversion H. reflexivity.
  - unbind H. destruct (a0 >=? BASE); [|inversion H; reflexivity].
    repeat unbind H. apply IH in H. lengths. congruence.
Qed.
Lemma sub_loop_length : forall p n i a b w, sub_loop p n i a b = Ok w -> length w = length a.
Proof.
  induction n as [|n IH]; intros i a b w; cbn [sub_loop]; intros H.
  - inversion H. reflexivity.
  - repeat unbind H. apply IH in H. lengths. congruence.
Qed.
Lemma sub_borrow_length : forall p n i a w, sub_borrow p n i a = Ok w -> length w = length a.
Proof.
  induction n as [|n IH]; intros i a w; cbn [sub_borrow]; intros H.
  - inversion H. reflexivity.
  - unbind H. destruct (a0 <? 0); [|inversion H; reflexivity].
    repeat unbind H. apply IH in H. lengths. congruence.
Qed.
Lemma fill_below_length : forall i v d w, fill_below i v d = Ok w -> length w = length v.
Proof.
  induction i as [|i IH]; intros v d w; cbn [fill_below]; intros H.
  - inversion H. reflexivity.
  - unbind H. apply IH in H. lengths. congruence.
Qed.

Lemma skip_zeros_length : forall r, (length (skip_zeros r) <= length r)%nat.
Proof. induction r as [|d r IH]; cbn [skip_zeros]; [lia|]. destruct (d =? 0); cbn [length]; lia. Qed.
Lemma trim_length : forall x, (length (chunks (trim x)) <= length (chunks x))%nat.
Proof. intros x. unfold trim. cbn [chunks]. rewrite rev_length. pose proof (skip_zeros_length (rev (chunks x))) as H. rewrite rev_length in H. exact H. Qed.
Lemma resize_length : forall v n, length (resize v n) = n.
Proof. intros v n. unfold resize. rewrite app_length, firstn_length, repeat_length. lia. Qed.

Lemma abs_inc_length : forall x r, abs_inc x = Ok r -> (length (chunks r) <= length (chunks x) + 1)%nat.
Proof.
  intros x r. unfold abs_inc. intros H. repeat unbind H. inversion H; subst. clear H.
  lengths. repeat match goal with H : fill_below _ _ _ = Ok _ |- _ => apply fill_below_length in H end. rewrite app_length in *. cbn [length] in *.
  pose proof (trim_length (MkInt (sign x) a1)) as T. cbn [chunks] in T. lia.
Qed.
Lemma abs_dec_length : forall x r, abs_dec x = Ok r -> (length (chunks r) <= length (chunks x))%nat.
Proof.
  intros x r. unfold abs_dec. intros H. repeat unbind H. inversion H; subst. clear H.
  lengths. repeat match goal with H : fill_below _ _ _ = Ok _ |- _ => apply fill_below_length in H end.
  pose proof (trim_length (MkInt (sign x) a1)) as T. cbn [chunks] in T. lia.
Qed.
Lemma add_same_length : forall p x y r, add_same p x y = Ok r ->
  (length (chunks r) <= Nat.max (length (chunks x)) (length (chunks y)) + 1)%nat.
Proof.
  intros p x y r. unfold add_same. intros H. repeat unbind H. inversion H; subst. clear H.
  apply add_loop_length in E. apply add_carry_length in E0. rewrite resize_length in E.
  pose proof (trim_length (MkInt (sign x) a0)) as T. cbn [chunks] in T. lia.
Qed.
Lemma add_self_length : forall p x r, int_add_assign_self p x = Ok r ->
  (length (chunks r) <= length (chunks x) + 1)%nat.
Proof.
  intros p x r. unfold int_add_assign_self. destruct (sign x =? 0); intros H; [inversion H; lia|].
  repeat unbind H. inversion H; subst. clear H.
  apply add_loop_self_length in E. apply add_carry_length in E0. rewrite resize_length in E.
  pose proof (trim_length (MkInt (sign x) a0)) as T. cbn [chunks] in T. lia.
Qed.
Lemma sub_same_length : forall p x y r c, abs_cmp x y = Ok c -> sub_same p x y = Ok r ->
  (length (chunks r) <= if (c =? -1)%Z then length (chunks y) else length (chunks x))%nat.
Proof.
  intros p x y r c HC. unfold sub_same. rewrite HC. cbn [bind]. destruct (c =? -1); intros H.
  - repeat unbind H. inversion H; subst. clear H. apply sub_loop_length in E. apply sub_borrow_length in E0.
    pose proof (trim_length (MkInt (- sign x) a0)) as T. cbn [chunks] in T. lia.
  - repeat unbind H. inversion H; subst. clear H. apply sub_loop_length in E. apply sub_borrow_length in E0.
    pose proof (trim_length (MkInt (sign x) a0)) as T. cbn [chunks] in T. lia.
Qed.

(** ** Rules *)

Section Rules.
Variable grow : nat -> nat -> nat.
Variable ok : nat -> bool.
Variable p : policy.

Lemma plenty_nil : forall k, plenty ok k k.
Proof. intros k j H. lia. Qed.
Lemma plenty_app : forall k k1 k2, plenty ok k k1 -> plenty ok k1 k2 -> plenty ok k k2.
Proof. intros k k1 k2 H1 H2 j Hj. destruct (Nat.lt_ge_cases j k1); [apply H1|apply H2]; lia. Qed.
Lemma short_r : forall k k1 k2, (k <= k1)%nat -> short ok k1 k2 -> short ok k k2.
Proof. intros k k1 k2 H (j & Hj & E). exists j. split; [lia|exact E]. Qed.

(** Computations without an object *)
Definition awp {A} (m : am A) (Q : A -> Prop) (F : fault -> Prop) : Prop :=
  forall k, match m k with
  | (MRet a, k') => (k <= k')%nat /\ plenty ok k k' /\ Q a
  | (MFail FBadAlloc, k') => short ok k k'
  | (MFail f, k') => (k <= k')%nat /\ plenty ok k k' /\ F f
  end.

Lemma awp_ret : forall A (a : A) (Q : A -> Prop) F, Q a -> awp (aret a) Q F.
Proof. intros A a Q F H k. cbn. split; [lia|]. split; [apply plenty_nil|exact H]. Qed.
Lemma awp_fail : forall A f (Q : A -> Prop) (F : fault -> Prop), f <> FBadAlloc -> F f -> awp (afail f) Q F.
Proof.
  intros A f Q F N H k. unfold afail. destruct f; [congruence| | |];
  (split; [lia|]; split; [apply plenty_nil|exact H]).
Qed.
Lemma awp_bind : forall A B (m : am A) (f : A -> am B) Q F,
  awp m (fun a => awp (f a) Q F) F -> awp (abind m f) Q F.
Proof.
  intros A B m f Q F H k. unfold abind. specialize (H k). destruct (m k) as [[a|e] k1].
  - destruct H as (L & P & H). specialize (H k1). destruct (f a k1) as [[b|e] k2].
    + destruct H as (L2 & P2 & H). split; [lia|]. split; [exact (plenty_app _ _ _ P P2)|exact H].
    + destruct e; [exact (short_r _ _ _ L H)| | |]; (destruct H as (L2 & P2 & H); split; [lia|];
      split; [exact (plenty_app _ _ _ P P2)|exact H]).
  - exact H.
Qed.
Lemma awp_mono : forall A (m : am A) (Q Q' : A -> Prop) (F F' : fault -> Prop), awp m Q F -> (forall a, Q a -> Q' a) ->
  (forall f, F f -> F' f) -> awp m Q' F'.
Proof.
  intros A m Q Q' F F' H HQ HF k. specialize (H k). destruct (m k) as [[a|e] k1].
  - destruct H as (L & P & H). auto.
  - destruct e; [exact H| | |]; destruct H as (L & P & H); auto.
Qed.
Lemma awp_alloc : forall (Q : unit -> Prop) F, Q tt -> awp (alloc ok) Q F.
Proof.
  intros Q F H k. unfold alloc. destruct (ok k) eqn:E.
  - split; [lia|]. split; [|exact H]. intros j Hj. replace j with k by lia. exact E.
  - exists k. split; [lia|exact E].
Qed.
Lemma awp_lift : forall A (o : outcome A) (Q : A -> Prop) (F : fault -> Prop),
  (forall a, o = Ok a -> Q a) -> (forall f, f <> FBadAlloc -> mirrors f o -> F f) -> awp (alift o) Q F.
Proof.
  intros A [a|e|u|] Q F HQ HF; cbn [alift].
  - apply awp_ret. apply HQ. reflexivity.
  - apply awp_fail; [discriminate|]. apply HF; [discriminate|reflexivity].
  - apply awp_fail; [discriminate|]. apply HF; [discriminate|reflexivity].
  - apply awp_fail; [discriminate|]. apply HF; [discriminate|reflexivity].
Qed.

(** Member functions *)
Definition owp {A} (x : MInt) (m : om A) (Q : A -> MInt -> Prop) (H : MInt -> Prop) (F : fault -> MInt -> Prop) : Prop :=
  forall k, match m (x, k) with
  | (MRet a, (x', k')) => (k <= k')%nat /\ plenty ok k k' /\ Q a x'
  | (MFail FBadAlloc, (x', k')) => short ok k k' /\ H x'
  | (MFail f, (x', k')) => (k <= k')%nat /\ plenty ok k k' /\ F f x'
  end.

Lemma owp_ret : forall A (a : A) x (Q : A -> MInt -> Prop) H F, Q a x -> owp x (oret a) Q H F.
Proof. intros A a x Q H F HQ k. cbn. split; [lia|]. split; [apply plenty_nil|exact HQ]. Qed.
Lemma owp_get : forall x (Q : MInt -> MInt -> Prop) H F, Q x x -> owp x oget Q H F.
Proof. intros x Q H F HQ k. cbn. split; [lia|]. split; [apply plenty_nil|exact HQ]. Qed.
Lemma owp_put : forall x y (Q : unit -> MInt -> Prop) H F, Q tt y -> owp x (oput y) Q H F.
Proof. intros x y Q H F HQ k. cbn. split; [lia|]. split; [apply plenty_nil|exact HQ]. Qed.
Lemma owp_lift : forall A (m : am A) x (Q : A -> MInt -> Prop) (H : MInt -> Prop) F,
  H x -> awp m (fun a => Q a x) (fun f => F f x) -> owp x (olift m) Q H F.
Proof.
  intros A m x Q H F HH HA k. unfold olift. cbn [fst snd]. specialize (HA k). destruct (m k) as [[a|e] k1].
  - exact HA.
  - destruct e; [split; [exact HA|exact HH]|exact HA|exact HA|exact HA].
Qed.
Lemma owp_bind : forall A B (m : om A) (f : A -> om B) x Q H F,
  owp x m (fun a x1 => owp x1 (f a) Q H F) H F -> owp x (obind m f) Q H F.
Proof.
  intros A B m f x Q H F W k. unfold obind. specialize (W k). destruct (m (x, k)) as [[a|e] [x1 k1]].
  - destruct W as (L & P & W). specialize (W k1). destruct (f a (x1, k1)) as [[b|e] [x2 k2]].
    + destruct W as (L2 & P2 & W). split; [lia|]. split; [exact (plenty_app _ _ _ P P2)|exact W].
    + destruct e; [destruct W as [S W]; split; [exact (short_r _ _ _ L S)|exact W]| | |];
      (destruct W as (L2 & P2 & W); split; [lia|]; split; [exact (plenty_app _ _ _ P P2)|exact W]).
  - exact W.
Qed.
Lemma owp_mono : forall A (m : om A) x (Q Q' : A -> MInt -> Prop) (H H' : MInt -> Prop) (F F' : fault -> MInt -> Prop),
  owp x m Q H F -> (forall a x', Q a x' -> Q' a x') -> (forall x', H x' -> H' x') ->
  (forall f x', F f x' -> F' f x') -> owp x m Q' H' F'.
Proof.
  intros A m x Q Q' H H' F F' W HQ HH HF k. specialize (W k). destruct (m (x, k)) as [[a|e] [x1 k1]].
  - destruct W as (L & P & W). auto.
  - destruct e; [destruct W; split; auto| | |]; destruct W as (L & P & W); auto.
Qed.
Lemma awp_local : forall m x (Q : MInt -> Prop) H (F : fault -> Prop),
  owp x m (fun _ x' => Q x') H (fun f _ => F f) -> awp (local m x) Q F.
Proof.
  intros m x Q H F W k. unfold local. specialize (W k). destruct (m (x, k)) as [[a|e] [x1 k1]].
  - exact W.
  - destruct e; [exact (proj1 W)|exact W|exact W|exact W].
Qed.

(** ** Vectors *)

Definition vfits (v : vec) : Prop := (length (items v) <= room v)%nat.

Lemma awp_new : forall l F, awp (v_new ok l) (fun v => items v = l /\ vfits v) F.
Proof.
  intros [|d l] F; unfold v_new.
  - apply awp_ret. split; [reflexivity|]. unfold vfits. cbn. lia.
  - apply awp_bind. apply awp_alloc. apply awp_ret. split; [reflexivity|]. unfold vfits. cbn. lia.
Qed.
Lemma awp_grow : forall v l F, awp (v_grow grow ok v l) (fun v => items v = l /\ vfits v) F.
Proof.
  intros v l F. unfold v_grow. destruct (Nat.leb _ _) eqn:E.
  - apply awp_ret. split; [reflexivity|]. apply Nat.leb_le in E. unfold vfits. cbn. lia.
  - apply awp_bind. apply awp_alloc. apply awp_ret. split; [reflexivity|]. unfold vfits. cbn [items room]. lia.
Qed.
Lemma awp_assign : forall v l F, awp (v_assign ok v l) (fun v => items v = l /\ vfits v) F.
Proof.
  intros v l F. unfold v_assign. destruct (Nat.leb _ _) eqn:E.
  - apply awp_ret. split; [reflexivity|]. apply Nat.leb_le in E. unfold vfits. cbn. lia.
  - apply awp_bind. apply awp_alloc. apply awp_ret. split; [reflexivity|]. unfold vfits. cbn [items room]. lia.
Qed.

(** ** Results: [gives] and [does] as weakest preconditions *)

Lemma gives_awp : forall A B (P : A -> B -> Prop) (m : am A) o,
  awp m (fun a => exists b, o = Ok b /\ P a b) (fun f => mirrors f o) <-> gives ok P m o.
Proof. intros A B P m o. split; intros H; exact H. Qed.

Lemma does_owp : forall x m o (H : MInt -> Prop),
  owp x m (fun _ x' => exists r, o = Ok r /\ is_int x' r) (fun x' => fits x' /\ H x')
    (fun f x' => mirrors f o /\ match f with FThrow _ => x' = x | _ => True end) <-> does ok x m o H.
Proof. intros x m o H. split; intros W; exact W. Qed.

Lemma gives_ret : forall A B (P : A -> B -> Prop) a b, P a b -> gives ok P (aret a) (Ok b).
Proof. intros A B P a b H. apply gives_awp. apply awp_ret. eauto. Qed.
Lemma gives_throw : forall A B (P : A -> B -> Prop) e, gives ok P (afail (FThrow e)) (Throw e).
Proof. intros A B P e. apply gives_awp. apply awp_fail; [discriminate|reflexivity]. Qed.
Lemma gives_fuel : forall A B (P : A -> B -> Prop), gives ok P (afail FFuel) OutOfFuel.
Proof. intros A B P. apply gives_awp. apply awp_fail; [discriminate|reflexivity]. Qed.
Lemma gives_lift : forall A (o : outcome A), gives ok eq (alift o) o.
Proof.
  intros A o. apply gives_awp. apply awp_lift.
  - intros a E. exists a. auto.
  - intros f _ M. exact M.
Qed.
Lemma gives_bind : forall A B A' B' (P : A -> B -> Prop) (R : A' -> B' -> Prop) (m : am A) o f g,
  gives ok P m o -> (forall a b, o = Ok b -> P a b -> gives ok R (f a) (g b)) -> gives ok R (abind m f) (bind o g).
Proof.
  intros A B A' B' P R m o f g H K. apply gives_awp. apply awp_bind. apply gives_awp in H. eapply awp_mono; [exact H| |].
  - intros a (b & E & Pa). rewrite E. cbn [bind]. apply gives_awp. exact (K a b E Pa).
  - intros [|e|u|]; cbn [mirrors]; intros M; [contradiction| | |]; rewrite M; reflexivity.
Qed.
(** An allocating step without a counterpart *)
Lemma gives_pre : forall A A' B' (Q : A -> Prop) (R : A' -> B' -> Prop) (m : am A) o f,
  awp m Q (fun _ => False) -> (forall a, Q a -> gives ok R (f a) o) -> gives ok R (abind m f) o.
Proof.
  intros A A' B' Q R m o f H K. apply gives_awp. apply awp_bind. eapply awp_mono; [exact H| |].
  - intros a Qa. apply gives_awp. exact (K a Qa).
  - intros f0 [].
Qed.
Lemma gives_local : forall x m o H, does ok x m o H -> gives ok is_int (local m x) o.
Proof.
  intros x m o H D. apply gives_awp. apply does_owp in D. eapply awp_local. eapply owp_mono; [exact D| | |]; cbn beta.
  - auto.
  - intros x' W. exact W.
  - intros f x' (M & _). exact M.
Qed.
Lemma gives_awp_ok : forall A B (P : A -> B -> Prop) (m : am A) b, gives ok P m (Ok b) -> awp m (fun a => P a b) (fun _ => False).
Proof.
  intros A B P m b H. apply gives_awp in H. eapply awp_mono; [exact H| |].
  - intros a (b' & E & Pa). inversion E; subst. exact Pa.
  - intros [|e|u|]; cbn [mirrors]; intros M; [contradiction| | |]; discriminate M.
Qed.

End Rules.
