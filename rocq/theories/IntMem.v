(** Every member of Int on a machine whose memory may run out, against IntModel.v. *)
From Coq Require Import ZArith List Bool Ascii Lia.
From Verif Require Import Outcome IntModel IntSpec IntProgModel IntMemModel IntMemSpec IntBase IntAddSub IntMulDiv IntMemFacts.
Import ListNotations.
Open Scope Z_scope.

(** ** The digit loops throw nothing *)

Definition calm {A} (o : outcome A) : Prop := forall e, o <> Throw e.
Lemma calm_ok : forall A (a : A), calm (Ok a). Proof. intros A a e. discriminate. Qed.
Lemma calm_ub : forall A u, calm (@UB A u). Proof. intros A a e. discriminate. Qed.
Lemma calm_fuel : forall A, calm (@OutOfFuel A). Proof. intros A e. discriminate. Qed.
Lemma calm_bind : forall A B (o : outcome A) (f : A -> outcome B), calm o -> (forall a, calm (f a)) -> calm (bind o f).
Proof. intros A B [a|e|u|] f H K; cbn [bind]; [apply K|destruct (H e); reflexivity|apply calm_ub|apply calm_fuel]. Qed.
Lemma calm_get : forall v i, calm (vget v i).
Proof. intros v i. unfold vget. destruct (nth_error v i); [apply calm_ok|apply calm_ub]. Qed.
Lemma calm_set : forall v i x, calm (vset v i x).
Proof. intros v i x. unfold vset. destruct (nth_error v i); [apply calm_ok|apply calm_ub]. Qed.
Lemma calm_chk : forall z, calm (chk32 z).
Proof. intros z. unfold chk32. match goal with |- context [if ?b then _ else _] => destruct b end; [apply calm_ok|apply calm_ub]. Qed.
Lemma calm_add : forall p v i x, calm (vadd p v i x).
Proof.
  intros p v i x. unfold vadd. destruct (nth_error v i).
  - apply calm_bind; [apply calm_chk|intros a; apply calm_ok].
  - destruct p; [apply calm_ub|]. destruct (_ && _); [apply calm_ok|apply calm_ub].
Qed.
Create HintDb calm.
#[local] Hint Resolve calm_ok calm_ub calm_fuel calm_get calm_set calm_chk calm_add : calm.
Ltac calmly :=
  repeat match goal with
  | |- calm (bind _ _) => apply calm_bind; [|intros ?]
  | |- calm (if ?b then _ else _) => destruct b
  | |- calm _ => auto with calm
  end.

Lemma calm_scan : forall f v d i, calm (scan_eq f v d i).
Proof. induction f as [|f IH]; intros v d i; cbn [scan_eq]; calmly. Qed.
Lemma calm_fill : forall i v d, calm (fill_below i v d).
Proof. induction i as [|i IH]; intros v d; cbn [fill_below]; calmly. Qed.
#[local] Hint Resolve calm_scan calm_fill : calm.
Lemma calm_abs_inc : forall x, calm (abs_inc x).
Proof. intros x. unfold abs_inc. cbv zeta. calmly. Qed.
Lemma calm_abs_dec : forall x, calm (abs_dec x).
Proof. intros x. unfold abs_dec. cbv zeta. calmly. Qed.
Lemma calm_add_loop : forall p n i a b, calm (add_loop p n i a b).
Proof. induction n as [|n IH]; intros i a b; cbn [add_loop]; calmly. Qed.
Lemma calm_add_loop_self : forall p n i a, calm (add_loop_self p n i a).
Proof. induction n as [|n IH]; intros i a; cbn [add_loop_self]; calmly. Qed.
Lemma calm_add_carry : forall p n i a, calm (add_carry p n i a).
Proof. induction n as [|n IH]; intros i a; cbn [add_carry]; calmly. Qed.
Lemma calm_cycle : forall a b, calm (cycle_mod a b).
Proof. intros a b. unfold cycle_mod. calmly. Qed.
#[local] Hint Resolve calm_cycle calm_add_loop calm_add_loop_self calm_add_carry : calm.
Lemma calm_sub_loop : forall p n i a b, calm (sub_loop p n i a b).
Proof. induction n as [|n IH]; intros i a b; cbn [sub_loop]; calmly. Qed.
Lemma calm_sub_borrow : forall p n i a, calm (sub_borrow p n i a).
Proof. induction n as [|n IH]; intros i a; cbn [sub_borrow]; calmly. Qed.
Lemma calm_cmp_loop : forall n a b, calm (abs_cmp_loop n a b).
Proof. induction n as [|n IH]; intros a b; cbn [abs_cmp_loop]; calmly. Qed.
#[local] Hint Resolve calm_sub_loop calm_sub_borrow calm_cmp_loop : calm.
Lemma calm_abs_cmp : forall x y, calm (abs_cmp x y).
Proof. intros x y. unfold abs_cmp. cbv zeta. calmly. Qed.
#[local] Hint Resolve calm_abs_cmp : calm.
Lemma calm_add_same : forall p x y, calm (add_same p x y).
Proof. intros p x y. unfold add_same. cbv zeta. calmly. Qed.
Lemma calm_sub_same : forall p x y, calm (sub_same p x y).
Proof. intros p x y. unfold sub_same. apply calm_bind; [auto with calm|]. intros c. destruct (c =? -1); calmly. Qed.
Lemma calm_add_self : forall p x, calm (int_add_assign_self p x).
Proof. intros p x. unfold int_add_assign_self. cbv zeta. calmly. Qed.
Lemma calm_cmp : forall x y, calm (int_cmp x y).
Proof. intros x y. unfold int_cmp. calmly. Qed.
Lemma calm_ge : forall x y, calm (int_ge x y).
Proof. intros x y. unfold int_ge. apply calm_bind; [apply calm_cmp|intros; apply calm_ok]. Qed.
Lemma calm_mul_inner : forall p n i j ai b c, calm (mul_inner p n i j ai b c).
Proof. induction n as [|n IH]; intros i j ai b c; cbn [mul_inner]; calmly. Qed.
#[local] Hint Resolve calm_mul_inner : calm.
Lemma calm_mul_outer : forall p n i a b c, calm (mul_outer p n i a b c).
Proof. induction n as [|n IH]; intros i a b c; cbn [mul_outer]; calmly. Qed.
#[local] Hint Resolve calm_mul_outer : calm.
Lemma calm_push : forall f n acc, calm (push_digits f n acc).
Proof. induction f as [|f IH]; intros n acc; cbn [push_digits]; calmly. Qed.
#[local] Hint Resolve calm_push : calm.
Lemma calm_of_int : forall n, calm (int_of_int n).
Proof. intros n. unfold int_of_int. cbv zeta. apply calm_bind; [apply calm_chk|]. intros a. apply calm_bind; [apply calm_push|]. intros c. apply calm_ok. Qed.
Lemma calm_mul : forall p x y, calm (int_mul_assign p x y).
Proof. intros p x y. unfold int_mul_assign. cbv zeta. destruct (_ || _); [apply calm_of_int|]. calmly. Qed.
Lemma calm_digits : forall x, calm (int_digits x).
Proof. intros x. unfold int_digits. destruct (chunks x); calmly. Qed.
Lemma calm_erase : forall v, calm (erase_first v).
Proof. intros [|d v]; cbn [erase_first]; calmly. Qed.

(** ** Members *)

Section Members.
Variable grow : nat -> nat -> nat.
Variable ok : nat -> bool.
Variable p : policy.

Lemma mirrors_bind : forall A B f (o : outcome A) (g : A -> outcome B), mirrors f o -> mirrors f (bind o g).
Proof. intros A B [|e|u|] o g; cbn [mirrors]; [auto| | |]; intros ->; reflexivity. Qed.
Lemma mirrors_calm : forall A f (o : outcome A) (P : Prop), calm o -> mirrors f o -> match f with FThrow _ => P | _ => True end.
Proof. intros A [|e|u|] o P C M; auto. destruct (C e M). Qed.

Lemma fits_with : forall r n, (length (chunks r) <= n)%nat -> fits (with_room r n).
Proof. intros r n H. exact H. Qed.
Lemma forget_with : forall r n, forget (with_room r n) = r.
Proof. intros [s c] n. reflexivity. Qed.
Lemma is_int_with : forall r n, (length (chunks r) <= n)%nat -> is_int (with_room r n) r.
Proof. intros r n H. split; [apply forget_with|exact H]. Qed.
Lemma is_int_self : forall x, fits x -> is_int x (forget x).
Proof. intros x H. split; [reflexivity|exact H]. Qed.
Lemma is_int_zero : is_int mzero (MkInt 0 []).
Proof. split; [reflexivity|]. unfold fits. cbn. lia. Qed.

Lemma copy_gives : forall x, gives ok is_int (m_copy ok x) (Ok (forget x)).
Proof.
  intros x. unfold m_copy. apply gives_pre with (Q := fun v => items v = items (mvec x) /\ vfits v).
  - apply awp_new.
  - intros v [E V]. apply gives_ret. split; [unfold forget; cbn; rewrite E; reflexivity|exact V].
Qed.
Lemma neg_gives : forall x, gives ok is_int (m_neg ok x) (Ok (int_neg (forget x))).
Proof.
  intros x. unfold m_neg. apply gives_pre with (Q := fun y => is_int y (forget x)).
  - apply gives_awp_ok. apply copy_gives.
  - intros y [E V]. apply gives_ret. split; [unfold forget in *; cbn; unfold int_neg; inversion E; cbn; congruence|exact V].
Qed.
Lemma abs_gives : forall x, gives ok is_int (m_abs ok x) (Ok (int_abs (forget x))).
Proof.
  intros x. unfold m_abs, int_abs. change (sign (forget x)) with (msign x).
  destruct (msign x =? -1); [apply neg_gives|apply copy_gives].
Qed.

Lemma push_gives : forall f n v, vfits v ->
  gives ok (fun v l => items v = l /\ vfits v) (m_push_digits grow ok f n v) (push_digits f n (items v)).
Proof.
  induction f as [|f IH]; intros n v V; cbn [m_push_digits push_digits]; [apply gives_fuel|].
  destruct (n >? 0); [|apply gives_ret; auto].
  apply gives_pre with (Q := fun v' => items v' = items v ++ [Z.rem n BASE] /\ vfits v'); [apply awp_grow|].
  intros v' [E V']. rewrite <- E. apply IH. exact V'.
Qed.
Lemma of_int_gives : forall n, gives ok is_int (m_of_int grow ok n) (int_of_int n).
Proof.
  intros n. unfold m_of_int, int_of_int. cbv zeta. eapply gives_bind; [apply gives_lift|].
  intros a b _ ->. eapply gives_bind; [apply (push_gives 11 b (Vec [] 0)); unfold vfits; cbn; lia|].
  intros v l _ [E V]. apply gives_ret. split; [unfold forget; cbn; rewrite E; reflexivity|exact V].
Qed.

Lemma fill_chunks_length : forall ds i total chunk idx v w, fill_chunks ds i total chunk idx v = Ok w -> length w = length v.
Proof.
  induction ds as [|d ds IH]; intros i total chunk idx v w; cbn [fill_chunks]; intros H; [inversion H; reflexivity|].
  destruct (_ =? _); [|exact (IH _ _ _ _ _ _ H)].
  unbind H. apply IH in H. apply vset_length in E. congruence.
Qed.
Lemma of_chars_gives : forall cs, gives ok is_int (m_of_chars grow ok cs) (int_of_chars cs).
Proof.
  intros cs. unfold m_of_chars. cbv zeta. destruct (negb (is_integer cs)) eqn:B.
  - unfold int_of_chars. rewrite B. apply gives_throw.
  - eapply gives_pre; [apply awp_grow|]. intros v [E V]. cbv beta in *.
    replace (int_of_chars cs) with (bind (int_of_chars cs) Ok) at 2 by (destruct (int_of_chars cs); reflexivity).
    eapply gives_bind; [apply gives_lift|]. intros a r Hr ->. apply gives_ret. apply is_int_with.
    unfold vfits in V. rewrite E, resize_length in V.
    unfold int_of_chars in Hr. rewrite B in Hr. destruct cs as [|c cs]; [discriminate|]. cbv zeta in Hr. unbind Hr.
    inversion Hr; subst. clear Hr. apply fill_chunks_length in E0. rewrite repeat_length in E0.
    pose proof (trim_length (MkInt (if code c =? 45 then -1 else 1) a)) as T. cbn [chunks] in T. lia.
Qed.

(** Copy assignment: a failure leaves the new sign with the old digits. *)
Lemma assign_copy_does : forall x that, fits x ->
  does ok x (m_assign_copy ok that) (Ok (forget that))
    (fun x' => x' = MI (msign that) (mvec x) /\ (room (mvec x) < length (items (mvec that)))%nat).
Proof.
  intros x that Fx. apply does_owp. unfold m_assign_copy. apply owp_bind, owp_get, owp_bind, owp_put, owp_bind.
  unfold v_assign. destruct (Nat.leb _ _) eqn:L.
  - apply Nat.leb_le in L. intros k. cbn. split; [lia|]. split; [apply plenty_nil|].
    intros k'. cbn. split; [lia|]. split; [apply plenty_nil|]. eexists. split; [reflexivity|]. split; [reflexivity|exact L].
  - apply Nat.leb_gt in L. apply owp_lift.
    + split; [exact Fx|]. split; [reflexivity|exact L].
    + apply awp_bind, awp_alloc, awp_ret. apply owp_put. eexists. split; [reflexivity|]. split; [reflexivity|].
      unfold fits. cbn. lia.
Qed.

Ltac quiet_lift C := apply awp_lift; [|intros f Nf Mf; split; [try exact Mf; try (apply mirrors_bind; exact Mf)|eapply mirrors_calm; [apply C|exact Mf]]].

Lemma abs_inc_does : forall x, fits x -> does ok x (m_abs_inc grow ok) (abs_inc (forget x)) (fun x' => x' = x).
Proof.
  intros x Fx. apply does_owp. unfold m_abs_inc. apply owp_bind, owp_get, owp_bind, owp_lift; [auto|].
  eapply awp_mono; [apply awp_grow with (F := fun _ => False)| |intros ? []].
  cbv beta. intros v [E V]. apply owp_bind, owp_put, owp_bind.
  assert (L : forall r, abs_inc (forget x) = Ok r -> (length (chunks r) <= room v)%nat).
  { intros r Hr. apply abs_inc_length in Hr. unfold vfits in V. rewrite E, app_length in V. cbn [length] in V. unfold forget in Hr. cbn [chunks] in Hr. lia. }
  intros k. unfold olift. cbn [fst snd].
  pose proof (calm_abs_inc (forget x)) as C. destruct (abs_inc (forget x)) as [r|e|u|]; cbn [alift aret afail].
  - split; [lia|]. split; [apply plenty_nil|]. apply owp_put. exists r. split; [reflexivity|]. apply is_int_with. auto.
  - destruct (C e eq_refl).
  - split; [lia|]. split; [apply plenty_nil|]. split; [reflexivity|exact Logic.I].
  - split; [lia|]. split; [apply plenty_nil|]. split; [reflexivity|exact Logic.I].
Qed.

(** The last step of a member: a digit loop whose result replaces [*this]. *)
Lemma finish_owp : forall x x0 o n (H : MInt -> Prop), calm o ->
  (forall r, o = Ok r -> (length (chunks r) <= n)%nat) ->
  owp ok x (obind (olift (alift o)) (fun r => oput (with_room r n)))
    (fun _ x' => exists r, o = Ok r /\ is_int x' r) H
    (fun f x' => mirrors f o /\ match f with FThrow _ => x' = x0 | _ => True end).
Proof.
  intros x x0 o n H C L. apply owp_bind. intros k. unfold olift. cbn [fst snd].
  destruct o as [r|e|u|]; cbn [alift aret afail].
  - split; [lia|]. split; [apply plenty_nil|]. apply owp_put. exists r. split; [reflexivity|]. apply is_int_with. auto.
  - destruct (C e eq_refl).
  - split; [lia|]. split; [apply plenty_nil|]. split; [reflexivity|exact Logic.I].
  - split; [lia|]. split; [apply plenty_nil|]. split; [reflexivity|exact Logic.I].
Qed.

Lemma abs_dec_does : forall x, fits x -> does ok x m_abs_dec (abs_dec (forget x)) (fun _ => False).
Proof.
  intros x Fx. apply does_owp. unfold m_abs_dec. apply owp_bind, owp_get. apply finish_owp; [apply calm_abs_dec|].
  intros r Hr. apply abs_dec_length in Hr. unfold fits in Fx. unfold forget in Hr. cbn [chunks] in Hr. lia.
Qed.

Lemma grow_then : forall x v l (f : vec -> om unit) o (H : MInt -> Prop), fits x -> H x ->
  (forall v', items v' = l -> vfits v' -> owp ok x (f v') (fun _ x' => exists r, o = Ok r /\ is_int x' r)
     (fun x' => fits x' /\ H x') (fun f x' => mirrors f o /\ match f with FThrow _ => x' = x | _ => True end)) ->
  owp ok x (obind (olift (v_grow grow ok v l)) f) (fun _ x' => exists r, o = Ok r /\ is_int x' r)
     (fun x' => fits x' /\ H x') (fun f x' => mirrors f o /\ match f with FThrow _ => x' = x | _ => True end).
Proof.
  intros x v l f o H Fx Hx K. apply owp_bind, owp_lift; [auto|].
  eapply awp_mono; [apply awp_grow with (F := fun _ => False)| |intros ? []].
  intros v' [E V]. apply K; assumption.
Qed.

Lemma add_same_does : forall x that, fits x ->
  does ok x (m_add_same grow ok p that) (add_same p (forget x) (forget that)) (fun x' => x' = x).
Proof.
  intros x that Fx. apply does_owp. unfold m_add_same. apply owp_bind, owp_get. unfold v_resize.
  apply grow_then; [exact Fx|reflexivity|]. intros v E V. apply owp_bind, owp_put. apply finish_owp; [apply calm_add_same|].
  intros r Hr. apply add_same_length in Hr. unfold vfits in V. rewrite E, resize_length in V. unfold forget in Hr. cbn [chunks] in Hr. lia.
Qed.
Lemma add_self_does : forall x, fits x ->
  does ok x (m_add_assign_self grow ok p) (int_add_assign_self p (forget x)) (fun x' => x' = x).
Proof.
  intros x Fx. apply does_owp. unfold m_add_assign_self. apply owp_bind, owp_get.
  destruct (msign x =? 0) eqn:Z0.
  - apply owp_ret. exists (forget x). split; [unfold int_add_assign_self; change (sign (forget x)) with (msign x); rewrite Z0; reflexivity|].
    apply is_int_self. exact Fx.
  - unfold v_resize. apply grow_then; [exact Fx|reflexivity|]. intros v E V. apply owp_bind, owp_put. apply finish_owp; [apply calm_add_self|].
    intros r Hr. apply add_self_length in Hr. unfold vfits in V. rewrite E, resize_length in V. unfold forget in Hr. cbn [chunks] in Hr. lia.
Qed.
Lemma sub_same_does : forall x that, fits x ->
  does ok x (m_sub_same ok p that) (sub_same p (forget x) (forget that)) (fun x' => x' = x).
Proof.
  intros x that Fx. apply does_owp. unfold m_sub_same. apply owp_bind, owp_get, owp_bind, owp_lift; [auto|].
  eapply awp_mono; [apply awp_new with (F := fun _ => False)| |intros ? []].
  cbv beta. intros b [E V]. apply owp_bind, owp_lift; [auto|]. apply awp_lift.
  - intros c Hc. apply finish_owp; [apply calm_sub_same|].
    intros r Hr. pose proof (sub_same_length _ _ _ _ _ Hc Hr) as L. unfold forget in L. cbn [chunks] in L.
    unfold fits in Fx. unfold vfits in V. rewrite E in V. destruct (c =? -1); lia.
  - intros f _ M. split; [apply mirrors_bind; exact M|]. eapply mirrors_calm; [|exact M]. apply calm_abs_cmp.
Qed.

(** What [+=] and [-=] leave behind when memory runs out. *)
Definition addsub_harm (minus : bool) (x that x' : MInt) : Prop :=
  if minus then x' = x
  else (msign x <> 0 /\ x' = x) \/
       (msign x = 0 /\ x' = MI (msign that) (mvec x) /\ (room (mvec x) < length (items (mvec that)))%nat).

Lemma does_weaken : forall x m o (H H' : MInt -> Prop), does ok x m o H -> (forall x', H x' -> H' x') -> does ok x m o H'.
Proof.
  intros x m o H H' D K. apply does_owp in D. apply does_owp. eapply owp_mono; [exact D| | |]; cbv beta; auto.
  intros x' []; auto.
Qed.

Lemma after_neg : forall x that o (H : MInt -> Prop) m, fits x -> H x ->
  (forall t, is_int t (int_neg (forget that)) -> does ok x (m t) o H) ->
  does ok x (obind (olift (m_neg ok that)) m) o H.
Proof.
  intros x that o H m Fx Hx K. apply does_owp. apply owp_bind, owp_lift; [auto|].
  pose proof (gives_awp_ok _ _ _ _ _ _ (neg_gives that)) as W.
  eapply awp_mono; [exact W| |intros ? []]. intros t T. specialize (K t T). apply does_owp in K. exact K.
Qed.

Lemma add_sub_does : forall d minus x that, fits x ->
  does ok x (m_add_sub grow ok p d minus that) (add_sub p d minus (forget x) (forget that)) (addsub_harm minus x that).
Proof.
  induction d as [|d IH]; intros minus x that Fx.
  - intros k. cbn. split; [lia|]. split; [apply plenty_nil|]. split; [reflexivity|exact Logic.I].
  - apply does_owp. cbn [m_add_sub]. apply owp_bind, owp_get. apply does_owp.
    cbn [add_sub]. change (sign (forget x)) with (msign x). change (sign (forget that)) with (msign that).
    destruct minus.
    + destruct ((msign x =? 0) || (msign that =? 0)) eqn:B.
      * destruct (msign x =? 0) eqn:Z0.
        -- apply after_neg; [exact Fx|reflexivity|]. intros t T. intros k. cbn. split; [lia|]. split; [apply plenty_nil|]. eauto.
        -- intros k. cbn. split; [lia|]. split; [apply plenty_nil|]. exists (forget x). split; [reflexivity|apply is_int_self; exact Fx].
      * apply orb_false_iff in B. destruct B as [Bx Bt]. apply Z.eqb_neq in Bx.
        destruct (negb (msign x =? msign that)).
        -- apply after_neg; [exact Fx|reflexivity|]. intros t [T1 T2]. rewrite <- T1.
           eapply does_weaken; [apply IH; assumption|]. intros x' [[_ E]|[E _]]; [exact E|congruence].
        -- apply sub_same_does. exact Fx.
    + destruct ((msign x =? 0) || (msign that =? 0)) eqn:B.
      * destruct (msign x =? 0) eqn:Z0.
        -- apply Z.eqb_eq in Z0. eapply does_weaken; [apply assign_copy_does; exact Fx|]. intros x' [E L]. right. auto.
        -- intros k. cbn. split; [lia|]. split; [apply plenty_nil|]. exists (forget x). split; [reflexivity|apply is_int_self; exact Fx].
      * apply orb_false_iff in B. destruct B as [Bx Bt]. apply Z.eqb_neq in Bx.
        destruct (negb (msign x =? msign that)).
        -- apply after_neg; [exact Fx|left; auto|]. intros t [T1 T2]. rewrite <- T1.
           eapply does_weaken; [apply IH; assumption|]. intros x' E. left. auto.
        -- eapply does_weaken; [apply add_same_does; exact Fx|]. intros x' E. left. auto.
Qed.

Lemma mul_does : forall x that, fits x ->
  does ok x (m_mul_assign ok p that) (int_mul_assign p (forget x) (forget that))
    (fun x' => x' = x \/ exists r, int_mul_assign p (forget x) (forget that) = Ok r /\
       x' = MI (sign r) (mvec x) /\ (room (mvec x) < length (chunks r))%nat /\ msign x <> 0 /\ msign that <> 0).
Proof.
  intros x that Fx. apply does_owp. unfold m_mul_assign. apply owp_bind, owp_get.
  destruct ((msign x =? 0) || (msign that =? 0)) eqn:B.
  - apply owp_put. exists (MkInt 0 []). split; [|apply is_int_zero].
    unfold int_mul_assign. change (sign (forget x)) with (msign x). change (sign (forget that)) with (msign that). rewrite B. reflexivity.
  - apply orb_false_iff in B. destruct B as [Bx Bt]. apply Z.eqb_neq in Bx, Bt.
    apply owp_bind, owp_lift; [auto|]. eapply awp_mono; [apply awp_new with (F := fun _ => False)| |intros ? []].
    intros v _. apply owp_bind, owp_lift; [auto|]. eapply awp_mono; [apply awp_new with (F := fun _ => False)| |intros ? []].
    intros c _. apply owp_bind, owp_lift; [auto|]. apply awp_lift.
    + intros r Hr. pose proof (assign_copy_does x (with_room r (room c)) Fx) as D. apply does_owp in D.
      eapply owp_mono; [exact D| | |]; cbv beta.
      * intros _ x' (r' & E & I'). rewrite forget_with in E. inversion E; subst. exists r'. auto.
      * intros x' (F' & E & L). split; [exact F'|]. right. exists r. auto.
      * intros f x' [M _]. destruct f; cbn in M; [contradiction| | |]; discriminate M.
    + intros f _ M. split; [exact M|]. eapply mirrors_calm; [|exact M]. apply calm_mul.
Qed.

(** ** Division *)

Lemma calm_add_sub : forall d minus x y, calm (add_sub p d minus x y).
Proof.
  induction d as [|d IH]; intros minus x y; cbn [add_sub]; [apply calm_fuel|].
  destruct minus; (destruct (_ || _); [apply calm_ok|]); (destruct (negb _); [apply IH|]); [apply calm_sub_same|apply calm_add_same].
Qed.

Lemma calm_div_digit : forall f this tmp i r, calm (div_digit p f this tmp i r).
Proof.
  induction f as [|f IH]; intros this tmp i r; cbn [div_digit]; [apply calm_fuel|].
  apply calm_bind; [apply calm_ge|]. intros [|]; [|apply calm_ok].
  apply calm_bind; [apply calm_add|]. intros r1. apply calm_bind; [apply calm_add_sub|]. intros t1. apply IH.
Qed.
Lemma calm_div_loop : forall n this tmp r, calm (div_loop p n this tmp r).
Proof.
  induction n as [|n IH]; intros this tmp r; cbn [div_loop]; [apply calm_ok|].
  apply calm_bind; [apply calm_erase|]. intros tc. cbv zeta. apply calm_bind; [apply calm_div_digit|]. intros tr. apply IH.
Qed.
Lemma calm_mod_digit : forall f this tmp, calm (mod_digit p f this tmp).
Proof.
  induction f as [|f IH]; intros this tmp; cbn [mod_digit]; [apply calm_fuel|].
  apply calm_bind; [apply calm_ge|]. intros [|]; [|apply calm_ok].
  apply calm_bind; [apply calm_add_sub|]. intros t1. apply IH.
Qed.
Lemma calm_mod_loop : forall n this tmp, calm (mod_loop p n this tmp).
Proof.
  induction n as [|n IH]; intros this tmp; cbn [mod_loop]; [apply calm_ok|].
  apply calm_bind; [apply calm_erase|]. intros tc. cbv zeta. apply calm_bind; [apply calm_mod_digit|]. intros tr. apply IH.
Qed.

Section Loops.
(** An invariant of [*this] in the loop, and what is known of [tmp] with [n] rounds left. *)
Variable I : MInt -> Prop.
Variable T : nat -> Int -> Prop.
Hypothesis erased : forall n t tc, T (S n) t -> erase_first (chunks t) = Ok tc -> T n (MkInt (sign t) tc).
Hypothesis subtracted : forall n x t, I x -> T n t -> fits x -> int_ge (forget x) t = Ok true ->
  owp ok x (m_sub_assign grow ok p (with_room t 0))
    (fun _ x' => I x' /\ fits x' /\ int_sub_assign p (forget x) t = Ok (forget x'))
    (fun x' => fits x' /\ I x') (fun f _ => mirrors f (int_sub_assign p (forget x) t)).

Lemma div_digit_owp : forall n f x t i r, I x -> T n t -> fits x ->
  owp ok x (m_div_digit grow ok p f t i r)
    (fun r' x' => I x' /\ fits x' /\ div_digit p f (forget x) t i r = Ok (forget x', r'))
    (fun x' => fits x' /\ I x') (fun g _ => mirrors g (div_digit p f (forget x) t i r)).
Proof.
  intros n. induction f as [|f IH]; intros x t i r Ix Tt Fx; cbn [m_div_digit div_digit].
  - intros k. cbn. split; [lia|]. split; [apply plenty_nil|reflexivity].
  - apply owp_bind, owp_get, owp_bind, owp_lift; [auto|]. apply awp_lift; [|intros g _ M; apply mirrors_bind; exact M].
    intros [|] G; rewrite G; cbn [bind]; [|apply owp_ret; auto].
    apply owp_bind, owp_lift; [auto|]. apply awp_lift; [|intros g _ M; apply mirrors_bind; exact M].
    intros r1 R1. rewrite R1. cbn [bind]. apply owp_bind.
    eapply owp_mono; [exact (subtracted n x t Ix Tt Fx G)| | |]; cbv beta.
    + intros _ x' (Ix' & Fx' & S'). rewrite S'. cbn [bind]. apply IH; assumption.
    + auto.
    + intros g x' M. apply mirrors_bind. exact M.
Qed.
Lemma div_loop_owp : forall n x t r, I x -> T n t -> fits x ->
  owp ok x (m_div_loop grow ok p n t r)
    (fun r' x' => I x' /\ fits x' /\ div_loop p n (forget x) t r = Ok (forget x', r'))
    (fun x' => fits x' /\ I x') (fun g _ => mirrors g (div_loop p n (forget x) t r)).
Proof.
  induction n as [|n IH]; intros x t r Ix Tt Fx; cbn [m_div_loop div_loop].
  - apply owp_ret. auto.
  - apply owp_bind, owp_lift; [auto|]. apply awp_lift; [|intros g _ M; apply mirrors_bind; exact M].
    intros tc E. rewrite E. cbn [bind]. pose proof (erased n t tc Tt E) as T'. apply owp_bind.
    eapply owp_mono; [exact (div_digit_owp n 10 x (MkInt (sign t) tc) n r Ix T' Fx)| | |]; cbv beta.
    + intros r' x' (Ix' & Fx' & D). rewrite D. cbn [bind fst snd]. apply IH; assumption.
    + auto.
    + intros g x' M. apply mirrors_bind. exact M.
Qed.
Lemma mod_digit_owp : forall n f x t, I x -> T n t -> fits x ->
  owp ok x (m_mod_digit grow ok p f t)
    (fun _ x' => I x' /\ fits x' /\ mod_digit p f (forget x) t = Ok (forget x'))
    (fun x' => fits x' /\ I x') (fun g _ => mirrors g (mod_digit p f (forget x) t)).
Proof.
  intros n. induction f as [|f IH]; intros x t Ix Tt Fx; cbn [m_mod_digit mod_digit].
  - intros k. cbn. split; [lia|]. split; [apply plenty_nil|reflexivity].
  - apply owp_bind, owp_get, owp_bind, owp_lift; [auto|]. apply awp_lift; [|intros g _ M; apply mirrors_bind; exact M].
    intros [|] G; rewrite G; cbn [bind]; [|apply owp_ret; auto]. apply owp_bind.
    eapply owp_mono; [exact (subtracted n x t Ix Tt Fx G)| | |]; cbv beta.
    + intros _ x' (Ix' & Fx' & S'). rewrite S'. cbn [bind]. apply IH; assumption.
    + auto.
    + intros g x' M. apply mirrors_bind. exact M.
Qed.
Lemma mod_loop_owp : forall n x t, I x -> T n t -> fits x ->
  owp ok x (m_mod_loop grow ok p n t)
    (fun _ x' => I x' /\ fits x' /\ mod_loop p n (forget x) t = Ok (forget x'))
    (fun x' => fits x' /\ I x') (fun g _ => mirrors g (mod_loop p n (forget x) t)).
Proof.
  induction n as [|n IH]; intros x t Ix Tt Fx; cbn [m_mod_loop mod_loop].
  - apply owp_ret. auto.
  - apply owp_bind, owp_lift; [auto|]. apply awp_lift; [|intros g _ M; apply mirrors_bind; exact M].
    intros tc E. rewrite E. cbn [bind]. pose proof (erased n t tc Tt E) as T'. apply owp_bind.
    eapply owp_mono; [exact (mod_digit_owp n 10 x (MkInt (sign t) tc) Ix T' Fx)| | |]; cbv beta.
    + intros [] x' (Ix' & Fx' & D). rewrite D. cbn [bind fst snd]. apply IH; assumption.
    + auto.
    + intros g x' M. apply mirrors_bind. exact M.
Qed.

Lemma result_of_div : forall x y, result_of (int_div_assign p x y) = bind (check_zero (sign y)) (fun _ => div_core p x y).
Proof. intros x y. unfold int_div_assign. destruct (check_zero (sign y)); cbn; auto. destruct (div_core p x y); reflexivity. Qed.
Lemma result_of_mod : forall x y, result_of (int_mod_assign p x y) = bind (check_zero (sign y)) (fun _ => mod_core p x y).
Proof. intros x y. unfold int_mod_assign. destruct (check_zero (sign y)); cbn; auto. destruct (mod_core p x y); reflexivity. Qed.

(** The size of the quotient loop and its start *)
Definition size_of (x y : MInt) : nat := (length (items (mvec x)) - length (items (mvec y)) + 1)%nat.

Lemma div_does_with : forall x y, fits x ->
  (forall d1 d2, int_digits (forget x) = Ok d1 -> int_digits (forget y) = Ok d2 -> (d1 <? d2) = false -> msign y <> 0 ->
     I (MI 1 (mvec x)) /\ T (size_of x y) (MkInt 1 (repeat 0 (size_of x y) ++ items (mvec y)))) ->
  does ok x (m_div_assign grow ok p y) (result_of (int_div_assign p (forget x) (forget y)))
    (fun x' => x' = x \/ I x' \/ exists x1 r, I x1 /\ fits x1 /\ x' = MI (sign r) (mvec x1) /\
       result_of (int_div_assign p (forget x) (forget y)) = Ok r /\ (room (mvec x1) < length (chunks r))%nat).
Proof.
  intros x y Fx Start. rewrite result_of_div. apply does_owp. unfold m_div_assign.
  change (sign (forget y)) with (msign y).
  apply owp_bind, owp_lift; [auto|]. apply awp_lift; [|intros g _ M; split; [apply mirrors_bind; exact M|destruct g; auto]].
  intros [] CZ. rewrite CZ. cbn [bind]. apply owp_bind, owp_get.
  apply owp_bind, owp_lift; [auto|]. unfold div_core. apply awp_lift; [|intros g _ M; split; [apply mirrors_bind; exact M|eapply mirrors_calm; [|exact M]; apply calm_digits]].
  intros d1 D1. rewrite D1. cbn [bind].
  apply owp_bind, owp_lift; [auto|]. apply awp_lift; [|intros g _ M; split; [apply mirrors_bind; exact M|eapply mirrors_calm; [|exact M]; apply calm_digits]].
  intros d2 D2. rewrite D2. cbn [bind].
  destruct (d1 <? d2) eqn:L.
  - apply owp_put. exists (MkInt 0 []). split; [reflexivity|apply is_int_zero].
  - cbv zeta. fold (size_of x y). change (length (chunks (forget x)) - length (chunks (forget y)) + 1)%nat with (size_of x y).
    apply owp_bind, owp_lift; [auto|]. eapply awp_mono; [apply awp_new with (F := fun _ => False)| |intros ? []]. intros t1 [E1 _].
    apply owp_bind, owp_lift; [auto|]. eapply awp_mono; [apply awp_grow with (F := fun _ => False)| |intros ? []]. intros t2 [E2 _].
    apply owp_bind, owp_lift; [auto|]. eapply awp_mono; [apply awp_grow with (F := fun _ => False)| |intros ? []]. intros r0 [E3 V3].
    apply owp_bind, owp_put. rewrite E1 in E2. rewrite E2.
    assert (NZ : msign y <> 0). { unfold check_zero in CZ. destruct (Z.eqb_spec (msign y) 0); [discriminate|assumption]. }
    destruct (Start d1 d2 D1 D2 L NZ) as [I0 T0].
    assert (R0 : items r0 = repeat 0 (size_of x y)). { rewrite E3. unfold resize. cbn [items]. rewrite firstn_nil. cbn [length app]. f_equal. lia. }
    rewrite R0. apply owp_bind.
    eapply owp_mono; [exact (div_loop_owp (size_of x y) (MI 1 (mvec x)) _ (repeat 0 (size_of x y)) I0 T0 Fx)| | |]; cbv beta.
    + intros r' x1 (I1 & F1 & D). change (forget (MI 1 (mvec x))) with (MkInt 1 (chunks (forget x))) in D.
      change (items (mvec y)) with (chunks (forget y)) in D. rewrite D. cbn [bind snd].
      set (res := m_trim _). pose proof (assign_copy_does x1 res F1) as W. apply does_owp in W.
      assert (FR : forget res = trim (MkInt (if sign (forget x) =? sign (forget y) then 1 else -1) r')).
      { unfold res, m_trim. rewrite forget_with. reflexivity. }
      eapply owp_mono; [exact W| | |]; cbv beta.
      * intros _ x' (r & E & Ir). rewrite FR in E. inversion E; subst. eexists. split; [reflexivity|exact Ir].
      * intros x' (F' & E & R). split; [exact F'|]. right. right. exists x1, (forget res). subst x'.
        split; [exact I1|]. split; [exact F1|]. split; [reflexivity|]. split; [rewrite FR; reflexivity|exact R].
      * intros f x' [M _]. destruct f; cbn in M; [contradiction| | |]; discriminate M.
    + intros x' [F' I']. split; [exact F'|]. auto.
    + intros f x' M. change (forget (MI 1 (mvec x))) with (MkInt 1 (chunks (forget x))) in M.
      change (items (mvec y)) with (chunks (forget y)) in M. split; [apply mirrors_bind; exact M|].
      eapply mirrors_calm; [|exact M]. apply calm_div_loop.
Qed.

Lemma mod_does_with : forall x y, fits x ->
  (forall d1 d2, int_digits (forget x) = Ok d1 -> int_digits (forget y) = Ok d2 -> (d1 <? d2) = false -> msign y <> 0 ->
     I (MI 1 (mvec x)) /\ T (size_of x y) (MkInt 1 (repeat 0 (size_of x y) ++ items (mvec y)))) ->
  does ok x (m_mod_assign grow ok p y) (result_of (int_mod_assign p (forget x) (forget y)))
    (fun x' => (exists d1 d2, int_digits (forget x) = Ok d1 /\ int_digits (forget y) = Ok d2 /\ (d1 <? d2) = false /\ msign y <> 0) /\ I x').
Proof.
  intros x y Fx Start. rewrite result_of_mod. apply does_owp. unfold m_mod_assign.
  change (sign (forget y)) with (msign y).
  assert (None_alloc : forall A (o : outcome A) (f : A -> om unit) x0 Q H F,
    (forall a, o = Ok a -> owp ok x0 (f a) Q H F) -> (forall g, mirrors g o -> g <> FBadAlloc -> F g x0) -> owp ok x0 (obind (olift (alift o)) f) Q H F).
  { intros A o f x0 Q H F K1 K2. apply owp_bind. intros k. unfold olift. cbn [fst snd]. destruct o as [a|e|u|]; cbn [alift aret afail].
    - split; [lia|]. split; [apply plenty_nil|]. apply K1. reflexivity.
    - split; [lia|]. split; [apply plenty_nil|]. apply K2; [reflexivity|discriminate].
    - split; [lia|]. split; [apply plenty_nil|]. apply K2; [reflexivity|discriminate].
    - split; [lia|]. split; [apply plenty_nil|]. apply K2; [reflexivity|discriminate]. }
  apply None_alloc; [|intros g M _; split; [apply mirrors_bind; exact M|destruct g; auto]].
  intros [] CZ. rewrite CZ. cbn [bind]. apply owp_bind, owp_get. unfold mod_core.
  apply None_alloc; [|intros g M _; split; [apply mirrors_bind; exact M|eapply mirrors_calm; [|exact M]; apply calm_digits]].
  intros d1 D1. rewrite D1. cbn [bind].
  apply None_alloc; [|intros g M _; split; [apply mirrors_bind; exact M|eapply mirrors_calm; [|exact M]; apply calm_digits]].
  intros d2 D2. rewrite D2. cbn [bind].
  destruct (d1 <? d2) eqn:L.
  - apply owp_ret. exists (forget x). split; [reflexivity|apply is_int_self; exact Fx].
  - cbv zeta. fold (size_of x y). change (length (chunks (forget x)) - length (chunks (forget y)) + 1)%nat with (size_of x y).
    assert (NZ : msign y <> 0). { unfold check_zero in CZ. destruct (Z.eqb_spec (msign y) 0); [discriminate|assumption]. }
    destruct (Start d1 d2 D1 D2 L NZ) as [I0 T0].
    assert (W0 : exists d0 d3, Ok d1 = Ok d0 /\ Ok d2 = Ok d3 /\ (d0 <? d3) = false /\ msign y <> 0) by (exists d1, d2; auto).
    apply owp_bind, owp_put.
    apply owp_bind, owp_lift; [auto|]. eapply awp_mono; [apply awp_new with (F := fun _ => False)| |intros ? []]. intros t1 [E1 _].
    apply owp_bind, owp_lift; [auto|]. eapply awp_mono; [apply awp_grow with (F := fun _ => False)| |intros ? []]. intros t2 [E2 _].
    rewrite E1 in E2. rewrite E2. apply owp_bind.
    eapply owp_mono; [exact (mod_loop_owp (size_of x y) (MI 1 (mvec x)) _ I0 T0 Fx)| | |]; cbv beta.
    + intros _ x1 (I1 & F1 & D). change (forget (MI 1 (mvec x))) with (MkInt 1 (chunks (forget x))) in D.
      change (items (mvec y)) with (chunks (forget y)) in D. rewrite D. cbn [bind snd].
      apply owp_bind, owp_get, owp_put. eexists. split; [reflexivity|]. unfold m_trim. apply is_int_with.
      pose proof (trim_length (forget x1)) as TL. unfold fits in F1. unfold forget in TL. cbn [chunks] in TL. unfold forget. lia.
    + intros x' [F' I']. auto.
    + intros f x' M. change (forget (MI 1 (mvec x))) with (MkInt 1 (chunks (forget x))) in M.
      change (items (mvec y)) with (chunks (forget y)) in M. split; [apply mirrors_bind; exact M|].
      eapply mirrors_calm; [|exact M]. apply calm_mod_loop.
Qed.
End Loops.

(** Nothing assumed of the operands: results only. *)
Lemma sub_owp : forall x t, fits x ->
  owp ok x (m_sub_assign grow ok p t)
    (fun _ x' => True /\ fits x' /\ int_sub_assign p (forget x) (forget t) = Ok (forget x'))
    (fun x' => fits x' /\ True) (fun f _ => mirrors f (int_sub_assign p (forget x) (forget t))).
Proof.
  intros x t Fx. pose proof (add_sub_does 2 true x t Fx) as D. apply does_owp in D.
  eapply owp_mono; [exact D| | |]; cbv beta.
  - intros _ x' (r & E & [<- F']). auto.
  - intros x' [F' _]. auto.
  - intros f x' [M _]. exact M.
Qed.
Lemma div_does : forall x y, fits x ->
  does ok x (m_div_assign grow ok p y) (result_of (int_div_assign p (forget x) (forget y))) (fun _ => True).
Proof.
  intros x y Fx. eapply does_weaken; [apply (div_does_with (fun _ => True) (fun _ _ => True)); auto|auto].
  intros n x0 t _ _ F0 _. pose proof (sub_owp x0 (with_room t 0) F0) as W. rewrite forget_with in W. exact W.
Qed.
Lemma mod_does : forall x y, fits x ->
  does ok x (m_mod_assign grow ok p y) (result_of (int_mod_assign p (forget x) (forget y))) (fun _ => True).
Proof.
  intros x y Fx. eapply does_weaken; [apply (mod_does_with (fun _ => True) (fun _ _ => True)); auto|auto].
  intros n x0 t _ _ F0 _. pose proof (sub_owp x0 (with_room t 0) F0) as W. rewrite forget_with in W. exact W.
Qed.

(** ** Increment and decrement *)
Definition step_harm (s : Z) (x x' : MInt) : Prop :=
  (msign x <> 0 /\ x' = x) \/ (msign x = 0 /\ x' = MI s (mvec x) /\ (room (mvec x) < length (items (mvec x)) + 1)%nat).

Lemma first_does : forall s x, fits x -> msign x = 0 ->
  does ok x (obind (oput (MI s (mvec x))) (fun _ => obind (olift (v_push grow ok (mvec x) 1)) (fun v => oput (MI s v))))
    (Ok (MkInt s (chunks (forget x) ++ [1]))) (step_harm s x).
Proof.
  intros s x Fx Z0. apply does_owp. apply owp_bind, owp_put, owp_bind. unfold v_push, v_grow.
  destruct (Nat.leb _ _) eqn:L.
  - apply Nat.leb_le in L. intros k. cbn. split; [lia|]. split; [apply plenty_nil|].
    intros k'. cbn. split; [lia|]. split; [apply plenty_nil|]. eexists. split; [reflexivity|]. split; [reflexivity|exact L].
  - apply Nat.leb_gt in L. apply owp_lift.
    + split; [exact Fx|]. right. rewrite app_length in L. auto.
    + apply awp_bind, awp_alloc, awp_ret. apply owp_put. eexists. split; [reflexivity|]. split; [reflexivity|].
      unfold fits. cbn [mvec items room]. lia.
Qed.
Lemma inc_does : forall x, fits x -> does ok x (m_inc grow ok) (int_inc (forget x)) (step_harm 1 x).
Proof.
  intros x Fx. apply does_owp. unfold m_inc. apply owp_bind, owp_get. apply does_owp. unfold int_inc.
  change (sign (forget x)) with (msign x).
  destruct (msign x =? 0) eqn:Z0; [apply Z.eqb_eq in Z0; apply first_does; assumption|apply Z.eqb_neq in Z0].
  destruct (msign x =? 1).
  - eapply does_weaken; [apply abs_inc_does; exact Fx|]. intros x' E. left. auto.
  - eapply does_weaken; [apply abs_dec_does; exact Fx|]. intros x' [].
Qed.
Lemma dec_does : forall x, fits x -> does ok x (m_dec grow ok) (int_dec (forget x)) (step_harm (-1) x).
Proof.
  intros x Fx. apply does_owp. unfold m_dec. apply owp_bind, owp_get. apply does_owp. unfold int_dec.
  change (sign (forget x)) with (msign x).
  destruct (msign x =? 0) eqn:Z0; [apply Z.eqb_eq in Z0; apply first_does; assumption|apply Z.eqb_neq in Z0].
  destruct (msign x =? 1).
  - eapply does_weaken; [apply abs_dec_does; exact Fx|]. intros x' [].
  - eapply does_weaken; [apply abs_inc_does; exact Fx|]. intros x' E. left. auto.
Qed.

(** ** Compound operators, and the binary operators built on them *)
Lemma compound_does : forall o same x y, fits x ->
  does ok x (m_compound grow ok p o same y) (compound p o same (forget x) (forget y)) (fun _ => True).
Proof.
  intros o same x y Fx. destruct o; cbn [m_compound compound].
  - destruct same; eapply does_weaken; [apply add_self_does; exact Fx|auto|apply add_sub_does; exact Fx|auto].
  - eapply does_weaken; [apply add_sub_does; exact Fx|auto].
  - eapply does_weaken; [apply mul_does; exact Fx|auto].
  - apply div_does; exact Fx.
  - apply mod_does; exact Fx.
Qed.

Lemma bin_gives : forall op f x y, (forall c, fits c -> does ok c (op y) (f (forget c) (forget y)) (fun _ => True)) ->
  gives ok is_int (m_bin ok op x y) (f (forget x) (forget y)).
Proof.
  intros op f x y D. unfold m_bin.
  apply gives_pre with (Q := fun c => is_int c (forget x)); [apply gives_awp_ok, copy_gives|].
  intros c [E Fc]. rewrite <- E.
  replace (f (forget c) (forget y)) with (bind (f (forget c) (forget y)) Ok) by (destruct (f (forget c) (forget y)); reflexivity).
  eapply gives_bind; [eapply gives_local; apply D; exact Fc|].
  intros a b _ [E' _]. rewrite <- E'. apply copy_gives.
Qed.
Lemma int_div_result : forall x y, int_div p x y = result_of (int_div_assign p x y).
Proof. intros x y. unfold int_div. destruct (int_div_assign p x y) as [[]]; reflexivity. Qed.
Lemma int_mod_result : forall x y, int_mod p x y = result_of (int_mod_assign p x y).
Proof. intros x y. unfold int_mod. destruct (int_mod_assign p x y) as [[]]; reflexivity. Qed.

Lemma add_gives : forall x y, gives ok is_int (m_add grow ok p x y) (int_add p (forget x) (forget y)).
Proof. intros x y. apply (bin_gives _ (int_add p)). intros c Fc. exact (compound_does AAdd false c y Fc). Qed.
Lemma sub_gives : forall x y, gives ok is_int (m_sub grow ok p x y) (int_sub p (forget x) (forget y)).
Proof. intros x y. apply (bin_gives _ (int_sub p)). intros c Fc. exact (compound_does ASub false c y Fc). Qed.
Lemma mul_gives : forall x y, gives ok is_int (m_mul ok p x y) (int_mul p (forget x) (forget y)).
Proof. intros x y. apply (bin_gives _ (int_mul p)). intros c Fc. exact (compound_does AMul false c y Fc). Qed.
Lemma div_gives : forall x y, gives ok is_int (m_div grow ok p x y) (int_div p (forget x) (forget y)).
Proof. intros x y. apply (bin_gives _ (int_div p)). intros c Fc. rewrite int_div_result. exact (compound_does ADiv false c y Fc). Qed.
Lemma mod_gives : forall x y, gives ok is_int (m_mod grow ok p x y) (int_mod p (forget x) (forget y)).
Proof. intros x y. apply (bin_gives _ (int_mod p)). intros c Fc. rewrite int_mod_result. exact (compound_does AMod false c y Fc). Qed.

(** ** Number theory *)

Lemma gives_local_abs_dec : forall i, fits i -> gives ok is_int (local m_abs_dec i) (abs_dec (forget i)).
Proof. intros i F. eapply gives_local. apply abs_dec_does. exact F. Qed.
Lemma gives_local_abs_inc : forall i, fits i -> gives ok is_int (local (m_abs_inc grow ok) i) (abs_inc (forget i)).
Proof. intros i F. eapply gives_local. apply abs_inc_does. exact F. Qed.
Lemma gives_local_copy : forall x that, fits x -> gives ok is_int (local (m_assign_copy ok that) x) (Ok (forget that)).
Proof. intros x that F. eapply gives_local. apply assign_copy_does. exact F. Qed.
Lemma gives_const : forall z r, int_of_int z = Ok r -> awp ok (m_of_int grow ok z) (fun x => is_int x r) (fun _ => False).
Proof. intros z r E. apply gives_awp_ok. rewrite <- E. apply of_int_gives. Qed.

Lemma factorial_loop_gives : forall f i r, fits i -> fits r ->
  gives ok is_int (m_factorial_loop ok p f i r) (factorial_loop p f (forget i) (forget r)).
Proof.
  induction f as [|f IH]; intros i r Fi Fr; cbn [m_factorial_loop factorial_loop]; [apply gives_fuel|].
  destruct (is_positive (forget i)); [|apply gives_ret; apply is_int_self; exact Fr].
  eapply gives_bind; [eapply gives_local; apply mul_does; exact Fr|]. intros r1 b _ [<- F1].
  eapply gives_bind; [apply gives_local_abs_dec; exact Fi|]. intros i1 b' _ [<- F2]. apply IH; assumption.
Qed.
Lemma factorial_gives : forall f x, fits x -> gives ok is_int (m_factorial grow ok p f x) (int_factorial p f (forget x)).
Proof.
  intros f x Fx. unfold m_factorial, int_factorial. change (sign (forget x)) with (msign x).
  destruct (msign x =? -1); [apply gives_throw|].
  eapply gives_bind; [apply of_int_gives|]. intros one b _ [<- F1].
  eapply gives_pre; [apply gives_awp_ok, copy_gives|]. intros i [<- Fi]. apply factorial_loop_gives; assumption.
Qed.
Lemma prime_loop_gives : forall f x i, fits i -> gives ok eq (m_prime_loop grow ok p f x i) (prime_loop p f (forget x) (forget i)).
Proof.
  induction f as [|f IH]; intros x i Fi; cbn [m_prime_loop prime_loop]; [apply gives_fuel|].
  eapply gives_bind; [apply mul_gives|]. intros sq b _ [<- _].
  eapply gives_bind; [apply gives_lift|]. intros le b _ <-. destruct le; [|apply gives_ret; reflexivity].
  eapply gives_bind; [apply mod_gives|]. intros r b _ [<- _].
  destruct (is_zero (forget r)); [apply gives_ret; reflexivity|].
  eapply gives_bind; [apply gives_local_abs_inc; exact Fi|]. intros i1 b' _ [<- F2]. apply IH; assumption.
Qed.
Lemma is_prime_gives : forall f x, gives ok eq (m_is_prime grow ok p f x) (int_is_prime p f (forget x)).
Proof.
  intros f x. unfold m_is_prime, int_is_prime.
  eapply gives_bind; [apply of_int_gives|]. intros one b _ [<- F1].
  eapply gives_bind; [apply gives_lift|]. intros le b _ <-. destruct le; [apply gives_ret; reflexivity|].
  eapply gives_bind; [apply of_int_gives|]. intros two b _ [<- F2]. apply prime_loop_gives; assumption.
Qed.
Lemma next_prime_loop_gives : forall f g x, fits x ->
  gives ok is_int (m_next_prime_loop grow ok p f g x) (next_prime_loop p f g (forget x)).
Proof.
  induction f as [|f IH]; intros g x Fx; cbn [m_next_prime_loop next_prime_loop]; [apply gives_fuel|].
  eapply gives_bind; [apply gives_local_abs_inc; exact Fx|]. intros p1 b _ [<- F1].
  eapply gives_bind; [apply gives_local_abs_inc; exact F1|]. intros p2 b _ [<- F2].
  eapply gives_bind; [apply is_prime_gives|]. intros b b' _ <-. destruct b; [apply gives_ret; apply is_int_self; exact F2|].
  apply IH. exact F2.
Qed.
Lemma next_prime_gives : forall f x, gives ok is_int (m_next_prime grow ok p f x) (int_next_prime p f (forget x)).
Proof.
  intros f x. unfold m_next_prime, int_next_prime.
  eapply gives_bind; [apply of_int_gives|]. intros two b _ [<- F1].
  eapply gives_bind; [apply gives_lift|]. intros lt b _ <-. destruct lt; [apply of_int_gives|].
  eapply gives_pre; [apply gives_awp_ok, copy_gives|]. intros c [<- Fc].
  eapply gives_bind; [apply gives_lift|]. intros ev b _ <-.
  eapply gives_bind with (P := is_int).
  - destruct ev; [apply gives_local_abs_dec; exact Fc|apply gives_ret; apply is_int_self; exact Fc].
  - intros s b _ [<- Fs]. apply next_prime_loop_gives. exact Fs.
Qed.
Lemma sqrt_loop_gives : forall f n cur pre, fits cur -> fits pre ->
  gives ok is_int (m_sqrt_loop grow ok p f n cur pre) (sqrt_loop p f (forget n) (forget cur) (forget pre)).
Proof.
  induction f as [|f IH]; intros n cur pre Fc Fp; cbn [m_sqrt_loop sqrt_loop]; [apply gives_fuel|].
  destruct (negb _); [|apply gives_ret; apply is_int_self; exact Fc].
  eapply gives_pre; [apply gives_awp_ok, gives_local_copy; exact Fp|]. intros pre1 [Ep F1].
  eapply gives_bind; [apply div_gives|]. intros q b _ [<- _].
  eapply gives_bind; [apply add_gives|]. intros s b _ [<- _].
  eapply gives_bind; [apply of_int_gives|]. intros two b _ [<- _].
  eapply gives_bind; [apply div_gives|]. intros c b _ [<- F2]. rewrite <- Ep. apply IH; assumption.
Qed.
Lemma sqrt_gives : forall f x, gives ok is_int (m_sqrt grow ok p f x) (int_sqrt p f (forget x)).
Proof.
  intros f x. unfold m_sqrt, int_sqrt. change (sign (forget x)) with (msign x).
  destruct (msign x =? -1); [apply gives_throw|]. destruct (is_zero (forget x)); [apply of_int_gives|].
  eapply gives_bind; [apply of_int_gives|]. intros four b _ [<- _].
  eapply gives_bind; [apply gives_lift|]. intros lt b _ <-. destruct lt; [apply of_int_gives|]. cbv zeta.
  eapply gives_pre; [apply awp_new|]. intros v1 [E1 _].
  eapply gives_pre; [apply awp_new|]. intros v2 [E2 _].
  eapply gives_pre; [apply awp_grow|]. intros v3 [E3 V3].
  eapply gives_bind; [apply of_int_gives|]. intros zero b _ [<- Fz].
  replace (MkInt 1 (repeat 0 (length (chunks (forget x)) / 2) ++ [1])) with (forget (MI 1 v3)).
  - apply sqrt_loop_gives; [exact V3|exact Fz].
  - unfold forget. cbn. rewrite E3, E2, E1. reflexivity.
Qed.
Lemma pow_loop_gives : forall f m num n r, fits n -> fits r ->
  gives ok is_int (m_pow_loop grow ok p f m num n r) (pow_loop p f (forget m) (forget num) (forget n) (forget r)).
Proof.
  induction f as [|f IH]; intros m num n r Fn Fr; cbn [m_pow_loop pow_loop]; [apply gives_fuel|].
  destruct (negb _); [|apply gives_ret; apply is_int_self; exact Fr].
  eapply gives_bind; [apply gives_lift|]. intros odd b _ <-.
  eapply gives_bind with (P := is_int).
  - destruct odd; [|apply gives_ret; apply is_int_self; exact Fr].
    eapply gives_bind; [apply mul_gives|]. intros t b _ [<- Ft].
    destruct (is_zero (forget m)); [apply gives_ret; apply is_int_self; exact Ft|apply mod_gives].
  - intros r1 b _ [<- F1].
    eapply gives_bind; [apply mul_gives|]. intros sq b _ [<- Fs].
    eapply gives_bind with (P := is_int).
    + destruct (is_zero (forget m)); [apply gives_ret; apply is_int_self; exact Fs|apply mod_gives].
    + intros num1 b _ [<- Fm].
      eapply gives_bind; [apply of_int_gives|]. intros two b _ [<- _].
      rewrite int_div_result.
      eapply gives_bind; [eapply gives_local; apply div_does; exact Fn|]. intros n1 b _ [<- F2]. apply IH; assumption.
Qed.
Lemma pow_gives : forall f b e m, gives ok is_int (m_pow grow ok p f b e m) (int_pow p f (forget b) (forget e) (forget m)).
Proof.
  intros f b e m. unfold m_pow, int_pow. change (sign (forget b)) with (msign b). change (chunks (forget b)) with (items (mvec b)).
  eapply gives_bind; [apply gives_lift|]. intros d b0 _ <-.
  eapply gives_bind; [apply gives_lift|]. intros one b1 _ <-. destruct one.
  - eapply gives_bind; [apply gives_lift|]. intros odd b2 _ <-. apply of_int_gives.
  - destruct (is_negative (forget e)).
    + destruct (is_zero (forget b)); [apply gives_throw|apply of_int_gives].
    + eapply gives_pre; [apply gives_awp_ok, copy_gives|]. intros num [<- Fn].
      eapply gives_pre; [apply gives_awp_ok, copy_gives|]. intros n [<- Fe].
      eapply gives_bind; [apply of_int_gives|]. intros one b2 _ [<- F1]. apply pow_loop_gives; assumption.
Qed.
Lemma log_loop_gives : forall f v b r, fits v -> fits r ->
  gives ok is_int (m_log_loop grow ok p f v b r) (log_loop p f (forget v) (forget b) (forget r)).
Proof.
  induction f as [|f IH]; intros v b r Fv Fr; cbn [m_log_loop log_loop]; [apply gives_fuel|].
  destruct (negb _); [|apply gives_ret; apply is_int_self; exact Fr].
  eapply gives_bind; [eapply gives_local; apply inc_does; exact Fr|]. intros r1 b1 _ [<- F1].
  rewrite int_div_result.
  eapply gives_bind; [eapply gives_local; apply div_does; exact Fv|]. intros v1 b2 _ [<- F2]. apply IH; assumption.
Qed.
Lemma log_gives : forall f n b, gives ok is_int (m_log grow ok p f n b) (int_log p f (forget n) (forget b)).
Proof.
  intros f n b. unfold m_log, int_log. change (sign (forget n)) with (msign n). rewrite int2. cbn [bind].
  eapply gives_bind with (P := eq).
  - destruct (msign n <=? 0); [apply gives_ret; reflexivity|].
    eapply gives_pre; [apply (gives_const 2); exact int2|]. intros two [E _]. rewrite E. apply gives_lift.
  - intros small b0 _ <-. destruct small; [apply gives_throw|].
    eapply gives_bind; [apply of_int_gives|]. intros ten b1 _ [<- _].
    destruct (int_eqb _ _).
    + eapply gives_bind; [apply gives_lift|]. intros d b2 _ <-. apply of_int_gives.
    + rewrite int0. cbn [bind]. eapply gives_bind; [apply div_gives|]. intros v b2 _ [<- Fv].
      apply (log_loop_gives f v b mzero); [exact Fv|]. unfold fits. cbn. lia.
Qed.
Lemma gcd_loop_gives : forall f a b, fits a ->
  fits b -> gives ok is_int (m_gcd_loop grow ok p f a b) (gcd_loop p f (forget a) (forget b)).
Proof.
  induction f as [|f IH]; intros a b Fa Fb; cbn [m_gcd_loop gcd_loop]; [apply gives_fuel|].
  eapply gives_bind; [apply of_int_gives|]. intros zero b0 _ [<- _].
  destruct (negb _); [|apply gives_ret; apply is_int_self; exact Fa].
  eapply gives_pre; [apply gives_awp_ok, copy_gives|]. intros t [Et Ft].
  eapply gives_bind; [apply mod_gives|]. intros r b1 _ [<- Fr].
  eapply gives_pre; [apply gives_awp_ok, gives_local_copy; exact Fa|]. intros a1 [Ea F1].
  rewrite <- Et, <- Ea. apply IH; assumption.
Qed.
Lemma gcd_gives : forall f a b, gives ok is_int (m_gcd grow ok p f a b) (int_gcd p f (forget a) (forget b)).
Proof.
  intros f a b. unfold m_gcd, int_gcd.
  eapply gives_pre; [apply gives_awp_ok, copy_gives|]. intros a0 [<- _].
  eapply gives_pre; [apply gives_awp_ok, copy_gives|]. intros b0 [<- _].
  eapply gives_pre; [apply gives_awp_ok, abs_gives|]. intros a1 [<- F1].
  eapply gives_pre; [apply gives_awp_ok, abs_gives|]. intros b1 [<- F2]. apply gcd_loop_gives; assumption.
Qed.
Lemma lcm_gives : forall f a b, gives ok is_int (m_lcm grow ok p f a b) (int_lcm p f (forget a) (forget b)).
Proof.
  intros f a b. unfold m_lcm, int_lcm. destruct (_ || _); [apply of_int_gives|].
  eapply gives_bind; [apply mul_gives|]. intros m b0 _ [<- _].
  eapply gives_pre; [apply gives_awp_ok, abs_gives|]. intros m' [<- _].
  eapply gives_bind; [apply gcd_gives|]. intros g b1 _ [<- _]. apply div_gives.
Qed.

(** ** All value-returning operations *)
Lemma un_gives : forall f o x, fits x -> gives ok is_int (m_un grow ok p f o x) (eval_un p f o (forget x)).
Proof.
  intros f o x Fx. destruct o; cbn [m_un eval_un].
  - apply copy_gives.
  - apply neg_gives.
  - apply abs_gives.
  - apply factorial_gives; exact Fx.
  - apply next_prime_gives.
  - apply sqrt_gives.
Qed.
Lemma binary_gives : forall f o x y, gives ok is_int (m_binary grow ok p f o x y) (eval_bin p f o (forget x) (forget y)).
Proof.
  intros f o x y. destruct o; cbn [m_binary eval_bin].
  - apply add_gives.
  - apply sub_gives.
  - apply mul_gives.
  - apply div_gives.
  - apply mod_gives.
  - apply (pow_gives f x y mzero).
  - apply log_gives.
  - apply gcd_gives.
  - apply lcm_gives.
Qed.
Lemma query_gives : forall f o x, gives ok eq (m_query grow ok p f o x) (eval_query p f o (forget x)).
Proof. intros f o x. destruct o; cbn [m_query]; try apply gives_lift. apply is_prime_gives. Qed.

End Members.
