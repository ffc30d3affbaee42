(** Lemmas about digit lists, vectors and canonical representations. *)
From Coq Require Import ZArith List Bool Lia.
From Verif Require Import Outcome IntModel IntSpec.
Import ListNotations.
Open Scope Z_scope.

Definition cells (l : list Z) (lo hi : nat -> Z) : Prop :=
  forall j, (j < length l)%nat -> lo j <= nth j l 0 <= hi j.

Lemma val_nil : val [] = 0. Proof. reflexivity. Qed.
Lemma val_cons : forall d l, val (d :: l) = d + 10 * val l. Proof. reflexivity. Qed.

Definition p10 (n : nat) : Z := 10 ^ Z.of_nat n.
Lemma p10_0 : p10 0 = 1. Proof. reflexivity. Qed.
Lemma p10_S : forall n, p10 (S n) = 10 * p10 n.
Proof. intros; unfold p10. rewrite Nat2Z.inj_succ, Z.pow_succ_r; lia. Qed.
Lemma p10_pos : forall n, 0 < p10 n.
Proof. intros; unfold p10; apply Z.pow_pos_nonneg; lia. Qed.
Lemma p10_add : forall n m, p10 (n + m) = p10 n * p10 m.
Proof. intros; unfold p10. rewrite Nat2Z.inj_add, Z.pow_add_r; lia. Qed.
Lemma p10_le : forall n m, (n <= m)%nat -> p10 n <= p10 m.
Proof. intros; unfold p10. apply Z.pow_le_mono_r; lia. Qed.
Global Opaque p10.

Lemma val_app : forall a b, val (a ++ b) = val a + p10 (length a) * val b.
Proof.
  induction a; intros; cbn [app length].
  - rewrite p10_0, val_nil; lia.
  - rewrite !val_cons, IHa, p10_S. lia.
Qed.

Lemma val_repeat0 : forall n, val (repeat 0 n) = 0.
Proof. induction n; cbn [repeat]; [reflexivity|]. rewrite val_cons, IHn; lia. Qed.

Lemma upd_length : forall l i x, length (upd l i x) = length l.
Proof. induction l; destruct i; simpl; intros; auto. Qed.

Lemma nth_upd : forall l i x j, (i < length l)%nat ->
  nth j (upd l i x) 0 = if Nat.eqb j i then x else nth j l 0.
Proof.
  induction l; intros i x j H; simpl in *; [lia|].
  destruct i, j; simpl; auto. apply IHl; lia.
Qed.

Lemma val_upd : forall l i x, (i < length l)%nat ->
  val (upd l i x) = val l + (x - nth i l 0) * p10 i.
Proof.
  induction l; intros i x H; simpl length in *; [lia|].
  destruct i; cbn [upd nth]; rewrite !val_cons.
  - rewrite p10_0; lia.
  - rewrite IHl by lia. rewrite p10_S. ring.
Qed.

Lemma vget_ok : forall l i, (i < length l)%nat -> vget l i = Ok (nth i l 0).
Proof. intros; unfold vget. rewrite (nth_error_nth' l 0) by auto. reflexivity. Qed.
Lemma vget_ub : forall l i, (length l <= i)%nat -> vget l i = UB OutOfBounds.
Proof. intros; unfold vget. apply nth_error_None in H. rewrite H; auto. Qed.
Lemma vset_ok : forall l i x, (i < length l)%nat -> vset l i x = Ok (upd l i x).
Proof. intros; unfold vset. rewrite (nth_error_nth' l 0) by auto. reflexivity. Qed.
Lemma vadd_ok : forall p l i d, (i < length l)%nat -> INT_MIN <= nth i l 0 + d <= INT_MAX ->
  vadd p l i d = Ok (upd l i (nth i l 0 + d)).
Proof.
  intros; unfold vadd. rewrite (nth_error_nth' l 0) by auto. rewrite chk32_ok; auto.
Qed.
Lemma vadd_end : forall l i, i = length l -> vadd Benign l i 0 = Ok l.
Proof.
  intros; unfold vadd. replace (nth_error l i) with (@None Z).
  - subst; rewrite Nat.eqb_refl; reflexivity.
  - symmetry; apply nth_error_None; lia.
Qed.
Lemma vadd_end_strict : forall l i d, (length l <= i)%nat -> vadd Strict l i d = UB OutOfBounds.
Proof.
  intros; unfold vadd. replace (nth_error l i) with (@None Z); auto.
  symmetry; apply nth_error_None; lia.
Qed.

Lemma Forall_cells : forall l, Forall digit l <-> cells l (fun _ => 0) (fun _ => 9).
Proof.
  intros; unfold cells, digit; split; intros.
  - rewrite Forall_forall in H. apply H. apply nth_In; auto.
  - apply Forall_forall. intros x Hx. destruct (In_nth _ _ 0 Hx) as (n & Hn & <-). auto.
Qed.

Lemma val_nonneg : forall l, Forall digit l -> 0 <= val l.
Proof. induction 1; [rewrite val_nil; lia|]. rewrite val_cons. unfold digit in *; lia. Qed.

Lemma val_lt : forall l, Forall digit l -> val l < p10 (length l).
Proof.
  induction 1; cbn [length]; [rewrite val_nil, p10_0; lia|].
  rewrite val_cons, p10_S. unfold digit in *; lia.
Qed.

Lemma val_skipn : forall l i, (i < length l)%nat ->
  val (skipn i l) = nth i l 0 + 10 * val (skipn (S i) l).
Proof.
  induction l; intros; simpl length in *; [lia|].
  destruct i; cbn [skipn nth]. - apply val_cons. - apply IHl; lia.
Qed.
Lemma val_skipn_all : forall l i, (length l <= i)%nat -> val (skipn i l) = 0.
Proof. intros. rewrite skipn_all2 by auto. reflexivity. Qed.
Lemma val_split : forall l i, val l = val (firstn i l) + p10 (min i (length l)) * val (skipn i l).
Proof.
  intros. rewrite <- (firstn_skipn i l) at 1. rewrite val_app. rewrite firstn_length. auto.
Qed.

Lemma resize_length : forall l n, (length l <= n)%nat -> length (resize l n) = n.
Proof. intros; unfold resize. rewrite app_length, firstn_length, repeat_length; lia. Qed.
Lemma resize_val : forall l n, (length l <= n)%nat -> val (resize l n) = val l.
Proof.
  intros; unfold resize. rewrite val_app, val_repeat0, firstn_all2 by auto. lia.
Qed.
Lemma resize_digits : forall l n, Forall digit l -> Forall digit (resize l n).
Proof.
  intros; unfold resize. apply Forall_app; split.
  - rewrite Forall_forall in *; intros. apply H.
    rewrite <- (firstn_skipn n l). apply in_or_app; auto.
  - apply Forall_forall. intros x Hx. apply repeat_spec in Hx; subst. unfold digit; lia.
Qed.

Lemma repeat0_digits : forall n, Forall digit (repeat 0 n).
Proof.
  intros; apply Forall_forall; intros x Hx; apply repeat_spec in Hx; subst; unfold digit; lia.
Qed.

(** ** Removing leading zeros *)

Definition strip (l : list Z) : list Z := rev (skip_zeros (rev l)).

Lemma strip_snoc : forall l d, strip (l ++ [d]) = if d =? 0 then strip l else l ++ [d].
Proof.
  intros; unfold strip. rewrite rev_app_distr; simpl.
  destruct (d =? 0); auto. simpl. rewrite rev_involutive; auto.
Qed.

Lemma strip_val : forall l, val (strip l) = val l.
Proof.
  induction l using rev_ind; [reflexivity|].
  rewrite strip_snoc. destruct (Z.eqb_spec x 0); auto.
  subst. rewrite IHl, val_app. unfold val at 3; simpl. lia.
Qed.

Lemma strip_digits : forall l, Forall digit l -> Forall digit (strip l).
Proof.
  induction l using rev_ind; intros; [constructor|].
  rewrite strip_snoc. destruct (x =? 0); auto.
  apply IHl. apply Forall_app in H; tauto.
Qed.

Lemma last_snoc : forall (l : list Z) x d, last (l ++ [x]) d = x.
Proof. intros; apply last_last. Qed.

Lemma strip_last : forall l, last (strip l) 1 <> 0.
Proof.
  induction l using rev_ind; [simpl; lia|].
  rewrite strip_snoc. destruct (Z.eqb_spec x 0); auto. rewrite last_snoc; auto.
Qed.

Lemma strip_id : forall l, last l 1 <> 0 -> strip l = l.
Proof.
  destruct l using rev_ind; intros; [reflexivity|].
  rewrite strip_snoc. rewrite last_snoc in H. destruct (Z.eqb_spec x 0); congruence.
Qed.

Lemma strip_length : forall l, (length (strip l) <= length l)%nat.
Proof.
  induction l using rev_ind; [simpl; lia|].
  rewrite strip_snoc. destruct (x =? 0); rewrite app_length in *; simpl; lia.
Qed.

Lemma trim_eq : forall x, trim x = MkInt (match strip (chunks x) with [] => 0 | _ => sign x end) (strip (chunks x)).
Proof. reflexivity. Qed.

Lemma trim_repr : forall s c, Forall digit c -> s = 1 \/ s = -1 ->
  repr (trim (MkInt s c)) (s * val c).
Proof.
  intros s c H Hs. rewrite trim_eq; simpl.
  pose proof (strip_val c). pose proof (strip_digits c H). pose proof (strip_last c).
  unfold repr, canonical, value; simpl.
  destruct (strip c) as [|y l] eqn:E; simpl in *.
  - rewrite <- H0. repeat split; auto; lia.
  - rewrite H0. repeat split; auto; try lia; intros; try discriminate; lia.
Qed.

Lemma trim_canonical_id : forall x, canonical x -> trim x = x.
Proof.
  intros x (H1 & H2 & H3 & H4). rewrite trim_eq, strip_id by auto.
  destruct x as [s c]; simpl in *. destruct c; f_equal. symmetry; tauto.
Qed.

(** ** Bounds of canonical representations *)

Lemma val_ge : forall l, Forall digit l -> l <> [] -> last l 1 <> 0 -> p10 (length l - 1) <= val l.
Proof.
  destruct l using rev_ind; intros; [congruence|]. clear IHl.
  rewrite last_snoc in H1. rewrite app_length; simpl.
  replace (length l + 1 - 1)%nat with (length l) by lia.
  apply Forall_app in H as [H2 H3]. inversion H3; subst.
  rewrite val_app. rewrite val_cons, val_nil. pose proof (val_nonneg l H2). pose proof (p10_pos (length l)).
  unfold digit in *. nia.
Qed.

Lemma val_zero_nil : forall l, Forall digit l -> last l 1 <> 0 -> val l = 0 -> l = [].
Proof.
  intros. destruct l as [|d l']; auto. exfalso.
  pose proof (val_ge (d :: l') H ltac:(discriminate) H0).
  pose proof (p10_pos (length (d :: l') - 1)). lia.
Qed.

Lemma val_length_lt : forall a b, Forall digit a -> Forall digit b -> last b 1 <> 0 ->
  (length a < length b)%nat -> val a < val b.
Proof.
  intros. pose proof (val_lt a H). 
  assert (b <> []) by (destruct b; simpl in *; [lia|discriminate]).
  pose proof (val_ge b H0 H4 H1). pose proof (p10_le (length a) (length b - 1) ltac:(lia)). lia.
Qed.

Lemma val_inj_len : forall a b, Forall digit a -> Forall digit b -> length a = length b ->
  val a = val b -> a = b.
Proof.
  induction a; destruct b; simpl length; intros; try discriminate; auto.
  inversion H; inversion H0; subst. rewrite !val_cons in H2. unfold digit in *.
  assert (a = z) by lia. f_equal; auto. apply IHa; auto; lia.
Qed.

Lemma val_inj : forall a b, Forall digit a -> Forall digit b -> last a 1 <> 0 -> last b 1 <> 0 ->
  val a = val b -> a = b.
Proof.
  intros. destruct (Nat.lt_trichotomy (length a) (length b)) as [|[|]].
  - pose proof (val_length_lt a b); lia || (specialize (H5 ltac:(auto) ltac:(auto) ltac:(auto) ltac:(auto)); lia).
  - apply val_inj_len; auto.
  - pose proof (val_length_lt b a ltac:(auto) ltac:(auto) ltac:(auto) ltac:(auto)); lia.
Qed.

Lemma canonical_val_pos : forall x, canonical x -> sign x <> 0 -> 0 < val (chunks x).
Proof.
  intros x (H1 & H2 & H3 & H4) Hs.
  pose proof (val_nonneg _ H1). destruct (Z.eq_dec (val (chunks x)) 0); [|lia].
  apply val_zero_nil in e; auto. tauto.
Qed.

Lemma canonical_sgn : forall x, canonical x -> sign x = Z.sgn (value x).
Proof.
  intros x H. unfold value. pose proof (canonical_val_pos x H).
  destruct H as (H1 & H2 & H3 & H4). rewrite Z.sgn_mul.
  destruct H3 as [E|[E|E]]; rewrite E in *; simpl; auto;
  rewrite (Z.sgn_pos (val _)); lia.
Qed.

Lemma canonical_abs : forall x, canonical x -> val (chunks x) = Z.abs (value x).
Proof.
  intros x H. unfold value. destruct H as (H1 & H2 & H3 & H4).
  pose proof (val_nonneg _ H1).
  destruct H3 as [E|[E|E]]; rewrite E; try lia.
  apply H4 in E. rewrite E. reflexivity.
Qed.

Lemma repr_unique : forall x y z, repr x z -> repr y z -> x = y.
Proof.
  intros x y z [Hx Vx] [Hy Vy].
  pose proof (canonical_sgn x Hx). pose proof (canonical_sgn y Hy).
  pose proof (canonical_abs x Hx). pose proof (canonical_abs y Hy).
  destruct x as [s c], y as [s' c']; simpl in *. subst z. rewrite Vy in *.
  f_equal; [congruence|]. destruct Hx as (?&?&?&?), Hy as (?&?&?&?); simpl in *.
  apply val_inj; auto. congruence.
Qed.

Lemma returns_unique : forall o z x, returns o z -> repr x z -> o = Ok x.
Proof. intros o z x (r & -> & H) H0. f_equal. eapply repr_unique; eauto. Qed.

Lemma repr_canonical : forall x z, repr x z -> canonical x. Proof. intros x z []; auto. Qed.
Lemma repr_value : forall x, canonical x -> repr x (value x). Proof. split; auto. Qed.
Lemma repr_sign : forall x z, repr x z -> sign x = Z.sgn z.
Proof. intros x z [H <-]. apply canonical_sgn; auto. Qed.
Lemma repr_val : forall x z, repr x z -> val (chunks x) = Z.abs z.
Proof. intros x z [H <-]. apply canonical_abs; auto. Qed.
Lemma repr_digits : forall x z, repr x z -> Forall digit (chunks x).
Proof. intros x z [[H _] _]; auto. Qed.
Lemma repr_last : forall x z, repr x z -> last (chunks x) 1 <> 0.
Proof. intros x z [(_ & H & _) _]; auto. Qed.

Lemma repr_intro : forall s c, Forall digit c -> last c 1 <> 0 -> c <> [] -> s = 1 \/ s = -1 ->
  repr (MkInt s c) (s * val c).
Proof.
  intros. unfold repr, canonical, value; simpl. repeat split; auto; try tauto; intros; subst; tauto || lia.
Qed.

Lemma repr_zero : repr (MkInt 0 []) 0.
Proof. unfold repr, canonical, value; simpl. repeat split; auto; lia. Qed.

Lemma repr_zero_inv : forall x, repr x 0 -> x = MkInt 0 [].
Proof. intros; eapply repr_unique; eauto. apply repr_zero. Qed.

Lemma repr_nonnil : forall x z, repr x z -> z <> 0 -> chunks x <> [].
Proof.
  intros x z H Hz E. apply repr_val in H. rewrite E, val_nil in H. lia.
Qed.

Lemma repr_bounds : forall x z, repr x z -> z <> 0 ->
  p10 (length (chunks x) - 1) <= Z.abs z < p10 (length (chunks x)).
Proof.
  intros. rewrite <- (repr_val _ _ H). split.
  - apply val_ge; eauto using repr_digits, repr_last, repr_nonnil.
  - apply val_lt; eauto using repr_digits.
Qed.

Lemma repr_len_le : forall x y a b, repr x a -> repr y b -> Z.abs a <= Z.abs b ->
  (length (chunks x) <= length (chunks y))%nat.
Proof.
  intros. destruct (le_lt_dec (length (chunks x)) (length (chunks y))); auto.
  pose proof (val_length_lt (chunks y) (chunks x)).
  rewrite (repr_val _ _ H), (repr_val _ _ H0) in H2.
  specialize (H2 ltac:(eauto using repr_digits) ltac:(eauto using repr_digits) ltac:(eauto using repr_last) l). lia.
Qed.
