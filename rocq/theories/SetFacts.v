(** Proofs about the Set model. *)
From Coq Require Import ZArith List Bool Ascii Lia Sorted.
From Verif Require Import Outcome ListModel ListSpec ListFacts ListMore SetModel SetSpec.
Import ListNotations.
Open Scope Z_scope.

(** ** Increasing lists *)
Section Order.
Context {T : Type} (lt : T -> T -> bool).
Hypothesis O : strict_total lt.

Lemma lt_irr : forall x, lt x x = false.
Proof. apply O. Qed.
Lemma lt_tr : forall x y z, lt x y = true -> lt y z = true -> lt x z = true.
Proof. apply O. Qed.
Lemma lt_tot : forall x y, lt x y = true \/ x = y \/ lt y x = true.
Proof. apply O. Qed.
Lemma lt_asym : forall x y, lt x y = true -> lt y x = false.
Proof. intros x y H. destruct (lt y x) eqn:E; auto. rewrite <- (lt_irr x). symmetry. eapply lt_tr; eauto. Qed.
Lemma lt_neither : forall x y, lt x y = false -> lt y x = false -> x = y.
Proof. intros x y A B. destruct (lt_tot x y) as [C|[C|C]]; congruence. Qed.
Lemma lt_ne : forall x y, lt x y = true -> x <> y.
Proof. intros x y H ->. rewrite lt_irr in H. discriminate. Qed.
Lemma lt_nlt : forall x y z, lt x y = true -> lt z y = false -> lt x z = true.
Proof.
  intros x y z A B. destruct (lt_tot x z) as [C|[C|C]]; auto; [congruence|]. rewrite (lt_tr _ _ _ C A) in B. discriminate.
Qed.

Lemma inc_cons : forall x l, increasing lt (x :: l) <-> increasing lt l /\ forall y, In y l -> lt x y = true.
Proof.
  intros x l. split.
  - intros H. inversion H; subst. split; auto. apply Forall_forall. auto.
  - intros (A & B). constructor; auto. apply Forall_forall. auto.
Qed.

Lemma inc_app : forall a b, increasing lt (a ++ b) <->
  increasing lt a /\ increasing lt b /\ forall x y, In x a -> In y b -> lt x y = true.
Proof.
  induction a as [|z a]; intros b; cbn [app].
  - split; [|tauto]. intros H. split; [constructor|]. split; auto.
  - rewrite !inc_cons, IHa. split.
    + intros ((A & B & C) & D). split; [|split]; auto.
      * split; auto. intros y Y. apply D, in_or_app. auto.
      * intros x y [->|X] Y; auto. apply D, in_or_app. auto.
    + intros ((A & B) & C & D). split; [split; [|split]|]; auto.
      * intros x y X Y. apply D; cbn; auto.
      * intros y Y. apply in_app_or in Y. destruct Y; auto. apply D; cbn; auto.
Qed.

Lemma inc_nodup : forall l, increasing lt l -> NoDup l.
Proof.
  induction l as [|x l]; intros H; constructor; apply inc_cons in H; destruct H as (A & B); auto.
  intros X. apply B in X. rewrite lt_irr in X. discriminate.
Qed.

Lemma inc_unique : forall l m, increasing lt l -> increasing lt m -> (forall x, In x l <-> In x m) -> l = m.
Proof.
  induction l as [|x l]; intros [|y m] A B S; auto.
  - destruct (S y) as (_ & X). destruct X; cbn; auto.
  - destruct (S x) as (X & _). destruct X; cbn; auto.
  - apply inc_cons in A. apply inc_cons in B. destruct A as (A1 & A2), B as (B1 & B2).
    assert (x = y) as ->.
    { destruct (proj1 (S x)) as [X|X]; [left; auto|auto|]. destruct (proj2 (S y)) as [Y|Y]; [left; auto|auto|].
      apply A2 in Y. apply B2 in X. rewrite (lt_asym _ _ X) in Y. discriminate. }
    f_equal. apply IHl; auto. intros z. split; intros Z.
    + destruct (proj1 (S z)) as [X|X]; cbn; auto. subst. apply A2 in Z. rewrite lt_irr in Z. discriminate.
    + destruct (proj2 (S z)) as [X|X]; cbn; auto. subst. apply B2 in Z. rewrite lt_irr in Z. discriminate.
Qed.

Lemma enum_unique : forall l m P Q, enumerates lt l P -> enumerates lt m Q -> same P Q -> l = m.
Proof.
  intros l m P Q (A & B) (C & D) S. apply inc_unique; auto. intros x. rewrite B, D. apply S.
Qed.

Lemma enum_card : forall l P, enumerates lt l P -> card P (len l).
Proof. intros l P (A & B). exists l. split; [apply inc_nodup; auto|]. split; auto. Qed.

Lemma card_unique : forall (P : T -> Prop) m n, card P m -> card P n -> m = n.
Proof.
  intros P m n (a & A1 & A2 & A3) (b & B1 & B2 & B3). subst. f_equal. apply Nat.le_antisymm.
  - apply NoDup_incl_length; auto. intros x X. apply B2, A2. auto.
  - apply NoDup_incl_length; auto. intros x X. apply A2, B2. auto.
Qed.

Lemma enum_len : forall l P n, enumerates lt l P -> card P n -> n = len l.
Proof. intros. eapply card_unique; eauto. apply enum_card. auto. Qed.

Lemma enum_same : forall l P Q, enumerates lt l P -> same P Q -> enumerates lt l Q.
Proof. intros l P Q (A & B) S. split; auto. intros x. rewrite B. apply S. Qed.

(** ** lower_bound, insert, erase, find *)
Lemma lower_ok : forall x l a b, increasing lt l -> lower_bound lt x l = (a, b) ->
  l = a ++ b /\ (forall y, In y a -> lt y x = true) /\ (forall y, In y b -> lt y x = false).
Proof.
  induction l as [|y l]; intros a b I H; cbn [lower_bound] in H.
  - inversion H. subst. split; auto. split; intros y [].
  - apply inc_cons in I. destruct I as (I1 & I2). destruct (lt y x) eqn:E.
    + destruct (lower_bound lt x l) as (a', b') eqn:F. inversion H; subst. destruct (IHl a' b I1 eq_refl) as (A & B & C). subst.
      split; auto. split; auto. intros z [->|Z]; auto.
    + inversion H; subst. split; auto. split; [intros z []|]. intros z [->|Z]; auto.
      destruct (lt z x) eqn:F; auto. rewrite (lt_tr y z x) in E; auto.
Qed.

Lemma lower_in : forall x l a b, increasing lt l -> lower_bound lt x l = (a, b) ->
  match b with y :: _ => lt x y = false -> y = x | [] => True end /\
  (In x l <-> match b with y :: _ => lt x y = false | [] => False end).
Proof.
  intros x l a b I H. destruct (lower_ok x l a b I H) as (-> & A & B). apply inc_app in I. destruct I as (_ & I & _). destruct b as [|y b].
  - split; auto. rewrite app_nil_r. split; [|tauto]. intros X. apply A in X. rewrite lt_irr in X. discriminate.
  - assert (lt x y = false -> y = x) as E by (intros E; symmetry; apply lt_neither; auto; apply B; left; auto).
    split; auto. split.
    + intros X. apply in_app_or in X. destruct X as [X|[->|X]].
      * apply A in X. rewrite lt_irr in X. discriminate.
      * apply lt_irr.
      * apply inc_cons in I. apply lt_asym. apply I. auto.
    + intros X. apply in_or_app. right. left. auto.
Qed.

Lemma contains_ok : forall x l, increasing lt l -> std_contains lt x l = true <-> In x l.
Proof.
  intros x l I. unfold std_contains. destruct (lower_bound lt x l) as (a, b) eqn:E. cbn [snd].
  destruct (lower_in x l a b I E) as (_ & ->). destruct b as [|y b]; [intuition discriminate|]. destruct (lt x y); cbn; intuition discriminate.
Qed.

Lemma insert_ok : forall x l, increasing lt l ->
  increasing lt (snd (std_insert lt x l)) /\ (forall y, In y (snd (std_insert lt x l)) <-> y = x \/ In y l) /\
  (fst (std_insert lt x l) = true <-> ~ In x l) /\
  (In x l -> snd (std_insert lt x l) = l) /\ (~ In x l -> len (snd (std_insert lt x l)) = len l + 1).
Proof.
  intros x l I. unfold std_insert. destruct (lower_bound lt x l) as (a, b) eqn:E.
  destruct (lower_in x l a b I E) as (F & G). destruct (lower_ok x l a b I E) as (L & A & B).
  assert (I' := I). rewrite L in I'. apply inc_app in I'. destruct I' as (I1 & I2 & I3).
  destruct b as [|y b].
  - rewrite app_nil_r in L. subst a. cbn [fst snd]. split; [|split; [|split; [|split]]].
    + apply inc_app. split; auto. split; [apply inc_cons; split; [constructor|intros ? []]|]. intros u w U [<-|[]]; auto.
    + intros u. rewrite in_app_iff. cbn. intuition.
    + rewrite G. intuition.
    + rewrite G. tauto.
    + intros _. rewrite len_app, len_cons, len_nil. lia.
  - destruct (lt x y) eqn:C; cbn [fst snd].
    + split; [|split; [|split; [|split]]].
      * apply inc_app. split; auto. split.
        -- apply inc_cons. split; auto. intros z [->|Z]; auto. apply inc_cons in I2. eapply lt_tr; [exact C|]. apply I2. auto.
        -- intros u w U [<-|W]; auto.
      * intros u. rewrite L, !in_app_iff. cbn [In]. intuition.
      * rewrite G. intuition discriminate.
      * rewrite G. intuition discriminate.
      * intros _. rewrite L, !len_app, !len_cons. lia.
    + split; [|split; [|split; [|split]]]; auto.
      * intros u. split; auto. intros [->|U]; auto. apply G. auto.
      * rewrite G. intuition.
      * intros N. destruct N. apply G. auto.
Qed.

Lemma erase_ok : forall x l, increasing lt l ->
  increasing lt (snd (std_erase lt x l)) /\ (forall y, In y (snd (std_erase lt x l)) <-> y <> x /\ In y l) /\
  (fst (std_erase lt x l) =? 1 = true <-> In x l) /\ len (snd (std_erase lt x l)) <= len l.
Proof.
  intros x l I. unfold std_erase. destruct (lower_bound lt x l) as (a, b) eqn:E.
  destruct (lower_in x l a b I E) as (F & G). destruct (lower_ok x l a b I E) as (L & A & B).
  assert (I' := I). rewrite L in I'. apply inc_app in I'. destruct I' as (I1 & I2 & I3).
  assert (K: forall P : Prop, (~ In x l) -> (forall y, In y l <-> y <> x /\ In y l)).
  { intros _ N y. split; [|tauto]. intros Y. split; auto. intros ->. auto. }
  destruct b as [|y b].
  - cbn [fst snd]. split; auto. split; [apply (K True); rewrite G; tauto|]. split; [rewrite G; cbn; intuition discriminate|lia].
  - destruct (lt x y) eqn:C; cbn [fst snd].
    + split; auto. split; [apply (K True); rewrite G; discriminate|]. split; [rewrite G; cbn; intuition discriminate|lia].
    + specialize (F eq_refl). subst y. apply inc_cons in I2. destruct I2 as (I2 & I4). split; [|split; [|split]].
      * apply inc_app. split; auto. split; auto. intros u w U W. apply I3; cbn; auto.
      * intros u. rewrite L, !in_app_iff. cbn [In]. split.
        -- intros [U|U]; (split; [|tauto]); intros ->; [apply A in U|apply I4 in U]; rewrite lt_irr in U; discriminate.
        -- intros (N & [U|[U|U]]); auto. congruence.
      * rewrite G. cbn. tauto.
      * rewrite L, !len_app, len_cons. lia.
Qed.

Lemma insert_range_ok : forall xs l, increasing lt l ->
  increasing lt (std_insert_range lt xs l) /\ (forall y, In y (std_insert_range lt xs l) <-> In y l \/ In y xs) /\
  len (std_insert_range lt xs l) <= len l + len xs.
Proof.
  unfold std_insert_range. induction xs as [|x xs]; intros l I; cbn [fold_left].
  - split; auto. split; [cbn; tauto|]. rewrite len_nil. lia.
  - destruct (insert_ok x l I) as (A & B & _ & C & D). destruct (IHxs _ A) as (E & F & G). split; auto. split.
    + intros y. rewrite F, B. cbn [In]. intuition.
    + assert (len (snd (std_insert lt x l)) <= len l + 1).
      { destruct (fst (std_insert lt x l)) eqn:X; destruct (insert_ok x l I) as (_ & _ & H & _).
        - rewrite D; [lia|]. apply H. auto.
        - destruct (std_contains lt x l) eqn:Y.
          + rewrite C; [lia|]. apply contains_ok; auto.
          + rewrite D; [lia|]. intros Z. apply contains_ok in Z; auto. congruence. }
      rewrite len_cons. lia.
Qed.

Lemma insert_enum : forall x l P, enumerates lt l P ->
  enumerates lt (snd (std_insert lt x l)) (plus P x) /\ tells (fst (std_insert lt x l)) (~ P x).
Proof.
  intros x l P (A & B). destruct (insert_ok x l A) as (C & D & E & _). split.
  - split; auto. intros y. rewrite D. unfold plus. rewrite B. tauto.
  - unfold tells. rewrite E, B. tauto.
Qed.

Lemma erase_enum : forall x l P, enumerates lt l P ->
  enumerates lt (snd (std_erase lt x l)) (minus P x) /\ tells (fst (std_erase lt x l) =? 1) (P x).
Proof.
  intros x l P (A & B). destruct (erase_ok x l A) as (C & D & E & _). split.
  - split; auto. intros y. rewrite D. unfold minus. rewrite B. tauto.
  - unfold tells. rewrite E, B. tauto.
Qed.

Lemma range_enum : forall xs l P, enumerates lt l P -> enumerates lt (std_insert_range lt xs l) (either P (fun y => In y xs)).
Proof.
  intros xs l P (A & B). destruct (insert_range_ok xs l A) as (C & D & _). split; auto. intros y. rewrite D. unfold either. rewrite B. tauto.
Qed.

Lemma nil_inc : increasing lt [].
Proof. constructor. Qed.

Lemma of_enum : forall xs, enumerates lt (set_of lt xs) (fun y => In y xs).
Proof.
  intros xs. destruct (insert_range_ok xs [] nil_inc) as (C & D & _). split; auto. intros y. unfold set_of. rewrite D. cbn. tauto.
Qed.

(** ** Merges *)
Lemma includes_nil : forall l, std_includes lt l [] = true.
Proof. destruct l; auto. Qed.
Lemma includes_cons : forall x l y m, std_includes lt (x :: l) (y :: m) =
  if lt y x then false else if lt x y then std_includes lt l (y :: m) else std_includes lt l m.
Proof. reflexivity. Qed.

Lemma includes_ok : forall l m, increasing lt l -> increasing lt m -> (std_includes lt l m = true <-> forall x, In x m -> In x l).
Proof.
  induction l as [|x l]; intros m A B.
  - destruct m as [|y m]; cbn; [tauto|]. split; [discriminate|]. intros H. destruct (H y); auto.
  - destruct m as [|y m]; [rewrite includes_nil; cbn; tauto|]. rewrite includes_cons.
    apply inc_cons in A. destruct A as (A1 & A2). assert (B' := B). apply inc_cons in B'. destruct B' as (B1 & B2).
    destruct (lt y x) eqn:E; [|destruct (lt x y) eqn:F].
    + split; [discriminate|]. intros H. destruct (H y) as [X|X]; cbn; auto.
      * subst. rewrite lt_irr in E. discriminate.
      * apply A2 in X. rewrite (lt_asym _ _ X) in E. discriminate.
    + rewrite IHl by auto. split; intros H z Z; [right; auto|]. destruct (H z Z) as [X|X]; auto. subst.
      destruct Z as [Z|Z]; [subst; congruence|]. apply B2 in Z. congruence.
    + assert (x = y) by (apply lt_neither; auto). subst y. rewrite IHl by auto. split; intros H z Z.
      * destruct Z as [Z|Z]; cbn; auto.
      * destruct (H z) as [X|X]; cbn; auto. subst. apply B2 in Z. rewrite lt_irr in Z. discriminate.
Qed.

Lemma inter_nil_r : forall l, std_intersection lt l [] = [].
Proof. destruct l; auto. Qed.
Lemma inter_cons : forall x l y m, std_intersection lt (x :: l) (y :: m) =
  if lt x y then std_intersection lt l (y :: m) else if lt y x then std_intersection lt (x :: l) m else x :: std_intersection lt l m.
Proof. reflexivity. Qed.
Lemma union_nil_r : forall l, std_union lt l [] = l.
Proof. destruct l; auto. Qed.
Lemma union_nil_l : forall l, std_union lt [] l = l.
Proof. destruct l; auto. Qed.
Lemma union_cons : forall x l y m, std_union lt (x :: l) (y :: m) =
  if lt x y then x :: std_union lt l (y :: m) else if lt y x then y :: std_union lt (x :: l) m else x :: std_union lt l m.
Proof. reflexivity. Qed.
Lemma diff_nil_r : forall l, std_difference lt l [] = l.
Proof. destruct l; auto. Qed.
Lemma diff_nil_l : forall l, std_difference lt [] l = [].
Proof. destruct l; auto. Qed.
Lemma diff_cons : forall x l y m, std_difference lt (x :: l) (y :: m) =
  if lt x y then x :: std_difference lt l (y :: m) else if lt y x then std_difference lt (x :: l) m else std_difference lt l m.
Proof. reflexivity. Qed.
Lemma sym_nil_r : forall l, std_symmetric_difference lt l [] = l.
Proof. destruct l; auto. Qed.
Lemma sym_nil_l : forall l, std_symmetric_difference lt [] l = l.
Proof. destruct l; auto. Qed.
Lemma sym_cons : forall x l y m, std_symmetric_difference lt (x :: l) (y :: m) =
  if lt x y then x :: std_symmetric_difference lt l (y :: m) else if lt y x then y :: std_symmetric_difference lt (x :: l) m
  else std_symmetric_difference lt l m.
Proof. reflexivity. Qed.

(** Facts about two increasing lists by the comparison of their heads. *)
Lemma below : forall x y m, increasing lt (y :: m) -> lt x y = true -> ~ In x (y :: m).
Proof.
  intros x y m B F X. apply inc_cons in B. destruct B as (B1 & B2). destruct X as [->|X]; [rewrite lt_irr in F; discriminate|].
  apply B2 in X. rewrite (lt_asym _ _ X) in F. discriminate.
Qed.
Lemma head_fresh : forall x l, increasing lt (x :: l) -> ~ In x l.
Proof. intros x l A X. apply inc_cons in A. apply A in X. rewrite lt_irr in X. discriminate. Qed.
Lemma inc_tail : forall x l, increasing lt (x :: l) -> increasing lt l.
Proof. intros x l A. apply inc_cons in A. tauto. Qed.

Ltac heads x l y m A B :=
  pose proof (head_fresh x l A); pose proof (head_fresh y m B); pose proof (inc_tail x l A); pose proof (inc_tail y m B);
  destruct (lt x y) eqn:E; [pose proof (below x y m B E)|destruct (lt y x) eqn:F; [pose proof (below y x l A F)|assert (x = y) by (apply lt_neither; auto); subst y]].

Lemma inter_ok : forall l m, increasing lt l -> increasing lt m -> forall z, In z (std_intersection lt l m) <-> In z l /\ In z m.
Proof.
  induction l as [|x l]; intros m A B z; [destruct m; cbn; tauto|]. induction m as [|y m]; [cbn; tauto|]. rewrite inter_cons.
  heads x l y m A B.
  - rewrite IHl by auto. cbn [In] in *. split; [tauto|]. intros ([->|Z] & Y); tauto.
  - rewrite IHm by auto. cbn [In] in *. split; [tauto|]. intros (X & [->|Z]); tauto.
  - cbn [In]. rewrite IHl by auto. cbn [In] in *. split; [tauto|]. intros ([->|Z] & [Y|Y]); subst; tauto.
Qed.

Lemma union_ok : forall l m, forall z, increasing lt l -> increasing lt m -> In z (std_union lt l m) <-> In z l \/ In z m.
Proof.
  induction l as [|x l]; intros m z A B; [rewrite union_nil_l; cbn; tauto|]. induction m as [|y m]; [cbn; tauto|]. rewrite union_cons.
  heads x l y m A B; cbn [In].
  - rewrite IHl by auto. cbn [In]. tauto.
  - rewrite IHm by auto. cbn [In]. tauto.
  - rewrite IHl by auto. tauto.
Qed.

Lemma diff_ok : forall l m, increasing lt l -> increasing lt m -> forall z, In z (std_difference lt l m) <-> In z l /\ ~ In z m.
Proof.
  induction l as [|x l]; intros m A B z; [rewrite diff_nil_l; cbn; tauto|]. induction m as [|y m]; [cbn; tauto|]. rewrite diff_cons.
  heads x l y m A B.
  - cbn [In]. rewrite IHl by auto. cbn [In] in *. split; [|tauto]. intros [->|Z]; tauto.
  - rewrite IHm by auto. cbn [In] in *. split; [|tauto]. intros (X & Y). split; auto. intros [->|Z]; tauto.
  - rewrite IHl by auto. cbn [In] in *. split; [|tauto]. intros (X & Y). split; auto. intros [->|Z]; tauto.
Qed.

Lemma sym_ok : forall l m, increasing lt l -> increasing lt m ->
  forall z, In z (std_symmetric_difference lt l m) <-> (In z l /\ ~ In z m) \/ (In z m /\ ~ In z l).
Proof.
  induction l as [|x l]; intros m A B z; [rewrite sym_nil_l; cbn; tauto|]. induction m as [|y m]; [cbn; tauto|]. rewrite sym_cons.
  heads x l y m A B.
  - cbn [In]. rewrite IHl by auto. cbn [In] in *. split; [|tauto]. intros [->|[Z|(Y & Z)]]; try tauto. right. split; auto. intros [->|W]; tauto.
  - cbn [In]. rewrite IHm by auto. cbn [In] in *. split; [|tauto]. intros [->|[(Y & Z)|Z]]; try tauto. left. split; auto. intros [->|W]; tauto.
  - rewrite IHl by auto. cbn [In] in *. split.
    + intros [(X & Y)|(X & Y)]; [left|right]; (split; [tauto|]); intros [->|W]; tauto.
    + tauto.
Qed.

Lemma inter_len : forall l m, len (std_intersection lt l m) <= len l.
Proof.
  induction l as [|x l]; intros m; [destruct m; cbn; lia|]. induction m as [|y m]; [rewrite inter_nil_r, len_nil; apply len_nonneg|]. rewrite inter_cons.
  destruct (lt x y); [|destruct (lt y x)]; rewrite ?len_cons in *; [specialize (IHl (y :: m)); lia|lia|specialize (IHl m); lia].
Qed.
Lemma union_len : forall l m, len (std_union lt l m) <= len l + len m.
Proof.
  induction l as [|x l]; intros m; [rewrite union_nil_l, len_nil; lia|]. induction m as [|y m]; [rewrite union_nil_r, len_nil; lia|]. rewrite union_cons.
  destruct (lt x y); [|destruct (lt y x)]; rewrite ?len_cons in *; [specialize (IHl (y :: m)); rewrite len_cons in IHl; lia|lia|specialize (IHl m); lia].
Qed.
Lemma diff_len : forall l m, len (std_difference lt l m) <= len l.
Proof.
  induction l as [|x l]; intros m; [rewrite diff_nil_l; lia|]. induction m as [|y m]; [rewrite diff_nil_r; lia|]. rewrite diff_cons.
  destruct (lt x y); [|destruct (lt y x)]; rewrite ?len_cons in *; [specialize (IHl (y :: m)); lia|lia|specialize (IHl m); lia].
Qed.
Lemma sym_len : forall l m, len (std_symmetric_difference lt l m) <= len l + len m.
Proof.
  induction l as [|x l]; intros m; [rewrite sym_nil_l, len_nil; lia|]. induction m as [|y m]; [rewrite sym_nil_r, len_nil; lia|]. rewrite sym_cons.
  destruct (lt x y); [|destruct (lt y x)]; rewrite ?len_cons in *; [specialize (IHl (y :: m)); rewrite len_cons in IHl; lia|lia|specialize (IHl m); lia].
Qed.

(** ** The operators *)
Lemma made_enum : forall xs P, (forall z, In z xs <-> P z) -> enumerates lt (std_insert_range lt xs []) P.
Proof. intros xs P H. eapply enum_same; [apply of_enum|]. exact H. Qed.

Theorem and_ok : forall l m P Q, enumerates lt l P -> enumerates lt m Q -> enumerates lt (set_and lt l m) (both P Q).
Proof. intros l m P Q (A & B) (C & D). apply made_enum. intros z. rewrite inter_ok by auto. unfold both. rewrite B, D. tauto. Qed.
Theorem or_ok : forall l m P Q, enumerates lt l P -> enumerates lt m Q -> enumerates lt (set_or lt l m) (either P Q).
Proof. intros l m P Q (A & B) (C & D). apply made_enum. intros z. rewrite union_ok by auto. unfold either. rewrite B, D. tauto. Qed.
Theorem sub_ok : forall l m P Q, enumerates lt l P -> enumerates lt m Q -> enumerates lt (set_sub lt l m) (only P Q).
Proof. intros l m P Q (A & B) (C & D). apply made_enum. intros z. rewrite diff_ok by auto. unfold only. rewrite B, D. tauto. Qed.
Theorem xor_ok : forall l m P Q, enumerates lt l P -> enumerates lt m Q -> enumerates lt (set_xor lt l m) (one P Q).
Proof. intros l m P Q (A & B) (C & D). apply made_enum. intros z. rewrite sym_ok by auto. unfold one. rewrite !B, !D. tauto. Qed.

Lemma made_len : forall xs, len (std_insert_range lt xs []) <= len xs.
Proof. intros xs. destruct (insert_range_ok xs [] nil_inc) as (_ & _ & H). rewrite len_nil in H. lia. Qed.
Lemma and_len : forall l m, len (set_and lt l m) <= len l.
Proof. intros l m. unfold set_and. pose proof (made_len (std_intersection lt l m)). pose proof (inter_len l m). lia. Qed.
Lemma or_len : forall l m, len (set_or lt l m) <= len l + len m.
Proof. intros l m. unfold set_or. pose proof (made_len (std_union lt l m)). pose proof (union_len l m). lia. Qed.
Lemma sub_len : forall l m, len (set_sub lt l m) <= len l.
Proof. intros l m. unfold set_sub. pose proof (made_len (std_difference lt l m)). pose proof (diff_len l m). lia. Qed.
Lemma xor_len : forall l m, len (set_xor lt l m) <= len l + len m.
Proof. intros l m. unfold set_xor. pose proof (made_len (std_symmetric_difference lt l m)). pose proof (sym_len l m). lia. Qed.

(** ** Comparison *)
Theorem le_ok : forall l m P Q, enumerates lt l P -> enumerates lt m Q -> tells (set_le lt l m) (included P Q).
Proof.
  intros l m P Q (A & B) (C & D). unfold tells, set_le, included. rewrite includes_ok by auto.
  split; intros H x X; [apply D, H, B; auto|apply D, H, B, X].
Qed.

Theorem lt_ok : forall l m P Q, enumerates lt l P -> enumerates lt m Q -> len l <= INT_MAX -> len m <= INT_MAX ->
  tells (set_lt lt l m) (included P Q /\ ~ included Q P).
Proof.
  intros l m P Q A B L M. pose proof (le_ok l m P Q A B) as K. unfold tells in *. unfold set_lt. rewrite andb_true_iff, K, !size_ok by auto. clear K.
  rewrite negb_true_iff, Z.eqb_neq. destruct A as (A1 & A2), B as (B1 & B2). split.
  - intros (N & I). split; auto. intros J. apply N. unfold len. f_equal. apply Nat.le_antisymm.
    + apply NoDup_incl_length; [apply inc_nodup; auto|]. intros x X. apply B2, I, A2. auto.
    + apply NoDup_incl_length; [apply inc_nodup; auto|]. intros x X. apply A2, J, B2. auto.
  - intros (I & J). split; auto. intros E. apply J. intros x X.
    assert (incl m l) as K.
    { apply NoDup_length_incl; [apply inc_nodup; auto|unfold len in E; lia|]. intros y Y. apply B2, I, A2. auto. }
    apply A2, K, B2. auto.
Qed.

Theorem eq_ok : forall eqb l m P Q, decides eqb -> enumerates lt l P -> enumerates lt m Q -> tells (set_eqb eqb l m) (same P Q).
Proof.
  intros eqb l m P Q D A B. unfold tells, set_eqb. rewrite (eqb_spec _ eqb D l m). split.
  - intros ->. intros x. destruct A as (_ & A), B as (_ & B). rewrite <- A, <- B. tauto.
  - intros S. eapply enum_unique; eauto.
Qed.

(** ** Extrema *)
Lemma enum_nil : forall l P, enumerates lt l P -> (l = [] <-> nothing P).
Proof.
  intros l P (A & B). split.
  - intros -> x X. apply B in X. destruct X.
  - intros N. destruct l as [|x l]; auto. destruct (N x). apply B. left. auto.
Qed.

Lemma least_unique : forall P x y, least lt P x -> least lt P y -> x = y.
Proof.
  intros P x y (A & B) (C & D). destruct (B y C) as [E|E]; auto. destruct (D x A) as [F|F]; auto. rewrite (lt_asym _ _ E) in F. discriminate.
Qed.
Lemma greatest_unique : forall P x y, greatest lt P x -> greatest lt P y -> x = y.
Proof.
  intros P x y (A & B) (C & D). destruct (B y C) as [E|E]; auto. destruct (D x A) as [F|F]; auto. rewrite (lt_asym _ _ E) in F. discriminate.
Qed.

Lemma head_least : forall x l P, enumerates lt (x :: l) P -> least lt P x.
Proof.
  intros x l P (A & B). split; [apply B; left; auto|]. intros y Y. apply B in Y. apply inc_cons in A. destruct Y as [->|Y]; auto. right. apply A. auto.
Qed.
Lemma last_greatest : forall x l P, enumerates lt (l ++ [x]) P -> greatest lt P x.
Proof.
  intros x l P (A & B). split; [apply B; apply in_or_app; cbn; auto|]. intros y Y. apply B in Y. apply inc_app in A. destruct A as (_ & _ & A).
  apply in_app_or in Y. destruct Y as [Y|[->|[]]]; auto. right. apply A; cbn; auto.
Qed.
Lemma tail_enum : forall x l P, enumerates lt (x :: l) P -> enumerates lt l (minus P x).
Proof.
  intros x l P (A & B). pose proof (head_fresh x l A) as N. split; [apply (inc_tail x l); auto|]. intros y. unfold minus. rewrite <- B. cbn [In]. split.
  - intros Y. split; auto. intros ->. auto.
  - intros (X & [Y|Y]); auto. congruence.
Qed.
End Order.
