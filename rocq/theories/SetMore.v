(** Further facts about sets: single calls, algebra, sets at the size limit, sets of sets. *)
From Coq Require Import ZArith List Bool Ascii Lia Sorted.
From Verif Require Import Outcome ListModel ListSpec ListFacts ListMore SetModel SetSpec SetFacts.
Import ListNotations.
Open Scope Z_scope.

Section More.
Context {T : Type} (lt : T -> T -> bool).
Hypothesis O : strict_total lt.

Theorem min_max_pop : forall a P, enumerates lt a P -> len a <= INT_MAX ->
  (nothing P -> set_min a = Throw ContainerEmpty /\ set_max a = Throw ContainerEmpty /\ set_pop a = (Throw ContainerEmpty, a)) /\
  (~ nothing P -> exists x y a', set_min a = Ok x /\ least lt P x /\ set_max a = Ok y /\ greatest lt P y /\
     set_pop a = (Ok x, a') /\ enumerates lt a' (minus P x)).
Proof.
  intros a P E L. unfold set_min, set_max, set_pop. rewrite size_ok by auto. split; intros N.
  - apply (enum_nil lt _ _ E) in N. subst. repeat split.
  - destruct a as [|x l]; [destruct N; apply (enum_nil lt _ _ E); auto|]. unfold check_empty.
    destruct (Z.eqb_spec (len (x :: l)) 0) as [Z|Z]; [rewrite len_cons in Z; pose proof (len_nonneg _ l); lia|]. cbn [bind].
    destruct (rev (x :: l)) as [|y m] eqn:R; [apply (f_equal (@length T)) in R; rewrite rev_length in R; discriminate|].
    exists x, y, l. split; auto. split; [apply (head_least lt x l); auto|]. split; auto. split.
    + apply (last_greatest lt y (rev m)). replace (rev m ++ [y]) with (x :: l); auto. rewrite <- (rev_involutive (x :: l)), R. auto.
    + split; auto. apply (tail_enum lt O); auto.
Qed.

Theorem add_remove_ok : forall a P x, enumerates lt a P -> len a <= INT_MAX ->
  (len a = INT_MAX -> set_add lt x a = (Throw ContainerFull, a)) /\
  (len a < INT_MAX -> exists b a', set_add lt x a = (Ok b, a') /\ tells b (~ P x) /\ enumerates lt a' (plus P x)) /\
  (exists b a', set_remove lt x a = (Ok b, a') /\ tells b (P x) /\ enumerates lt a' (minus P x)).
Proof.
  intros a P x E L. unfold set_add, set_remove. rewrite size_ok by auto. split; [|split].
  - intros X. rewrite full_throw by lia. auto.
  - intros X. rewrite full_ok by lia. destruct (insert_enum lt O x _ _ E) as (B & C). destruct (std_insert lt x a) as (b, a'). cbn in *. eauto.
  - destruct (erase_enum lt O x _ _ E) as (B & C). destruct (std_erase lt x a) as (n, a'). cbn in *. eauto.
Qed.

Theorem contains_spec : forall a P x, enumerates lt a P -> tells (set_contains lt a x) (P x).
Proof. intros a P x (A & B). unfold tells, set_contains. rewrite (contains_ok lt O) by auto. apply B. Qed.

Theorem extend_clear_ok : forall a P xs, enumerates lt a P ->
  (exists a', set_extend lt xs a = (Ok tt, a') /\ enumerates lt a' (either P (fun y => In y xs))) /\
  set_clear a = (Ok tt, []) /\ enumerates lt (set_of lt xs) (fun y => In y xs).
Proof.
  intros a P xs E. split; [|split].
  - eexists. split; [reflexivity|]. apply (range_enum lt O). auto.
  - reflexivity.
  - apply (of_enum lt O).
Qed.

Theorem assign_ok : forall a b, set_and_assign lt b a = (Ok tt, set_and lt a b) /\ set_or_assign lt b a = (Ok tt, set_or lt a b) /\
  set_sub_assign lt b a = (Ok tt, set_sub lt a b) /\ set_xor_assign lt b a = (Ok tt, set_xor lt a b).
Proof. intros. repeat split. Qed.

(** Membership decides equality of sets. *)
Lemma by_members : forall l m P Q, enumerates lt l P -> enumerates lt m Q -> (forall x, P x <-> Q x) -> l = m.
Proof. intros. eapply (enum_unique lt O); eauto. Qed.
Lemma self_enum : forall a, increasing lt a -> enumerates lt a (fun x => In x a).
Proof. intros a I. split; auto. tauto. Qed.

Theorem of_unique : forall xs ys, (forall x, In x xs <-> In x ys) <-> set_of lt xs = set_of lt ys.
Proof.
  intros xs ys. split.
  - intros H. eapply by_members; [apply (of_enum lt O)|apply (of_enum lt O)|exact H].
  - intros H x. destruct (of_enum lt O xs) as (_ & A), (of_enum lt O ys) as (_ & B). rewrite <- A, <- B, H. tauto.
Qed.

Theorem of_self : forall a, increasing lt a -> set_of lt a = a.
Proof. intros a I. eapply by_members; [apply (of_enum lt O)|apply self_enum; auto|]. cbn. tauto. Qed.

Theorem algebra : forall a b c, increasing lt a -> increasing lt b -> increasing lt c ->
  set_and lt a b = set_and lt b a /\ set_or lt a b = set_or lt b a /\ set_xor lt a b = set_xor lt b a /\
  set_and lt a (set_and lt b c) = set_and lt (set_and lt a b) c /\
  set_or lt a (set_or lt b c) = set_or lt (set_or lt a b) c /\
  set_xor lt a (set_xor lt b c) = set_xor lt (set_xor lt a b) c /\
  set_and lt a (set_or lt b c) = set_or lt (set_and lt a b) (set_and lt a c) /\
  set_or lt a (set_and lt b c) = set_and lt (set_or lt a b) (set_or lt a c) /\
  set_sub lt a (set_or lt b c) = set_and lt (set_sub lt a b) (set_sub lt a c) /\
  set_sub lt a (set_and lt b c) = set_or lt (set_sub lt a b) (set_sub lt a c) /\
  set_xor lt a b = set_sub lt (set_or lt a b) (set_and lt a b) /\
  set_or lt (set_sub lt a b) (set_and lt a b) = a /\
  set_xor lt (set_xor lt a b) b = a /\
  set_and lt a a = a /\ set_or lt a a = a /\ set_sub lt a a = [] /\ set_xor lt a a = [].
Proof.
  intros a b c A B C. pose proof (self_enum a A) as EA. pose proof (self_enum b B) as EB. pose proof (self_enum c C) as EC.
  assert (NIL: enumerates lt [] (fun _ : T => False)) by (split; [constructor|cbn; tauto]).
  assert (DEC: forall x l, increasing lt l -> In x l \/ ~ In x l).
  { intros x l I. destruct (std_contains lt x l) eqn:Q; [left; apply (contains_ok lt O); auto|right; intros X; apply (contains_ok lt O) in X; auto; congruence]. }
  repeat match goal with |- _ /\ _ => split end;
    (eapply by_members; [eauto 8 using (and_ok lt O), (or_ok lt O), (sub_ok lt O), (xor_ok lt O)
                        |eauto 8 using (and_ok lt O), (or_ok lt O), (sub_ok lt O), (xor_ok lt O)|];
     intros x; unfold both, either, only, one; pose proof (DEC x a A); pose proof (DEC x b B); pose proof (DEC x c C); tauto).
Qed.
End More.

(** ** At the size limit *)
Lemma numbers : forall n k, exists l : list Z, increasing Z.ltb l /\ length l = n /\ forall x, In x l -> k <= x.
Proof.
  induction n; intros k.
  - exists []. split; [constructor|]. split; auto. intros x [].
  - destruct (IHn (k + 1)) as (l & I & L & B). exists (k :: l). split; [|split].
    + apply inc_cons. split; auto. intros y Y. apply B in Y. apply Z.ltb_lt. lia.
    + cbn. auto.
    + intros x [->|X]; [lia|]. apply B in X. lia.
Qed.

Lemma Zltb_total : strict_total Z.ltb.
Proof.
  split; [exact Z.ltb_irrefl|]. split.
  - intros x y z. rewrite !Z.ltb_lt. lia.
  - intros x y. rewrite !Z.ltb_lt. lia.
Qed.

Lemma full_set : exists l : list Z, increasing Z.ltb l /\ len l = INT_MAX /\ forall x, In x l -> 0 <= x.
Proof.
  destruct (numbers (Z.to_nat INT_MAX) 0) as (l & I & L & B). exists l. split; auto. split; auto.
  unfold len. rewrite L. apply Z2Nat.id. unfold INT_MAX. lia.
Qed.

Theorem add_present_full_witness : exists (a : list Z) x, increasing Z.ltb a /\ In x a /\ set_add Z.ltb x a = (Throw ContainerFull, a).
Proof.
  destruct full_set as (l & I & L & B). destruct l as [|x l]; [rewrite len_nil in L; discriminate|].
  exists (x :: l), x. split; auto. split; [left; auto|]. unfold set_add. rewrite size_ok by lia. rewrite full_throw by lia. auto.
Qed.

Theorem union_wraps_witness : exists a b : list Z, increasing Z.ltb a /\ increasing Z.ltb b /\ len b = 1 /\
  size (set_or Z.ltb a b) = INT_MIN /\ size (set_xor Z.ltb a b) = INT_MIN /\ size (snd (set_extend Z.ltb b a)) = INT_MIN.
Proof.
  destruct full_set as (l & I & L & B). exists l, [-1].
  assert (J: increasing Z.ltb [-1]) by (apply inc_cons; split; [constructor|intros y []]).
  assert (K: increasing Z.ltb (-1 :: l)) by (apply inc_cons; split; auto; intros y Y; apply B in Y; apply Z.ltb_lt; lia).
  assert (E: len (-1 :: l) = INT_MAX + 1) by (rewrite len_cons; lia).
  assert (W: forall m, m = -1 :: l -> size m = INT_MIN) by (intros m ->; unfold size; rewrite E; reflexivity).
  pose proof (self_enum Z.ltb l I) as EL. pose proof (self_enum Z.ltb _ J) as EJ. pose proof (self_enum Z.ltb _ K) as EK. pose proof Zltb_total as O.
  split; auto. split; auto. split; [reflexivity|]. split; [|split]; apply W.
  - eapply (by_members Z.ltb O); [apply (or_ok Z.ltb O); eauto|eauto|]. intros x. unfold either. cbn. tauto.
  - eapply (by_members Z.ltb O); [apply (xor_ok Z.ltb O); eauto|eauto|]. intros x. unfold one. cbn [In]. split; [tauto|].
    intros [X|X].
    + subst. right. split; auto. intros X. apply B in X. lia.
    + left. split; auto. intros [Y|[]]. subst. apply B in X. lia.
  - cbn [set_extend]. eapply (by_members Z.ltb O); [apply (range_enum Z.ltb O); eauto|eauto|]. intros x. unfold either. cbn. tauto.
Qed.

Theorem sizes_that_fit : forall (T : Type) (lt : T -> T -> bool) a b xs, strict_total lt -> increasing lt a -> increasing lt b ->
  (len a + len b <= INT_MAX -> size (set_or lt a b) = len (set_or lt a b) /\ size (set_xor lt a b) = len (set_xor lt a b)) /\
  (len a + len xs <= INT_MAX -> size (snd (set_extend lt xs a)) = len (snd (set_extend lt xs a))) /\
  (len a <= INT_MAX -> size (set_and lt a b) = len (set_and lt a b) /\ size (set_sub lt a b) = len (set_sub lt a b)).
Proof.
  intros T lt a b xs O A B. pose proof (and_len lt O a b). pose proof (or_len lt O a b). pose proof (sub_len lt O a b). pose proof (xor_len lt O a b).
  destruct (insert_range_ok lt O xs a A) as (_ & _ & X). split; [|split]; intros L; rewrite ?size_ok; auto; try lia. cbn [set_extend snd update]. lia.
Qed.

(** ** Sets of sets: [operator<] of Set is proper inclusion. *)
Theorem set_of_sets_witness : set_of (set_lt Z.ltb) [[1]; [2]] = [[1]] /\ set_contains (set_lt Z.ltb) [[1]] [2] = true /\
  set_eqb (list_eqb Z.eqb) [[1]] [[2]] = false.
Proof. vm_compute. auto. Qed.

Theorem set_lt_not_weak : ~ strict_weak (set_lt Z.ltb).
Proof.
  intros (_ & _ & H). destruct (H [1] [1; 3] [2] eq_refl) as [X|X]; discriminate X.
Qed.
