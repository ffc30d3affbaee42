(** Proofs about tuples. *)
From Coq Require Import String Ascii ZArith List Bool Lia Eqdep_dec.
From Verif Require Import Outcome TupleModel TupleSpec.
Import ListNotations.
Open Scope Z_scope.

Lemma size_make : forall U (el : U -> Type) (l : list (arg el)), tuple_size (make_tuple l) = Z.of_nat (length l).
Proof. intros U el l. unfold tuple_size. rewrite map_length. auto. Qed.

Lemma get_make : forall U (el : U -> Type) (l : list (arg el)) i, tuple_get (make_tuple l) i = nth_error l i.
Proof.
  intros U el l. induction l as [|[u x] l IH]; intros [|i]; cbn [make_tuple tuple_get nth_error projT1 projT2]; auto.
Qed.

Lemma rest_make : forall U (el : U -> Type) (l : list (arg el)),
  tuple_rest (make_tuple l) = match l with [] => None | _ :: l' => Some (existT _ _ (make_tuple l')) end.
Proof. intros U el [|[u x] l]; auto. Qed.

Lemma eqb_make : forall U (el : U -> Type) same (eqv : forall u, el u -> el u -> bool) (l m : list (arg el)),
  tuple_eqb same eqv (make_tuple l) (make_tuple m) = true <-> Forall2 (same_value eqv) l m.
Proof.
  intros U el same eqv l. induction l as [|[u x] l IH]; intros m.
  - cbn [make_tuple tuple_eqb]. rewrite size_make. rewrite Z.eqb_eq. destruct m; split; intros H; try constructor; try (inversion H; fail); cbn in *; lia.
  - destruct m as [|[v y] m]; cbn [make_tuple tuple_eqb projT1 projT2].
    + split; [discriminate|]. intros H; inversion H.
    + destruct (same u v) as [->|N].
      * cbn [eq_rect]. destruct (eqv v x y) eqn:E.
        { rewrite IH. split.
          - intros F. constructor; auto. exists v, x, y. auto.
          - intros F. inversion F; auto. }
        { split; [discriminate|]. intros F. inversion F as [|? ? ? ? S _]. destruct S as (w & a & b & P & Q & R).
          pose proof (f_equal (@projT1 _ _) P) as PW. cbn in PW. subst w.
          apply inj_pair2_eq_dec in P; [|exact same]. apply inj_pair2_eq_dec in Q; [|exact same]. subst a b. congruence. }
      * split; [discriminate|]. intros F. inversion F as [|? ? ? ? S _]. destruct S as (w & a & b & P & Q & R).
        apply (f_equal (@projT1 _ _)) in P. apply (f_equal (@projT1 _ _)) in Q. cbn in P, Q. congruence.
Qed.

Lemma neqb_make : forall U (el : U -> Type) same (eqv : forall u, el u -> el u -> bool) us (t : tuple el us) vs (s : tuple el vs),
  tuple_neqb same eqv t s = negb (tuple_eqb same eqv t s).
Proof. intros U el same eqv us t vs s. destruct t; reflexivity. Qed.

(** When the elements' [operator==] is equality, so is the tuples'. *)
Lemma eqb_exact : forall U (el : U -> Type) same (eqv : forall u, el u -> el u -> bool),
  (forall u a b, eqv u a b = true <-> a = b) -> forall l m : list (arg el),
  tuple_eqb same eqv (make_tuple l) (make_tuple m) = true <-> l = m.
Proof.
  intros U el same eqv H l m. rewrite eqb_make. split.
  - intros F. induction F as [|p q l m (u & a & b & -> & -> & E) F IH]; auto. apply H in E. subst. auto.
  - intros ->. induction m as [|[u x] m IH]; constructor; auto. exists u, x, x. repeat split; auto. apply H. auto.
Qed.

Lemma eqb_sym : forall U (el : U -> Type) same (eqv : forall u, el u -> el u -> bool),
  (forall u a b, eqv u a b = eqv u b a) -> forall l m : list (arg el),
  tuple_eqb same eqv (make_tuple l) (make_tuple m) = tuple_eqb same eqv (make_tuple m) (make_tuple l).
Proof.
  intros U el same eqv H l m. apply eq_true_iff_eq. rewrite !eqb_make.
  assert (forall l m : list (arg el), Forall2 (same_value eqv) l m -> Forall2 (same_value eqv) m l) as K.
  { intros l' m' F. induction F as [|p q l' m' (u & a & b & -> & -> & E) F IH]; constructor; auto. exists u, b, a. rewrite H. auto. }
  split; apply K.
Qed.

Lemma commas_cons : forall x l, l <> [] -> commas (x :: l) = x ++ list_ascii_of_string ", " ++ commas l.
Proof. intros x [|y l] N; [contradiction|auto]. Qed.

Lemma print_rest_make : forall U (el : U -> Type) (show : forall u, el u -> list ascii) (l : list (arg el)),
  print_rest show (make_tuple l) = commas (map (text_of show) l).
Proof.
  intros U el show l. induction l as [|[u x] l IH]; auto.
  cbn [make_tuple print_rest map projT1 projT2]. rewrite IH. unfold tuple_size. cbn [length]. rewrite map_length.
  destruct l as [|y l].
  - cbn [length map commas]. rewrite !app_nil_r. reflexivity.
  - rewrite commas_cons by discriminate. cbn [length]. match goal with |- context [?a =? 1] => destruct (Z.eqb_spec a 1) as [E|E] end; [lia|reflexivity].
Qed.

Lemma print_make : forall U (el : U -> Type) (show : forall u, el u -> list ascii) (l : list (arg el)),
  tuple_print show (make_tuple l) = shown (map (text_of show) l).
Proof.
  intros U el show l. destruct l as [|[u x] [|[v y] l]]; auto.
  unfold shown. rewrite <- print_rest_make. reflexivity.
Qed.
