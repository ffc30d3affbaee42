(** Texts on which extraction departs from the properties. *)
From Coq Require Import String Ascii ZArith List Bool Lia.
From Flocq Require Import BinarySingleNaN.
From Verif Require Import Outcome IntModel StreamModel FloatModel FracModel FracSpec FracIO ComplexModel ComplexSpec ComplexIO ExTools.
Import ListNotations.
Open Scope Z_scope.

#[local] Opaque double_of_Z.

Definition stream (s : string) : istream := IStream (chars s) false false.

(** Two points are taken for two numbers. *)
Lemma two_points : forall strtod x y z, gives strtod (chars "1.5") x -> gives strtod (chars ".5") y ->
  cx_extract strtod 1 (stream "1.5.5j") z = (Ok tt, (IStream [] true false, Cx x y)).
Proof.
  intros strtod x y z. unfold gives. vm_compute. intros V W. rewrite V. vm_compute. rewrite W. reflexivity.
Qed.

(** White space before the j is skipped. *)
Lemma space_before_j : forall strtod x y z, gives strtod (chars "1") x -> gives strtod (chars "+2") y ->
  cx_extract strtod 1 (stream "1+2 j") z = (Ok tt, (IStream [] true false, Cx x y)).
Proof.
  intros strtod x y z. unfold gives. vm_compute. intros V W. rewrite V. vm_compute. rewrite W. reflexivity.
Qed.

(** A sign alone is no number; no exception is thrown. *)
Lemma lone_sign : forall strtod x z, strtod (chars "+") = (x, true) ->
  cx_extract strtod 1 (stream "+z") z = (Ok tt, (IStream (chars "z") false true, cx_of x)).
Proof.
  intros strtod x z. vm_compute. intros V. rewrite V. reflexivity.
Qed.

Lemma digit_number : forall c, digit c -> number [c].
Proof.
  intros c H. exists [], [c], []. split; [reflexivity|]. split; [left; auto|]. split; [|left; auto].
  left. split; [discriminate|]. constructor; auto.
Qed.
Lemma signed_digit : forall s c, (s = "+"%char \/ s = "-"%char) -> digit c -> signed_number [s; c].
Proof.
  intros s c S H. split; [|exists s, [c]; auto]. exists [s], [c], []. split; [reflexivity|].
  split; [destruct S as [->| ->]; unfold sign_opt; auto|]. split; [|left; auto]. left. split; [discriminate|]. constructor; auto.
Qed.

(** The texts the source comments name. *)
Lemma junk_undefined : forall strtod x z, gives strtod (chars "1") x -> snd (strtod []) = true ->
  exists s', cx_extract strtod 1 (stream "1z+2j") z = (UB Indeterminate, (s', z)).
Proof.
  intros strtod x z V BAD. apply (undefined_junk strtod [] (chars "1") x "z"%char (chars "+2j") z 1); auto.
  - apply digit_number. vm_compute. split; discriminate.
  - unfold stop_char. repeat split; try reflexivity; discriminate.
  - reflexivity.
  - discriminate.
Qed.
Lemma no_j_undefined : forall strtod x y z, gives strtod (chars "1") x -> gives strtod (chars "+2") y ->
  exists s', cx_extract strtod 1 (stream "1+2") z = (UB Indeterminate, (s', z)).
Proof.
  intros strtod x y z V W. apply (undefined_no_j strtod [] (chars "1") (chars "+2") x y [] z 1); auto.
  - apply digit_number. vm_compute. split; discriminate.
  - apply signed_digit; auto. vm_compute. split; discriminate.
Qed.

(** A conversion that knows a few texts, for the worked examples. *)
Definition sample (t : list ascii) : double * bool :=
  let is s := if list_eq_dec ascii_dec t (chars s) then true else false in
  if is "1"%string then (double_of_Z 1, false)
  else if is "+2"%string then (double_of_Z 2, false)
  else if is "-2"%string then (double_of_Z (-2), false)
  else if is "1.5"%string then (ddiv (double_of_Z 3) (double_of_Z 2), false)
  else if is ".5"%string then (ddiv (double_of_Z 1) (double_of_Z 2), false)
  else (double_of_Z 0, true).
