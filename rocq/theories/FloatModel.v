(** IEEE 754 binary64. Not library code: the arithmetic the library's [double]
    expressions use, taken from Flocq (round to nearest, ties to even; one NaN). *)
From Coq Require Import ZArith Bool Lia.
From Flocq Require Import Core BinarySingleNaN.
From Verif Require Import Outcome.
Open Scope Z_scope.

Definition dprec : Z := 53.
Definition demax : Z := 1024.
Definition double : Type := binary_float 53 1024.

Lemma dprec_pos : Prec_gt_0 53.
Proof. reflexivity. Qed.
Lemma dprec_emax : Prec_lt_emax 53 1024.
Proof. reflexivity. Qed.

(** Conversion of an integer to double (rounded to nearest when not exact). *)
Definition double_of_Z (z : Z) : double := binary_normalize 53 1024 dprec_pos dprec_emax mode_NE z 0 false.
Definition dadd (x y : double) : double := @Bplus 53 1024 dprec_pos dprec_emax mode_NE x y.
Definition dsub (x y : double) : double := @Bminus 53 1024 dprec_pos dprec_emax mode_NE x y.
Definition dmul (x y : double) : double := @Bmult 53 1024 dprec_pos dprec_emax mode_NE x y.
Definition ddiv (x y : double) : double := @Bdiv 53 1024 dprec_pos dprec_emax mode_NE x y.
Definition dopp (x : double) : double := Bopp x.
Definition dabs (x : double) : double := Babs x.
(** [x == y], [x < y], [x <= y] on doubles. *)
Definition deqb (x y : double) : bool := Beqb x y.
Definition dltb (x y : double) : bool := Bltb x y.
Definition dleb (x y : double) : bool := Bleb x y.

(** [std::floor(x)] followed by a conversion to [int]. *)
Definition floor_to_int (x : double) : outcome Z :=
  if is_finite x then
    let z := Btrunc (@Bnearbyint 53 1024 dprec_emax mode_DN x) in
    if in_int z then Ok z else UB BadConversion
  else UB BadConversion.
