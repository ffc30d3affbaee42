(** Specification vocabulary for Complex: real numbers and their rounding; literals. *)
From Coq Require Import String Ascii ZArith List Bool Reals.
From Flocq Require Import Core BinarySingleNaN.
From Verif Require Import Outcome FloatModel.
Import ListNotations.
Open Scope Z_scope.

(** A real number rounded to binary64 (nearest, ties to even, no upper limit). *)
Definition rnd (r : R) : R := round radix2 (SpecFloat.fexp 53 1024) ZnearestE r.
(** No overflow when [r] is rounded. *)
Definition fits (r : R) : Prop := (Rabs (rnd r) < bpow radix2 1024)%R.

(** [x] is finite and has the value [r]. *)
Definition has (x : double) (r : R) : Prop := is_finite x = true /\ B2R x = r.
(** [x] is the integer [n]. *)
Definition int_val (x : double) (n : Z) : Prop := has x (IZR n).
Definition small (n : Z) : Prop := Z.abs n <= 2 ^ 53.

(** Values on which == is equality: zero, or at least one in magnitude. *)
Definition coarse (x : double) : Prop := is_finite x = true /\ (B2R x = 0%R \/ (1 <= Rabs (B2R x))%R).

(** ** Literals *)

Definition digit (c : ascii) : Prop := 48 <= Z.of_N (N_of_ascii c) <= 57.
Definition sign_opt (t : list ascii) : Prop := t = [] \/ t = ["+"%char] \/ t = ["-"%char].
Definition digits (t : list ascii) : Prop := Forall digit t.
(** Digits with at most one point, and at least one digit. *)
Definition mantissa (t : list ascii) : Prop :=
  (t <> [] /\ digits t) \/ (exists a b, t = a ++ "."%char :: b /\ digits a /\ digits b /\ a ++ b <> []).
Definition exponent_opt (t : list ascii) : Prop :=
  t = [] \/ exists e sg ds, t = e :: sg ++ ds /\ (e = "e"%char \/ e = "E"%char) /\ sign_opt sg /\ digits ds /\ ds <> [].
(** A floating-point literal, with an optional sign. *)
Definition number (t : list ascii) : Prop :=
  exists sg m e, t = sg ++ m ++ e /\ sign_opt sg /\ mantissa m /\ exponent_opt e.
(** A literal that begins with a sign. *)
Definition signed_number (t : list ascii) : Prop := number t /\ exists c t', t = c :: t' /\ (c = "+"%char \/ c = "-"%char).

Section Literals.
(** What the C library makes of a floating-point literal. *)
Variable value : list ascii -> double -> Prop.
Variable zero : double.
(** Texts of a complex number: real, imaginary, or both, the imaginary part with its sign. *)
Inductive complex_literal : list ascii -> double -> double -> Prop :=
| lit_real : forall t x, number t -> value t x -> complex_literal t x zero
| lit_imag : forall t y, number t -> value t y -> complex_literal (t ++ ["j"%char]) zero y
| lit_both : forall t u x y, number t -> value t x -> signed_number u -> value u y -> complex_literal (t ++ u ++ ["j"%char]) x y.
End Literals.

(** ** What extraction makes of any text *)

(** The longest prefix [t] of [t ++ r] that can be continued to a floating-point literal. *)
Definition viable (t : list ascii) : Prop := exists s, number (t ++ s).
Definition longest (t r : list ascii) : Prop :=
  viable t /\ match r with [] => True | c :: _ => ~ viable (t ++ [c]) end.

Definition opens_number (c : ascii) : Prop := digit c \/ c = "+"%char \/ c = "-"%char \/ c = "."%char.
(** White space of the C locale. *)
Definition white (c : ascii) : Prop := c = " "%char \/ 9 <= Z.of_N (N_of_ascii c) <= 13.
(** Nothing follows, or a byte up to the space. *)
Definition finished (l : list ascii) : Prop := match l with [] => True | c :: _ => Z.of_N (N_of_ascii c) <= 32 end.

Inductive reading : Type :=
| Value (x y : double)   (* the number x+yj *)
| Failed (x : double)    (* x+0j is stored and failbit set *)
| Rejected               (* the exception *)
| Undefined.

Section Reading.
(** [value t x]: [t] is converted to [x]; [flawed t x]: the conversion of [t] fails and stores [x]. *)
Variable value flawed : list ascii -> double -> Prop.
Variable zero : double.
(** A text that does not begin with white space, and what comes of it. *)
Inductive reads : list ascii -> reading -> Prop :=
| r_start : forall c l, ~ opens_number c -> reads (c :: l) Rejected
| r_flawed : forall c l t r x, opens_number c -> c :: l = t ++ r -> longest t r -> flawed t x -> reads (c :: l) (Failed x)
| r_real : forall c l t r x, opens_number c -> c :: l = t ++ r -> longest t r -> value t x -> finished r ->
    reads (c :: l) (Value x zero)
| r_imag : forall c l t r y, opens_number c -> c :: l = t ++ "j"%char :: r -> longest t ("j"%char :: r) -> value t y -> finished r ->
    reads (c :: l) (Value zero y)
| r_after_imag : forall c l t r y, opens_number c -> c :: l = t ++ "j"%char :: r -> longest t ("j"%char :: r) -> value t y -> ~ finished r ->
    reads (c :: l) Rejected
(* a second number [u], then white space [w], then one byte [d] *)
| r_flawed2 : forall c l t r x u r' y, opens_number c -> c :: l = t ++ r -> longest t r -> value t x ->
    ~ finished r -> hd " "%char r <> "j"%char -> r = u ++ r' -> longest u r' -> flawed u y -> reads (c :: l) Undefined
| r_nothing : forall c l t r x u w y, opens_number c -> c :: l = t ++ r -> longest t r -> value t x ->
    ~ finished r -> hd " "%char r <> "j"%char -> r = u ++ w -> longest u w -> value u y -> Forall white w -> reads (c :: l) Undefined
| r_other : forall c l t r x u w d r' y, opens_number c -> c :: l = t ++ r -> longest t r -> value t x ->
    ~ finished r -> hd " "%char r <> "j"%char -> r = u ++ w ++ d :: r' -> longest u (w ++ d :: r') -> value u y -> Forall white w ->
    ~ white d -> d <> "j"%char \/ ~ finished r' -> reads (c :: l) Rejected
| r_both : forall c l t r x u w r' y, opens_number c -> c :: l = t ++ r -> longest t r -> value t x ->
    ~ finished r -> hd " "%char r <> "j"%char -> r = u ++ w ++ "j"%char :: r' -> longest u (w ++ "j"%char :: r') -> value u y ->
    Forall white w -> finished r' -> reads (c :: l) (Value x y).
End Reading.
