(** What reading from a stream with formatting state should do. *)
From Coq Require Import ZArith Ascii String List Bool.
From Verif Require Import Outcome IntModel StreamModel FracModel OStreamModel FStreamModel.
Import ListNotations.
Open Scope Z_scope.

(** The default formatting state. *)
Definition plain (i : fistream) : Prop := iwidth i = 0 /\ skipws i = true /\ ibase i = Dec.

(** The same result on a stream that carries formatting state. *)
Definition lifted {A} (i : fistream) (r : outcome unit * (istream * A)) : outcome unit * (fistream * A) :=
  (fst r, (with_bare (fst (snd r)) i, snd (snd r))).

(** What [os << f] writes in base [b], everything else at its default. *)
Definition printed_in (b : radix) (f : Fraction) : list ascii :=
  written (frac_put f (OStream [] 0 " "%char SRight b false)).

(** A stream with this text, at the default state except for the base. *)
Definition input_in (b : radix) (s : list ascii) : fistream := FIStream (IStream s false false) 0 true b.

(** [d] is the first digit of [n] in base [b]. *)
Definition first_digit (b n d : Z) : Prop := exists k, 0 <= k /\ d * b ^ k <= n < (d + 1) * b ^ k /\ 0 <= d < b /\ (d = 0 -> n = 0).

(** The formatting state is the same. *)
Definition kept (i j : fistream) : Prop := iwidth j = iwidth i /\ skipws j = skipws i /\ ibase j = ibase i.

(** The same stream with skipws on or off, and the same result up to that flag. *)
Definition set_skip (k : bool) (i : fistream) : fistream := FIStream (bare i) (iwidth i) k (ibase i).
Definition same_but_skip {A} (k : bool) (r r' : outcome unit * (fistream * A)) : Prop :=
  r' = (fst r, (set_skip k (fst (snd r)), snd (snd r))).

(** The text begins with something other than white space. *)
Definition no_space_first (l : list ascii) : Prop := match l with [] => False | c :: _ => isspace c = false end.

(** Numbers in a base: an optional sign, in hexadecimal an optional prefix, and digits in either case. *)
Definition base_value (b : radix) : Z := match b with Dec => 10 | Oct => 8 | Hex => 16 end.
Definition digit_is (b : radix) (c : ascii) (d : nat) : Prop := Z.of_nat d < base_value b /\
  (nth_error (list_ascii_of_string "0123456789abcdef") d = Some c \/ nth_error (list_ascii_of_string "0123456789ABCDEF") d = Some c).
Definition value_in (b : radix) (ds : list nat) : Z := fold_left (fun a d => a * base_value b + Z.of_nat d) ds 0.
Definition prefix_of (b : radix) (pre : list ascii) : Prop :=
  pre = [] \/ (b = Hex /\ (pre = list_ascii_of_string "0x" \/ pre = list_ascii_of_string "0X")).
Inductive numeral (b : radix) : list ascii -> Z -> Prop :=
| numeral_plain : forall pre t ds, prefix_of b pre -> t <> [] -> Forall2 (digit_is b) t ds -> numeral b (pre ++ t) (value_in b ds)
| numeral_plus : forall pre t ds, prefix_of b pre -> t <> [] -> Forall2 (digit_is b) t ds -> numeral b ("+"%char :: pre ++ t) (value_in b ds)
| numeral_minus : forall pre t ds, prefix_of b pre -> t <> [] -> Forall2 (digit_is b) t ds -> numeral b ("-"%char :: pre ++ t) (- value_in b ds).

(** The first character is a sign or a decimal digit. *)
Definition opens (n : list ascii) : Prop := match n with [] => False | c :: _ => is_sign_char c = true \/ is_digit_char c = true end.
