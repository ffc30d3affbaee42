(** Which texts Python's float() takes. Nothing here refers to the model of the library's functions. *)
From Coq Require Import String Ascii ZArith List Bool.
From Verif Require Import Outcome StrSpec PySpec PyTextSpec.
Import ListNotations.
Open Scope Z_scope.

(** Digits, a point and digits; one of the two may be missing, and without decimals also the point. *)
Definition py_mantissa (t : text) (I F : list Z) : Prop :=
  (py_digits 10 t I /\ F = []) \/
  (exists i, t = i ++ ["."%char] /\ py_digits 10 i I /\ F = []) \/
  (exists i f, t = i ++ "."%char :: f /\ py_digits 10 i I /\ py_digits 10 f F) \/
  (exists f, t = "."%char :: f /\ I = [] /\ py_digits 10 f F).
Definition py_exponent (t : text) (negative : bool) (E : list Z) : Prop :=
  (t = [] /\ negative = false /\ E = []) \/
  (exists c sg ds, t = c :: sg ++ ds /\ (c = "e"%char \/ c = "E"%char) /\ sign_text sg negative /\ py_digits 10 ds E).
(** float(s) is the double nearest to the number with these parts. *)
Definition py_number (s : text) (negative : bool) (I F : list Z) (eneg : bool) (E : list Z) : Prop :=
  exists b1 sg mt et b2, s = b1 ++ sg ++ mt ++ et ++ b2 /\
    Forall (fun c => py_trim c = true) b1 /\ Forall (fun c => py_trim c = true) b2 /\
    sign_text sg negative /\ py_mantissa mt I F /\ py_exponent et eneg E.
(** The word, in small and large letters. *)
Definition py_word (w : string) (s : text) (negative : bool) : Prop :=
  exists b1 sg t b2, s = b1 ++ sg ++ t ++ b2 /\
    Forall (fun c => py_trim c = true) b1 /\ Forall (fun c => py_trim c = true) b2 /\
    sign_text sg negative /\ map py_lower_char t = list_ascii_of_string w.
(** float(s) is an infinity, or not a number. *)
Definition py_inf (s : text) (negative : bool) : Prop := py_word "inf" s negative \/ py_word "infinity" s negative.
Definition py_nan (s : text) : Prop := exists negative, py_word "nan" s negative.

(** The characters of the literals that the library takes. *)
Definition dec_char (c : ascii) : Prop :=
  blank c \/ c = "+"%char \/ c = "-"%char \/ c = "."%char \/ c = "e"%char \/ c = "E"%char \/ exists d, digit_val 10 c d.
