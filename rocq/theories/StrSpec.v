(** Specification vocabulary for Str: plain sequences of characters. *)
From Coq Require Import String Ascii ZArith List Bool Reals.
From Flocq Require Import Core BinarySingleNaN.
From Verif Require Import Outcome FloatModel.
Import ListNotations.
Open Scope Z_scope.
Open Scope char_scope.

Notation text := (list ascii).
Definition size_of (s : text) : Z := Z.of_nat (length s).
Definition byte (c : ascii) : Z := Z.of_N (N_of_ascii c).

(** [p] stands in [s] at position [i]. *)
Definition occurs (s p : text) (i : Z) : Prop := exists a b, s = a ++ p ++ b /\ size_of a = i.

(** [r] is the least position of [p] in [s] within [start, stop), or -1. *)
Definition first_occurrence (s p : text) (start stop r : Z) : Prop :=
  (start <= r /\ r + size_of p <= stop /\ occurs s p r /\ (forall j, start <= j -> occurs s p j -> r <= j)) \/
  (r = -1 /\ forall j, start <= j -> j + size_of p <= stop -> ~ occurs s p j).

(** Positions of occurrences of [p], none before [lo], none overlapping. *)
Fixpoint apart (s p : text) (lo : Z) (js : list Z) : Prop :=
  match js with
  | [] => True
  | j :: js' => lo <= j /\ occurs s p j /\ apart s p (j + size_of p) js'
  end.

(** The pieces of [s] between the occurrences of [p] found from left to right. *)
Inductive pieces (p : text) : text -> list text -> Prop :=
| pieces_last : forall s, (forall j, ~ occurs s p j) -> pieces p s [s]
| pieces_more : forall a b ps, (forall j, occurs (a ++ p ++ b) p j -> size_of a <= j) -> pieces p b ps -> pieces p (a ++ p ++ b) (a :: ps).

(** The texts of [l] with [sep] between them. *)
Fixpoint glue (sep : text) (l : list text) : text :=
  match l with
  | [] => []
  | [x] => x
  | x :: l' => x ++ sep ++ glue sep l'
  end.

Definition contains (s p : text) : Prop := exists j, occurs s p j.

(** ** Numbers *)

Definition blank (c : ascii) : Prop := c = " " \/ c = "010" \/ c = "009" \/ c = "013".

(** Character [c] is the digit [d] of base [base]. *)
Definition digit_val (base : Z) (c : ascii) (d : Z) : Prop :=
  0 <= d < base /\ (d < 10 /\ byte c = 48 + d \/ 10 <= d < 36 /\ (byte c = 65 + (d - 10) \/ byte c = 97 + (d - 10))).

(** Positional value, most significant digit first. *)
Fixpoint positional (base : Z) (ds : list Z) : Z :=
  match ds with [] => 0 | d :: ds' => d * base ^ Z.of_nat (length ds') + positional base ds' end.

(** Texts of an optional sign. *)
Definition sign_text (t : text) (negative : bool) : Prop :=
  if negative then t = ["-"] else t = [] \/ t = ["+"].

Definition digits_text (base : Z) (t : text) (ds : list Z) : Prop := Forall2 (digit_val base) t ds.

(** [s] is an integer literal of base [base] for [z]. *)
Definition int_literal (base : Z) (s : text) (z : Z) : Prop :=
  exists b1 sg t b2 negative ds, s = b1 ++ sg ++ t ++ b2 /\ Forall blank b1 /\ Forall blank b2 /\
    sign_text sg negative /\ digits_text base t ds /\ ds <> [] /\
    z = (if negative then - positional base ds else positional base ds).

(** Mantissa text with integer digits [I] and decimals [F]. *)
Definition mantissa (t : text) (I F : list Z) : Prop :=
  (I <> [] /\ F = [] /\ digits_text 10 t I) \/
  (I <> [] /\ exists i f, t = i ++ "." :: f /\ digits_text 10 i I /\ digits_text 10 f F) \/
  (I = [] /\ F <> [] /\ exists f, t = "." :: f /\ digits_text 10 f F).

(** Exponent text with digits [E]; no text counts as no digits. *)
Definition exponent (t : text) (negative : bool) (E : list Z) : Prop :=
  (t = [] /\ negative = false /\ E = []) \/
  (E <> [] /\ exists c sg ds, t = c :: sg ++ ds /\ (c = "e" \/ c = "E") /\ sign_text sg negative /\ digits_text 10 ds E).

(** [s] is a decimal literal with these parts. *)
Definition dec_literal (s : text) (negative : bool) (I F : list Z) (eneg : bool) (E : list Z) : Prop :=
  exists b1 sg mt et b2, s = b1 ++ sg ++ mt ++ et ++ b2 /\ Forall blank b1 /\ Forall blank b2 /\
    sign_text sg negative /\ mantissa mt I F /\ exponent et eneg E.

(** [s] begins with a decimal literal whose exponent, read so far, is above INT_MAX. *)
Definition huge_exponent (s : text) : Prop :=
  exists b1 sg mt et rest negative I F eneg E, s = b1 ++ sg ++ mt ++ et ++ rest /\ Forall blank b1 /\
    sign_text sg negative /\ mantissa mt I F /\ exponent et eneg E /\ INT_MAX < positional 10 E.

(** The digits accumulated in double arithmetic, x -> x * 10 + d. *)
Definition accumulated (ds : list Z) : double :=
  fold_left (fun x d => dadd (dmul x (double_of_Z 10)) (double_of_Z d)) ds (double_of_Z 0).

Definition pm (negative : bool) : double := double_of_Z (if negative then -1 else 1).

(** The double computed for a literal, given [std::pow]. *)
Definition computed (pow : double -> double -> double) (neg : bool) (I F : list Z) (eneg : bool) (E : list Z) : double :=
  dmul (pm neg) (dmul (ddiv (accumulated (I ++ F)) (pow (double_of_Z 10) (double_of_Z (Z.of_nat (length F)))))
                      (pow (double_of_Z 10) (dmul (pm eneg) (double_of_Z (positional 10 E))))).

Definition signed (neg : bool) (x : double) : double := if neg then dopp x else x.

(** The number a literal denotes. *)
Definition denoted (neg : bool) (I F : list Z) (eneg : bool) (E : list Z) : R :=
  let m := (IZR (positional 10 (I ++ F)) / IZR (10 ^ Z.of_nat (length F)))%R in
  let e := IZR (10 ^ positional 10 E) in
  let r := (if eneg then m / e else m * e)%R in
  (if neg then - r else r)%R.

(** [x] is the double nearest to the real number [r] (ties to even). *)
Definition nearest (x : double) (r : R) : Prop :=
  is_finite x = true /\ B2R x = round radix2 (SpecFloat.fexp 53 1024) ZnearestE r.

(** Spellings of infinity and NaN accepted. *)
Definition inf_words : list string := ["inf"; "INF"; "Inf"; "infinity"; "INFINITY"; "Infinity"]%string.
Definition nan_words : list string := ["nan"; "NaN"; "NAN"]%string.
Definition spelled (words : list string) (sg : text) (s : text) : Prop :=
  exists w, In w words /\ s = sg ++ list_ascii_of_string w.

(** ** Letters and blanks *)

Definition upper_letter (c : ascii) : Prop := 65 <= byte c <= 90.
Definition lower_letter (c : ascii) : Prop := 97 <= byte c <= 122.
Definition letter (c : ascii) : Prop := upper_letter c \/ lower_letter c.
(** [d] is the lower-case (upper-case) form of the letter [c]. *)
Definition lower_form (c d : ascii) : Prop := (upper_letter c /\ byte d = byte c + 32) \/ (lower_letter c /\ d = c).
Definition upper_form (c d : ascii) : Prop := (lower_letter c /\ byte d = byte c - 32) \/ (upper_letter c /\ d = c).

(** [r] is [s] without its longest prefix and suffix of characters in [f]. *)
Definition trimmed (f : ascii -> Prop) (s r : text) : Prop :=
  exists a b, s = a ++ r ++ b /\ Forall f a /\ Forall f b /\
    (forall c r', r = c :: r' -> ~ f c) /\ (forall c r', r = r' ++ [c] -> ~ f c).

(** ** Formatting *)

(** [s] has its first placeholder between [a] and [b]. *)
Definition placeholder (s a b : text) : Prop :=
  exists m, s = a ++ "{" :: m ++ "}" :: b /\ ~ In "{" a /\ ~ In "}" m.

Inductive formatted : text -> list text -> text -> Prop :=
| fmt_done : forall s, formatted s [] s
| fmt_none : forall s args, (forall a b, ~ placeholder s a b) -> formatted s args s
| fmt_put : forall s a b x args out, placeholder s a b -> formatted b args out -> formatted s (x :: args) (a ++ x ++ out).

(** Order of texts: by bytes, lexicographic. *)
Definition byte_lt (a b : ascii) : Prop := byte a < byte b.

(** ** Accuracy of long literals *)

(** [a] and [b] differ by a factor of at most [K]. *)
Definition within (K a b : R) : Prop := (b <= a * K /\ a <= b * K)%R.
(** [std::pow(10, k)] is off by a factor of at most [K] for [k] between -300 and 300. *)
Definition pow_within (K : R) (pow : double -> double -> double) : Prop :=
  forall x k, is_finite x = true -> B2R x = IZR k -> -300 <= k <= 300 ->
    is_finite (pow (double_of_Z 10) x) = true /\ within K (B2R (pow (double_of_Z 10) x)) (powerRZ 10 k).
(** Half the distance from 1 to the next double. *)
Definition unit_roundoff : R := (/ IZR (2 ^ 53))%R.
