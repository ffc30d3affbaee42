(** Reading from a stream on which exceptions are enabled, [is.exceptions(mask)]. Elsewhere the model uses streams with the mask
    [goodbit], which never throw. An input function records what it met with one call of [setstate] at its end, which throws
    [std::ios_base::failure] if the state then has a bit of the mask (libstdc++, GCC 13). *)
From Coq Require Import ZArith List Bool Ascii.
From Verif Require Import Outcome IntModel StreamModel FloatModel FracModel ComplexModel StrModel.
Import ListNotations.
Open Scope Z_scope.

(** The mask; [badbit] does not occur. *)
Record mask : Type := Mask { on_eof : bool; on_fail : bool }.
Definition hot (m : mask) (s : istream) : bool := (on_eof m && eofbit s) || (on_fail m && failbit s).

(** How a call ends: as without mask, or with [std::ios_base::failure]. *)
Inductive reading (A : Type) := Ends (o : outcome A) | Failure.
Arguments Ends {A}. Arguments Failure {A}.

(** What a call leaves: its end, the stream and the target. *)
Definition left_behind (B : Type) : Type := reading unit * (istream * B).

Section Reading.
Variable m : mask.

(** After an input function that returned [a] and left the stream [s]: the exception, or the rest of the call. *)
Definition guarded {A B} (old : B) (r : A * istream) (k : A -> istream -> left_behind B) : left_behind B :=
  let (a, s) := r in if hot m s then (Failure, (s, old)) else k a s.
(** The end of a call that assigns to its target. *)
Definition assigned {B} (o : outcome B) (s : istream) (old : B) : left_behind B :=
  match o with
  | Ok r => (Ends (Ok tt), (s, r))
  | Throw e => (Ends (Throw e), (s, old))
  | UB u => (Ends (UB u), (s, old))
  | OutOfFuel => (Ends OutOfFuel, (s, old))
  end.

(** int.hpp:877-884 *)
Definition int_xextract (s : istream) (x : Int) : left_behind Int :=
  guarded x (extract_string s) (fun str s' => assigned (int_of_chars (c_str str)) s' x).

(** fraction.hpp:266-269, complex.hpp:227-230 *)
Fixpoint x_skip {B} (old : B) (fuel : nat) (s : istream) (k : istream -> left_behind B) : left_behind B :=
  match fuel with
  | O => (Ends OutOfFuel, (s, old))
  | S n =>
      guarded old (peek s) (fun c s1 =>
        if c <=? 32 then guarded old (tt, ignore s1) (fun _ s2 => x_skip old n s2 k) else k s1)
  end.
(** [std::isdigit(is.peek()) || is.peek() == '-' || is.peek() == '+']; fraction.hpp:270, 286 *)
Definition x_number {B} (old : B) (s : istream) (k : bool -> istream -> left_behind B) : left_behind B :=
  guarded old (peek s) (fun c s1 => if (48 <=? c) && (c <=? 57) then k true s1 else
  guarded old (peek s1) (fun c s2 => if c =? 45 then k true s2 else
  guarded old (peek s2) (fun c s3 => k (c =? 43) s3))).
(** fraction.hpp:264-297 *)
Definition frac_xextract (fuel : nat) (s0 : istream) (f : Fraction) : left_behind Fraction :=
  x_skip f fuel s0 (fun s =>
  x_number f s (fun b s1 => if negb b then (Ends (Throw WrongFractionLiteral), (s1, f)) else
  guarded f (extract_int s1) (fun n s2 =>
  guarded f (peek s2) (fun c1 s3 => if c1 <=? 32 then assigned (frac_of_int n) s3 f else
  guarded f (extract_char s3) (fun c s4 =>
  x_number f s4 (fun b s5 => if negb b then (Ends (Throw WrongFractionLiteral), (s5, f)) else
  guarded f (extract_int s5) (fun d s6 =>
  if negb (code c =? 47) then (Ends (Throw WrongFractionLiteral), (s6, f)) else
  guarded f (peek s6) (fun c3 s7 =>
  if 32 <? c3 then (Ends (Throw WrongFractionLiteral), (s7, f)) else assigned (frac_make n d) s7 f)))))))).

(** complex.hpp:231: the same with [is.peek() == '.'] at the end *)
Definition x_complex {B} (old : B) (s : istream) (k : bool -> istream -> left_behind B) : left_behind B :=
  x_number old s (fun b s1 => if b then k true s1 else guarded old (peek s1) (fun c s2 => k (c =? 46) s2)).
Definition known {A} (o : option A) : outcome A := match o with Some x => Ok x | None => UB Indeterminate end.
(** complex.hpp:225-263. [is >> imag >> c] are two calls. *)
Definition cx_xextract (strtod : list ascii -> double * bool) (fuel : nat) (s0 : istream) (z : Complex) : left_behind Complex :=
  x_skip z fuel s0 (fun s =>
  x_complex z s (fun b s1 => if negb b then (Ends (Throw WrongComplexLiteral), (s1, z)) else
  guarded z (extract_double strtod s1) (fun real s2 =>
  guarded z (peek s2) (fun c1 s3 => if c1 <=? 32 then assigned (x <- known real ;; Ok (cx_of x)) s3 z else
  guarded z (peek s3) (fun c1 s3 =>
  if c1 =? 106 then
    guarded z (tt, ignore s3) (fun _ s4 =>
    guarded z (peek s4) (fun c2 s5 =>
    if c2 <=? 32 then assigned (x <- known real ;; Ok (Cx d0 x)) s5 z else (Ends (Throw WrongComplexLiteral), (s5, z))))
  else
    guarded z (extract_double strtod s3) (fun imag s4 =>
    guarded z (extract_char_opt s4) (fun c s5 =>
    match c with
    | None => (Ends (UB Indeterminate), (s5, z))
    | Some c =>
        if negb (code c =? 106) then (Ends (Throw WrongComplexLiteral), (s5, z)) else
        guarded z (peek s5) (fun c3 s6 =>
        if 32 <? c3 then (Ends (Throw WrongComplexLiteral), (s6, z))
        else assigned (x <- known real ;; y <- known imag ;; Ok (Cx x y)) s6 z)
    end))))))).

(** str.hpp:735-738: [std::getline] stores what it has read, then calls [setstate]. *)
Definition str_xextract (p : const_policy) (s : istream) (x : str) : left_behind str :=
  match str_extract p s x with
  | Ok (s', l) => (if hot m s' then Failure else Ends (Ok tt), (s', l))
  | Throw e => (Ends (Throw e), (s, x))
  | UB u => (Ends (UB u), (s, x))
  | OutOfFuel => (Ends OutOfFuel, (s, x))
  end.

(** [while (is >> x) out.push_back(x);] for any of these: what has been stored, and how the loop ends. *)
Fixpoint read_while {B} (extract : istream -> B -> left_behind B) (x0 : B) (fuel : nat) (s : istream) : list B * reading istream :=
  match fuel with
  | O => ([], Ends OutOfFuel)
  | S n =>
      match extract s x0 with
      | (Ends (Ok _), (s', x)) =>
          if failbit s' then ([], Ends (Ok s'))
          else let (l, e) := read_while extract x0 n s' in (x :: l, e)
      | (Ends (Throw e), _) => ([], Ends (Throw e))
      | (Ends (UB u), _) => ([], Ends (UB u))
      | (Ends OutOfFuel, _) => ([], Ends OutOfFuel)
      | (Failure, _) => ([], Failure)
      end
  end.
End Reading.
