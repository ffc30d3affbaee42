(** Reading from a stream with formatting state: field width, skipws and number base. Elsewhere the
    model uses streams in their default state. Not modelled: a stream without any base flag. *)
From Coq Require Import ZArith List Bool Ascii.
From Verif Require Import Outcome IntModel StreamModel FloatModel FracModel ComplexModel OStreamModel.
Import ListNotations.
Open Scope Z_scope.

Record fistream : Type := FIStream { bare : istream; iwidth : Z; skipws : bool; ibase : radix }.

Definition with_bare (s : istream) (i : fistream) : fistream := FIStream s (iwidth i) (skipws i) (ibase i).
Definition with_width (n : Z) (i : fistream) : fistream := FIStream (bare i) n (skipws i) (ibase i).

(** What the sentry of a formatted input function leaves to be read. *)
Definition lead (i : fistream) : list ascii := if skipws i then drop_while isspace (buf (bare i)) else buf (bare i).

(** [is >> str] for an empty [std::string]: at most [width] characters when [width > 0], and the width
    is reset unless the sentry fails. *)
Definition f_string (i : fistream) : list ascii * fistream :=
  if negb (good (bare i)) then ([], with_bare (set_fail (bare i)) i)
  else
    match lead i with
    | [] => ([], if skipws i then with_bare (IStream [] true true) i
                 else with_width 0 (with_bare (IStream [] true true) i))
    | b =>
        let word := take_while (fun c => negb (isspace c)) b in
        let t := if 0 <? iwidth i then firstn (Z.to_nat (iwidth i)) word else word in
        let rest := skipn (length t) b in
        let full := (0 <? iwidth i) && (iwidth i <=? Z.of_nat (length t)) in
        (t, with_width 0 (with_bare (IStream rest (match rest with [] => negb full | _ => false end)
                                                  (match t with [] => true | _ => false end)) i))
    end.

(** int.hpp:877-884 *)
Definition int_fextract (i : fistream) (x : Int) : outcome unit * (fistream * Int) :=
  let (str, i') := f_string i in
  match int_of_chars (c_str str) with
  | Ok y => (Ok tt, (i', y))
  | Throw e => (Throw e, (i', x))
  | UB u => (UB u, (i', x))
  | OutOfFuel => (OutOfFuel, (i', x))
  end.

(** The value of a digit in any base up to 16. *)
Definition digit_value (c : ascii) : option Z :=
  let k := code c in
  if (48 <=? k) && (k <=? 57) then Some (k - 48)
  else if (97 <=? k) && (k <=? 102) then Some (k - 87)
  else if (65 <=? k) && (k <=? 70) then Some (k - 55)
  else None.
Definition radix_of (b : radix) : Z := match b with Dec => 10 | Oct => 8 | Hex => 16 end.
Definition is_digit_in (b : radix) (c : ascii) : bool :=
  match digit_value c with Some d => d <? radix_of b | None => false end.
Definition digits_in (b : radix) (l : list ascii) : Z :=
  fold_left (fun acc c => acc * radix_of b + (match digit_value c with Some d => d | None => 0 end)) l 0.

(** The rest after the prefix "0x" of hexadecimal input. *)
Definition drop_prefix (l : list ascii) : list ascii :=
  match l with
  | z :: x :: l' => if (code z =? 48) && ((code x =? 120) || (code x =? 88)) then l' else l
  | _ => l
  end.

(** [is >> n] for an [int n]; the width is neither used nor reset. *)
Definition f_int (i : fistream) : Z * fistream :=
  if negb (good (bare i)) then (0, with_bare (set_fail (bare i)) i)
  else
    match lead i with
    | [] => (0, with_bare (IStream [] true true) i)
    | c :: b =>
        let signed := is_sign_char c in
        let body := if signed then b else c :: b in
        let body := match ibase i with Hex => drop_prefix body | _ => body end in
        let ds := take_while (is_digit_in (ibase i)) body in
        let rest := drop_while (is_digit_in (ibase i)) body in
        let eof := match rest with [] => true | _ => false end in
        match ds with
        | [] => (0, with_bare (IStream rest eof true) i)
        | _ =>
            let v := if code c =? 45 then - digits_in (ibase i) ds else digits_in (ibase i) ds in
            if INT_MAX <? v then (INT_MAX, with_bare (IStream rest eof true) i)
            else if v <? INT_MIN then (INT_MIN, with_bare (IStream rest eof true) i)
            else (v, with_bare (IStream rest eof false) i)
        end
    end.

(** [is >> c] for a [char c]; [None]: untouched. *)
Definition f_char (i : fistream) : option ascii * fistream :=
  if negb (good (bare i)) then (None, with_bare (set_fail (bare i)) i)
  else
    match lead i with
    | [] => (None, with_bare (IStream [] true true) i)
    | c :: b => (Some c, with_bare (IStream b false false) i)
    end.

(** Unformatted input does not look at the formatting state. *)
Definition f_peek (i : fistream) : Z * fistream := let (c, s) := peek (bare i) in (c, with_bare s i).

Definition made {A} (o : outcome A) (i : fistream) (old : A) : outcome unit * (fistream * A) :=
  match o with
  | Ok r => (Ok tt, (i, r))
  | Throw e => (Throw e, (i, old))
  | UB u => (UB u, (i, old))
  | OutOfFuel => (OutOfFuel, (i, old))
  end.

(** fraction.hpp:264-297; [c] left untouched is 0, as in [extract_char]. *)
Definition frac_fextract (fuel : nat) (i0 : fistream) (f : Fraction) : outcome unit * (fistream * Fraction) :=
  match skip_blank fuel (bare i0) with
  | Ok s =>
      let (c0, i1) := f_peek (with_bare s i0) in
      if negb (starts_number c0) then (Throw WrongFractionLiteral, (i1, f)) else
      let (n, i2) := f_int i1 in
      let (c1, i3) := f_peek i2 in
      if c1 <=? 32 then made (frac_of_int n) i3 f
      else
        let (c, i4) := f_char i3 in
        let (c2, i5) := f_peek i4 in
        if negb (starts_number c2) then (Throw WrongFractionLiteral, (with_bare (peeked_again (bare i5)) i5, f)) else
        let (d, i6) := f_int i5 in
        if negb (code (match c with Some c => c | None => zero end) =? 47) then (Throw WrongFractionLiteral, (i6, f)) else
        let (c3, i7) := f_peek i6 in
        if 32 <? c3 then (Throw WrongFractionLiteral, (i7, f)) else made (frac_make n d) i7 f
  | Throw e => (Throw e, (i0, f))
  | UB u => (UB u, (i0, f))
  | OutOfFuel => (OutOfFuel, (i0, f))
  end.

(** [is >> x] for a [double x]; the base and the width do not matter. *)
Definition f_double (strtod : list ascii -> double * bool) (i : fistream) : option double * fistream :=
  if negb (good (bare i)) then (None, with_bare (set_fail (bare i)) i)
  else
    match lead i with
    | [] => (None, with_bare (IStream [] true true) i)
    | b => let (t, rest) := number_text b in
           let (x, bad) := strtod t in
           (Some x, with_bare (IStream rest (match rest with [] => true | _ => false end) bad) i)
    end.

(** complex.hpp:225-263 *)
Definition cx_fextract (strtod : list ascii -> double * bool) (fuel : nat) (i0 : fistream) (z : Complex)
  : outcome unit * (fistream * Complex) :=
  match skip_blank fuel (bare i0) with
  | Ok s =>
      let (c0, i1) := f_peek (with_bare s i0) in
      if negb (starts_complex c0) then (Throw WrongComplexLiteral, (i1, z)) else
      let (real, i2) := f_double strtod i1 in
      let (c1, i3) := f_peek i2 in
      if c1 <=? 32 then made (match real with Some x => Ok (cx_of x) | None => UB Indeterminate end) i3 z
      else if c1 =? 106 then
        let (c2, i5) := f_peek (with_bare (ignore (bare i3)) i3) in
        if c2 <=? 32 then made (match real with Some x => Ok (Cx d0 x) | None => UB Indeterminate end) i5 z
        else (Throw WrongComplexLiteral, (i5, z))
      else
        let (imag, i4) := f_double strtod i3 in
        let (c, i5) := f_char i4 in
        match c with
        | None => (UB Indeterminate, (i5, z))
        | Some c =>
            if negb (code c =? 106) then (Throw WrongComplexLiteral, (i5, z)) else
            let (c3, i6) := f_peek i5 in
            if 32 <? c3 then (Throw WrongComplexLiteral, (i6, z)) else
            made (match real, imag with Some x, Some y => Ok (Cx x y) | _, _ => UB Indeterminate end) i6 z
        end
  | Throw e => (Throw e, (i0, z))
  | UB u => (UB u, (i0, z))
  | OutOfFuel => (OutOfFuel, (i0, z))
  end.
