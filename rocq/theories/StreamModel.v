(** Input streams. Not library code: the part of [std::istream] the library
    calls, after the C++ standard ([istream.formatted], [string.io]).
    Simplifications: the classic "C" locale, default flags (skipws, dec), no width,
    and a [rdbuf] that is a finite character sequence; [badbit] never occurs. *)
From Coq Require Import ZArith List Bool Ascii.
From Verif Require Import Outcome IntModel.
Import ListNotations.
Open Scope Z_scope.

Record istream : Type := IStream { buf : list ascii; eofbit : bool; failbit : bool }.

Definition good (s : istream) : bool := negb (eofbit s) && negb (failbit s).

(** [std::isspace] in the "C" locale. *)
Definition isspace (c : ascii) : bool :=
  (code c =? 32) || ((9 <=? code c) && (code c <=? 13)).

Fixpoint drop_while (f : ascii -> bool) (l : list ascii) : list ascii :=
  match l with [] => [] | c :: l' => if f c then drop_while f l' else l end.
Fixpoint take_while (f : ascii -> bool) (l : list ascii) : list ascii :=
  match l with [] => [] | c :: l' => if f c then c :: take_while f l' else [] end.

Definition set_fail (s : istream) : istream := IStream (buf s) (eofbit s) true.

(** [is >> str] for a freshly constructed (empty) [std::string]: the string
    read and the stream afterwards. *)
Definition extract_string (s : istream) : list ascii * istream :=
  if negb (good s) then ([], set_fail s)
  else
    let b := drop_while isspace (buf s) in
    match b with
    | [] => ([], IStream [] true true)
    | _ => let rest := drop_while (fun c => negb (isspace c)) b in
           (take_while (fun c => negb (isspace c)) b,
            IStream rest (match rest with [] => true | _ => false end) false)
    end.

(** [is.peek()]: the next character as an unsigned char value, or -1 at end of
    input. On a stream that is not good the sentry sets failbit. *)
Definition peek (s : istream) : Z * istream :=
  if negb (good s) then (-1, set_fail s)
  else match buf s with
       | [] => (-1, IStream [] true false)
       | c :: _ => (code c, s)
       end.

(** [is.ignore()] with the default count 1. *)
Definition ignore (s : istream) : istream :=
  if negb (good s) then set_fail s
  else match buf s with
       | [] => IStream [] true false
       | _ :: b => IStream b false false
       end.

Definition dec_digits (l : list ascii) : Z := fold_left (fun acc c => acc * 10 + (code c - 48)) l 0.

(** [is >> n] for an [int n] (num_get, base ten): the value stored and the
    stream afterwards. When the sentry fails the library leaves [n] untouched;
    no caller reads it then, and 0 stands for it. *)
Definition extract_int (s : istream) : Z * istream :=
  if negb (good s) then (0, set_fail s)
  else
    match drop_while isspace (buf s) with
    | [] => (0, IStream [] true true)
    | c :: b =>
        let signed := is_sign_char c in
        let body := if signed then b else c :: b in
        let ds := take_while is_digit_char body in
        let rest := drop_while is_digit_char body in
        let eof := match rest with [] => true | _ => false end in
        match ds with
        | [] => (0, IStream rest eof true)
        | _ =>
            let v := if code c =? 45 then - dec_digits ds else dec_digits ds in
            if INT_MAX <? v then (INT_MAX, IStream rest eof true)
            else if v <? INT_MIN then (INT_MIN, IStream rest eof true)
            else (v, IStream rest eof false)
        end
    end.

(** [is >> c] for a [char c]: the character and the stream afterwards (the null
    character stands for "untouched"). *)
Definition extract_char (s : istream) : ascii * istream :=
  if negb (good s) then (zero, set_fail s)
  else
    match drop_while isspace (buf s) with
    | [] => (zero, IStream [] true true)
    | c :: b => (c, IStream b false false)
    end.

(** What a [const char*] view of a string shows: everything before the first
    null character ([std::string::c_str] read as a C string). *)
Definition c_str (s : list ascii) : list ascii :=
  take_while (fun c => negb (code c =? 0)) s.

(** int.hpp:877-884. Outcome, stream and target object afterwards. *)
Definition int_extract (s : istream) (x : Int) : outcome unit * (istream * Int) :=
  let (str, s') := extract_string s in
  match int_of_chars (c_str str) with
  | Ok y => (Ok tt, (s', y))
  | Throw e => (Throw e, (s', x))
  | UB u => (UB u, (s', x))
  | OutOfFuel => (OutOfFuel, (s', x))
  end.

(** A loop [for (auto& x : xs) is >> x;] over [n] targets. *)
Fixpoint int_extract_all (n : nat) (s : istream) : outcome (list Int * istream) :=
  match n with
  | O => Ok ([], s)
  | S n' =>
      match int_extract s (MkInt 0 []) with
      | (Ok _, (s', x)) => r <- int_extract_all n' s' ;; Ok (x :: fst r, snd r)
      | (Throw e, _) => Throw e
      | (UB u, _) => UB u
      | (OutOfFuel, _) => OutOfFuel
      end
  end.
