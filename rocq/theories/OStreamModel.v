(** Printing to a stream with formatting state: field width, fill character, alignment,
    number base and showpos. (showbase is off; uppercase does not affect digits 0-9.)
    Elsewhere the model uses the text written to a stream in its default state. *)
From Coq Require Import String Ascii ZArith List Bool.
From Verif Require Import Outcome Show IntModel FracModel ListModel DictModel StrModel TupleModel.
Import ListNotations.
Open Scope Z_scope.

Inductive side := SRight | SLeft | SInternal.
Inductive radix := Dec | Oct | Hex.

Record ostream := OStream {
  written : list ascii;
  width : Z;
  fill : ascii;
  adjust : side;
  base : radix;
  showpos : bool
}.

(** std::setw, std::setfill *)
Definition setw (n : Z) (os : ostream) : ostream := OStream (written os) n (fill os) (adjust os) (base os) (showpos os).
Definition setfill (c : ascii) (os : ostream) : ostream := OStream (written os) (width os) c (adjust os) (base os) (showpos os).

(** Everything is written after the width has been reset. *)
Definition emit (s : list ascii) (os : ostream) : ostream :=
  OStream (written os ++ s) 0 (fill os) (adjust os) (base os) (showpos os).

Definition filler (os : ostream) (s : list ascii) : list ascii :=
  repeat (fill os) (Z.to_nat (width os - Z.of_nat (length s))).

(** [os << c], [os << "..."], [os << std::string]: padded on the right only for std::left. *)
Definition put_text (s : list ascii) (os : ostream) : ostream :=
  emit (match adjust os with
        | SLeft => s ++ filler os s
        | _ => filler os s ++ s
        end) os.

(** Digits of [n] in base [b] (at most 16), most significant first. *)
Definition hexit (d : Z) : ascii := ascii_of_N (Z.to_N (if d <? 10 then d + 48 else d + 87)).
Fixpoint digits (fuel : nat) (b n : Z) (acc : list ascii) : list ascii :=
  match fuel with
  | O => acc
  | S f => if n <? b then hexit n :: acc else digits f b (n / b) (hexit (n mod b) :: acc)
  end.

(** The sign and the digits num_put produces for an [int]: octal and hexadecimal show the
    value modulo 2^32. *)
Definition number (os : ostream) (z : Z) : list ascii * list ascii :=
  match base os with
  | Dec => if z <? 0 then (["-"%char], show_int (- z))
           else (if showpos os then ["+"%char] else [], show_int z)
  | Oct => ([], digits 32 8 (z mod 2 ^ 32) [])
  | Hex => ([], digits 32 16 (z mod 2 ^ 32) [])
  end.
(** [os << z] for an [int]; std::internal pads between the sign and the digits. *)
Definition put_int (z : Z) (os : ostream) : ostream :=
  let '(s, d) := number os z in
  let p := filler os (s ++ d) in
  emit (match adjust os with
        | SRight => p ++ s ++ d
        | SLeft => s ++ d ++ p
        | SInternal => s ++ p ++ d
        end) os.

(** int.hpp:854-874; [to_string] is not affected by the stream. *)
Definition int_put (x : Int) (os : ostream) : ostream :=
  if sign x =? 0 then put_text ["0"%char] os
  else
    let os := if sign x =? -1 then put_text ["-"%char] os else os in
    match rev (chunks x) with
    | [] => os
    | c :: cs =>
        fold_left (fun os c => put_text (show_int c) (setfill "0"%char (setw DIGITS_PER_CHUNK os))) cs (put_int c os)
    end.

(** fraction.hpp:243-253 *)
Definition frac_put (f : Fraction) (os : ostream) : ostream :=
  if den f =? 1 then put_int (num f) os
  else put_int (den f) (put_text [slash] (put_int (num f) os)).

(** str.hpp:724-732: the characters one by one *)
Definition str_put (s : str) (os : ostream) : ostream :=
  put_text [""""%char] (fold_left (fun os c => put_text [c] os) s (put_text [""""%char] os)).

(** utility.hpp:76-100; [put] is the elements' [operator<<]. *)
Fixpoint put_loop {T} (put : T -> ostream -> ostream) (it : T) (rest : list T) (close : ascii) (os : ostream) : ostream :=
  let os := put it os in
  match rest with
  | [] => put_text [close] os
  | x :: rest' => put_loop put x rest' close (put_text [","%char; " "%char] os)
  end.
Definition put_range {T} (put : T -> ostream -> ostream) (v : list T) (open close : ascii) (os : ostream) : ostream :=
  match v with
  | [] => put_text [close] (put_text [open] os)
  | x :: rest => put_loop put x rest close (put_text [open] os)
  end.
(** utility.hpp:69-73 *)
Definition put_pair {K V} (pk : K -> ostream -> ostream) (pv : V -> ostream -> ostream) (p : K * V) (os : ostream) : ostream :=
  pv (snd p) (put_text [":"%char; " "%char] (pk (fst p) os)).

(** list.hpp:412-415, deque.hpp:259-262, set.hpp:266-269, dict.hpp:233-236 *)
Definition list_put {T} (put : T -> ostream -> ostream) (v : list T) := put_range put v "["%char "]"%char.
Definition deq_put {T} (put : T -> ostream -> ostream) (v : list T) := put_range put v "<"%char ">"%char.
Definition set_put {T} (put : T -> ostream -> ostream) (v : list T) := put_range put v "{"%char "}"%char.
Definition dict_put {K V} (pk : K -> ostream -> ostream) (pv : V -> ostream -> ostream) (d : list (K * V)) :=
  put_range (put_pair pk pv) d "{"%char "}"%char.

(** tuple.hpp:139-147 *)
Fixpoint put_rest {U} {el : U -> Type} (put : forall u, el u -> ostream -> ostream) {us : list U} (t : tuple el us) (os : ostream) : ostream :=
  match t with
  | TNil => os
  | @TCons _ _ u _ x t' =>
      put_rest put t' (put_text (if tuple_size (TCons x t') =? 1 then [] else [","%char; " "%char]) (put u x os))
  end.
(** tuple.hpp:156-169 *)
Definition tuple_put {U} {el : U -> Type} (put : forall u, el u -> ostream -> ostream) {us : list U} (t : tuple el us) (os : ostream) : ostream :=
  match t with
  | @TCons _ _ u _ x TNil => put_text [","%char; ")"%char] (put u x (put_text ["("%char] os))
  | _ => put_text [")"%char] (put_rest put t (put_text ["("%char] os))
  end.
