(** Printing to a stream whose buffer takes only so many characters (a fixed array, for example), with and without exceptions enabled,
    [os.exceptions(mask)]. libstdc++, GCC 13. The buffer never throws; the stream has no tied stream and no [unitbuf]. *)
From Coq Require Import String Ascii ZArith List Bool.
From Verif Require Import Outcome Show IntModel FracModel ListModel DictModel StrModel TupleModel FloatModel ComplexModel OStreamModel.
Import ListNotations.
Open Scope Z_scope.

(** The stream: what it has written with its formatting state, the characters its buffer can still take ([None]: no limit), badbit, failbit. *)
Record sink := Sink { front : ostream; room : option nat; bad : bool; failed : bool }.
(** The mask given to [exceptions]. *)
Record omask := OMask { on_bad : bool; on_failed : bool }.
(** How [os << x] ends: it returns, or [std::ios_base::failure] is thrown. *)
Inductive writing := Done (s : sink) | Refused (s : sink).

(** [os.clear()], on a stream whose buffer can take [r] characters *)
Definition cleared (r : option nat) (s : sink) : sink := Sink (front s) r false false.

(** The characters that go into the buffer, and what it can take then. *)
Definition taken (r : option nat) (w : list ascii) : list ascii := match r with None => w | Some n => firstn n w end.
Definition spare (r : option nat) (w : list ascii) : option nat := match r with None => None | Some n => Some (n - length w)%nat end.
Definition refuses (r : option nat) (w : list ascii) : bool := match r with None => false | Some n => Nat.ltb n (length w) end.

(** std::setw, std::setfill; they do not look at the state. *)
Definition s_setw (n : Z) (s : sink) : sink := Sink (setw n (front s)) (room s) (bad s) (failed s).
Definition s_setfill (c : ascii) (s : sink) : sink := Sink (setfill c (front s)) (room s) (bad s) (failed s).

Definition then_ (r : writing) (k : sink -> writing) : writing := match r with Done s => k s | Refused s => Refused s end.
Notation "r >> k" := (then_ r k) (at level 58, left associativity).

Section Printing.
Variable m : omask.

(** [setstate]: the exception if the state has a bit of the mask. *)
Definition hot_out (s : sink) : bool := (on_bad m && bad s) || (on_failed m && failed s).
Definition report (s : sink) : writing := if hot_out s then Refused s else Done s.

(** The [sentry]: nothing is written to a stream that is not good, and failbit joins badbit. *)
Definition sentry (s : sink) (k : writing) : writing :=
  if bad s then report (Sink (front s) (room s) true true) else if failed s then Done s else k.

(** [os << c], [os << "..."], [os << std::string]: [__ostream_insert]. The width is reset at the end, not if an exception is thrown. *)
Definition s_text (t : list ascii) (s : sink) : writing :=
  let os := front s in
  let w := match adjust os with SLeft => t ++ filler os t | _ => filler os t ++ t end in
  sentry s
    (if refuses (room s) w then
       let n := if on_bad m then width os else 0 in
       report (Sink (OStream (written os ++ taken (room s) w) n (fill os) (adjust os) (base os) (showpos os)) (spare (room s) w) true false)
     else Done (Sink (emit w os) (spare (room s) w) false false)).

(** [os << n] for a number written as [w]: [num_put] resets the width before it writes. *)
Definition s_number (w : list ascii) (s : sink) : writing :=
  sentry s (report (Sink (emit (taken (room s) w) (front s)) (spare (room s) w) (refuses (room s) w) false)).
(** [os << z] for an [int] *)
Definition s_int (z : Z) (s : sink) : writing :=
  let os := front s in
  let '(g, d) := number os z in
  let p := filler os (g ++ d) in
  s_number (match adjust os with
            | SRight => p ++ g ++ d
            | SLeft => g ++ d ++ p
            | SInternal => g ++ p ++ d
            end) s.

(** int.hpp:854-874 *)
Fixpoint s_digits (cs : list Z) (s : sink) : writing :=
  match cs with
  | [] => Done s
  | c :: cs' => s_text (show_int c) (s_setfill "0"%char (s_setw DIGITS_PER_CHUNK s)) >> s_digits cs'
  end.
Definition int_sput (x : Int) (s : sink) : writing :=
  if sign x =? 0 then s_text ["0"%char] s
  else
    (if sign x =? -1 then s_text ["-"%char] s else Done s) >>
    match rev (chunks x) with
    | [] => Done
    | c :: cs => fun s => s_int c s >> s_digits cs
    end.

(** fraction.hpp:243-253 *)
Definition frac_sput (f : Fraction) (s : sink) : writing :=
  if den f =? 1 then s_int (num f) s
  else s_int (num f) s >> s_text [slash] >> s_int (den f).

(** str.hpp:724-732 *)
Fixpoint s_each (t : list ascii) (s : sink) : writing :=
  match t with
  | [] => Done s
  | c :: t' => s_text [c] s >> s_each t'
  end.
Definition str_sput (t : str) (s : sink) : writing := s_text [""""%char] s >> s_each t >> s_text [""""%char].

(** utility.hpp:76-100 *)
Fixpoint sput_loop {T} (put : T -> sink -> writing) (it : T) (rest : list T) (close : ascii) (s : sink) : writing :=
  put it s >>
  match rest with
  | [] => s_text [close]
  | x :: rest' => fun s => s_text [","%char; " "%char] s >> sput_loop put x rest' close
  end.
Definition sput_range {T} (put : T -> sink -> writing) (v : list T) (open close : ascii) (s : sink) : writing :=
  s_text [open] s >>
  match v with
  | [] => s_text [close]
  | x :: rest => sput_loop put x rest close
  end.
(** utility.hpp:69-73 *)
Definition sput_pair {K V} (pk : K -> sink -> writing) (pv : V -> sink -> writing) (p : K * V) (s : sink) : writing :=
  pk (fst p) s >> s_text [":"%char; " "%char] >> pv (snd p).

(** list.hpp:412-415, deque.hpp:259-262, set.hpp:266-269, dict.hpp:233-236 *)
Definition list_sput {T} (put : T -> sink -> writing) (v : list T) := sput_range put v "["%char "]"%char.
Definition deq_sput {T} (put : T -> sink -> writing) (v : list T) := sput_range put v "<"%char ">"%char.
Definition set_sput {T} (put : T -> sink -> writing) (v : list T) := sput_range put v "{"%char "}"%char.
Definition dict_sput {K V} (pk : K -> sink -> writing) (pv : V -> sink -> writing) (d : list (K * V)) :=
  sput_range (sput_pair pk pv) d "{"%char "}"%char.

(** tuple.hpp:139-147 *)
Fixpoint sput_rest {U} {el : U -> Type} (put : forall u, el u -> sink -> writing) {us : list U} (t : tuple el us) (s : sink) : writing :=
  match t with
  | TNil => Done s
  | @TCons _ _ u _ x t' =>
      put u x s >> s_text (if tuple_size (TCons x t') =? 1 then [] else [","%char; " "%char]) >> sput_rest put t'
  end.
(** tuple.hpp:156-169 *)
Definition tuple_sput {U} {el : U -> Type} (put : forall u, el u -> sink -> writing) {us : list U} (t : tuple el us) (s : sink) : writing :=
  match t with
  | @TCons _ _ u _ x TNil => s_text ["("%char] s >> put u x >> s_text [","%char; ")"%char]
  | _ => s_text ["("%char] s >> sput_rest put t >> s_text [")"%char]
  end.

(** complex.hpp:211-214; [show] is what [os <<] writes for a double. The first piece takes the padding, so [show] need not know the width. *)
Definition cx_sput (show : double -> list ascii) (z : Complex) (s : sink) : writing :=
  s_text ["("%char] s >> s_number (show (re z)) >> s_text [if dltb (im z) d0 then "-"%char else "+"%char] >>
  s_number (show (dabs (im z))) >> s_text ["j"%char; ")"%char].
End Printing.
