(** Model of sources/str.hpp. A string is the byte sequence of its [std::string]. *)
From Coq Require Import String Ascii ZArith List Bool.
From Flocq Require Import BinarySingleNaN.
From Verif Require Import Outcome IntModel ListModel StreamModel FloatModel.
Import ListNotations.
Open Scope Z_scope.

Notation str := (list ascii).

(** The value of a [char], signed as on x86. *)
Definition schar (c : ascii) : Z := if code c <? 128 then code c else code c - 256.
(** The [char] holding the low eight bits of [z]. *)
Definition to_char (z : Z) : ascii := ascii_of_N (Z.to_N (z mod 256)).
Definition NUL : ascii := to_char 0.

(** ** std::string and std::string_view operations *)

Fixpoint prefixb (p v : str) : bool :=
  match p, v with
  | [], _ => true
  | c :: p', d :: v' => Ascii.eqb c d && prefixb p' v'
  | _, [] => false
  end.

(** [view.find(p)]; [None] is [npos]. *)
Fixpoint view_find (v p : str) : option nat :=
  if prefixb p v then Some O
  else match v with [] => None | _ :: v' => option_map S (view_find v' p) end.

(** [s.substr(pos)] and [s.substr(pos, n)] *)
Definition substr (s : str) (pos : Z) : outcome str :=
  if (pos <? 0) || (len s <? pos) then Throw StdOutOfRange else Ok (skipn (Z.to_nat pos) s).
Definition substr_n (s : str) (pos n : Z) : outcome str :=
  r <- substr s pos ;; Ok (firstn (Z.to_nat n) r).

(** [s.ends_with(p)] *)
Definition ends_with (s p : str) : bool :=
  (len p <=? len s) && prefixb p (skipn (length s - length p) s).

(** ** Character classes, str.hpp:24-89 *)

(** str.hpp:25-37 *)
Inductive state := S_START | S_SIGN | S_INT | S_POINT | S_DEC | S_EXP | S_EXP_SIGN | S_EXP_NUM | S_END | S_OTHER.
(** str.hpp:40-48 *)
Inductive event := E_BLANK | E_SIGN | E_DIGIT | E_POINT | E_EXP | E_OTHER.

(** str.hpp:79-80 *)
Definition upper_digits : str := list_ascii_of_string "0123456789ABCDEFGHIJKLMNOPQRSTUVWXYZ".
Definition lower_digits : str := list_ascii_of_string "0123456789abcdefghijklmnopqrstuvwxyz".

(** str.hpp:81-88; [n] iterations remain. *)
Fixpoint char_loop (digit : ascii) (n : nat) (i : Z) : outcome Z :=
  match n with
  | O => Ok (-1)
  | S n' =>
      u <- vat upper_digits i ;; l <- vat lower_digits i ;;
      if Ascii.eqb digit u || Ascii.eqb digit l then Ok i else char_loop digit n' (i + 1)
  end.
(** str.hpp:77-89 *)
Definition char_to_integer (digit : ascii) (base : Z) : outcome Z := char_loop digit (Z.to_nat base) 0.

(** str.hpp:51-74 *)
Definition get_event (ch : ascii) (base : Z) : outcome event :=
  if Ascii.eqb ch " " || Ascii.eqb ch "010" || Ascii.eqb ch "009" || Ascii.eqb ch "013" then Ok E_BLANK
  else if Ascii.eqb ch "+" || Ascii.eqb ch "-" then Ok E_SIGN
  else
    d <- char_to_integer ch base ;;
    if negb (d =? -1) then Ok E_DIGIT
    else if Ascii.eqb ch "." then Ok E_POINT
    else if Ascii.eqb ch "e" || Ascii.eqb ch "E" then Ok E_EXP
    else Ok E_OTHER.

(** ** Construction, assignment, comparison *)

(** str.hpp:114-117 *)
Definition str_of_chars (chars : str) : str := c_str chars.

(** [str_] is declared const, so writing to it is undefined ([ConstUB]); [ConstBenign] lets
    the write happen, as compilers do. *)
Inductive const_policy := ConstUB | ConstBenign.
Definition const_write {A} (p : const_policy) (a : A) : outcome A :=
  match p with ConstUB => UB ConstWrite | ConstBenign => Ok a end.

(** str.hpp:146-150: the new value of the target *)
Definition str_assign (p : const_policy) (that : str) : outcome str := const_write p that.
(** str.hpp:129-132, 153-157: the new target and the moved-from source, taken to be empty *)
Definition str_move (p : const_policy) (that : str) : outcome (str * str) := const_write p (that, []).

(** str.hpp:139: the defaulted [<=>] is that of std::string, bytes compared as unsigned char *)
Definition byte_cmp (a b : ascii) : comparison := Z.compare (code a) (code b).
Definition str_cmp (s t : str) : comparison := list_cmp byte_cmp s t.
Definition str_eqb (s t : str) : bool := list_eqb Ascii.eqb s t.

(** ** Examination *)

(** str.hpp:193-198. [str_[size()]] would be a null character, but is never reached. *)
Definition str_at (s : str) (i : Z) : outcome ascii :=
  lo <- chk32 (- size s) ;; check_bounds i lo (size s) ;;; k <- from_end s i ;; vat s k.

(** str.hpp:211-214 *)
Definition str_is_empty (s : str) : bool := match s with [] => true | _ => false end.

(** str.hpp:225-237. A [string_view] over anything but a part of the string is undefined. *)
Definition str_find (s p : str) (start stop : Z) : outcome Z :=
  if size s <? start then Ok (-1)
  else
    let stop := if size s <? stop then size s else stop in
    if start <? 0 then UB InvalidRange
    else
      n <- chk32 (stop - start) ;;
      if n <? 0 then UB InvalidRange
      else
        match view_find (firstn (Z.to_nat n) (skipn (Z.to_nat start) s)) p with
        | None => Ok (-1)
        | Some pos => chk32 (start + wrap32 (Z.of_nat pos))
        end.
(** str.hpp:240-243 *)
Definition str_contains (s p : str) (start stop : Z) : outcome bool :=
  i <- str_find s p start stop ;; Ok (negb (i =? -1)).

(** str.hpp:254-257 *)
Fixpoint count_loop (s p : str) (fuel : nat) (start cnt : Z) : outcome Z :=
  match fuel with
  | O => OutOfFuel
  | S f =>
      i <- str_find s p start INT_MAX ;;
      if i =? -1 then Ok cnt
      else cnt <- chk32 (cnt + 1) ;; start <- chk32 (i + size p) ;; count_loop s p f start cnt
  end.
(** str.hpp:246-260. Each round moves on by at least one character, so the fuel suffices. *)
Definition str_count (s p : str) : outcome Z :=
  if str_is_empty p then chk32 (size s + 1) else count_loop s p (S (length s)) 0 0.

(** str.hpp:440-443: leaving the loop by [i = size()] still runs [++i]. *)
Definition leave_loop (n : Z) : outcome state := chk32 (n + 1) ;;; Ok S_OTHER.

(** str.hpp:414-445; [n] is [size()]. *)
Fixpoint integer_loop (p : policy) (base n : Z) (cs : str) (st : state) (non_negative : bool) (integer : Int)
  : outcome (state * bool * Int) :=
  match cs with
  | [] => Ok (st, non_negative, integer)
  | c :: cs' =>
      ev <- get_event c base ;;
      match st, ev with
      | S_START, E_BLANK => integer_loop p base n cs' S_START non_negative integer
      | S_START, E_SIGN => integer_loop p base n cs' S_SIGN (Ascii.eqb c "+") integer
      | (S_START | S_SIGN | S_INT), E_DIGIT =>
          b <- int_of_int base ;; m <- int_mul p integer b ;;
          d <- char_to_integer c base ;; d <- int_of_int d ;; integer <- int_add p m d ;;
          integer_loop p base n cs' S_INT non_negative integer
      | (S_INT | S_END), E_BLANK => integer_loop p base n cs' S_END non_negative integer
      | _, _ => st <- leave_loop n ;; Ok (st, non_negative, integer)
      end
  end.
(** str.hpp:401-452 *)
Definition str_to_integer (p : policy) (s : str) (base : Z) : outcome Int :=
  if (base <? 2) || (36 <? base) then Throw BadBase
  else
    r <- integer_loop p base (size s) s S_START true (MkInt 0 []) ;;
    let '(st, non_negative, integer) := r in
    match st with
    | S_INT | S_END => Ok (if non_negative then integer else int_neg integer)
    | _ => Throw BadIntegerLiteral
    end.

(** str.hpp:279-281 *)
Definition pos_infs : list str := map list_ascii_of_string
  ["inf"; "INF"; "Inf"; "+inf"; "+INF"; "+Inf"; "infinity"; "INFINITY"; "Infinity"; "+infinity"; "+INFINITY"; "+Infinity"]%string.
Definition neg_infs : list str := map list_ascii_of_string
  ["-inf"; "-INF"; "-Inf"; "-infinity"; "-INFINITY"; "-Infinity"]%string.
Definition nans : list str := map list_ascii_of_string
  ["nan"; "NaN"; "NAN"; "+nan"; "+NaN"; "+NAN"; "-nan"; "-NaN"; "-NAN"]%string.

(** str.hpp:307-311: the local variables *)
Record dec_vars := DecVars { v_sign : double; v_decimal : double; v_count : Z; v_exp_sign : double; v_exp : Z }.

(** [decimal_part * 10 + char_to_integer(str_[i], 10)] *)
Definition push_digit (x : double) (d : Z) : double := dadd (dmul x (double_of_Z 10)) (double_of_Z d).
Definition sign_of (c : ascii) : double := double_of_Z (if Ascii.eqb c "+" then 1 else -1).

(** str.hpp:315-381; [n] is [size()]. *)
Fixpoint decimal_loop (n : Z) (cs : str) (st : state) (v : dec_vars) : outcome (state * dec_vars) :=
  match cs with
  | [] => Ok (st, v)
  | c :: cs' =>
      ev <- get_event c 10 ;;
      match st, ev with
      | S_START, E_BLANK => decimal_loop n cs' S_START v
      | S_START, E_SIGN =>
          decimal_loop n cs' S_SIGN (DecVars (sign_of c) (v_decimal v) (v_count v) (v_exp_sign v) (v_exp v))
      | (S_START | S_SIGN), E_POINT => decimal_loop n cs' S_POINT v
      | (S_START | S_SIGN | S_INT), E_DIGIT =>
          d <- char_to_integer c 10 ;;
          decimal_loop n cs' S_INT (DecVars (v_sign v) (push_digit (v_decimal v) d) (v_count v) (v_exp_sign v) (v_exp v))
      | S_INT, E_POINT => decimal_loop n cs' S_DEC v
      | (S_POINT | S_DEC), E_DIGIT =>
          d <- char_to_integer c 10 ;; k <- chk32 (v_count v + 1) ;;
          decimal_loop n cs' S_DEC (DecVars (v_sign v) (push_digit (v_decimal v) d) k (v_exp_sign v) (v_exp v))
      | (S_INT | S_DEC), E_EXP => decimal_loop n cs' S_EXP v
      | S_EXP, E_SIGN =>
          decimal_loop n cs' S_EXP_SIGN (DecVars (v_sign v) (v_decimal v) (v_count v) (sign_of c) (v_exp v))
      | (S_EXP | S_EXP_SIGN | S_EXP_NUM), E_DIGIT =>
          d <- char_to_integer c 10 ;; m <- chk32 (v_exp v * 10) ;; e <- chk32 (m + d) ;;
          decimal_loop n cs' S_EXP_NUM (DecVars (v_sign v) (v_decimal v) (v_count v) (v_exp_sign v) e)
      | (S_INT | S_DEC | S_EXP_NUM | S_END), E_BLANK => decimal_loop n cs' S_END v
      | _, _ => st <- leave_loop n ;; Ok (st, v)
      end
  end.

(** str.hpp:276-388. [pow] is [std::pow(double, double)]. *)
Definition str_to_decimal (pow : double -> double -> double) (s : str) : outcome double :=
  if existsb (str_eqb s) pos_infs then Ok (B754_infinity false)
  else if existsb (str_eqb s) neg_infs then Ok (B754_infinity true)
  else if existsb (str_eqb s) nans then Ok B754_nan
  else
    r <- decimal_loop (size s) s S_START (DecVars (double_of_Z 1) (double_of_Z 0) 0 (double_of_Z 1) 0) ;;
    let (st, v) := r in
    match st with
    | S_INT | S_DEC | S_EXP_NUM | S_END =>
        Ok (dmul (v_sign v)
              (dmul (ddiv (v_decimal v) (pow (double_of_Z 10) (double_of_Z (v_count v))))
                    (pow (double_of_Z 10) (dmul (v_exp_sign v) (double_of_Z (v_exp v))))))
    | _ => Throw BadDecimalLiteral
    end.

(** str.hpp:455-458 *)
Definition str_starts_with (s p : str) : bool := prefixb p s.
(** str.hpp:461-464 *)
Definition str_ends_with (s p : str) : bool := ends_with s p.

(** ** Production *)

(** [std::string buffer(size(), 0)], then [len s] characters [r] written to it: a negative size is a
    [size_t] above [max_size()]. *)
Definition into_buffer (s : str) (r : outcome str) : outcome str :=
  if size s <? 0 then Throw StdLengthError else if size s =? len s then r else UB OutOfBounds.

(** str.hpp:487-505. [std::rotate_copy(b, b + n, e, out)] writes what [std::rotate] would leave. *)
Definition str_shl (s : str) (n : Z) : outcome str :=
  if (size s <=? 1) || (n =? 0) then Ok s
  else
    let n := Z.rem n (size s) in
    n <- (if n <? 0 then chk32 (n + size s) else Ok n) ;; into_buffer s (std_rotate s n).
(** str.hpp:471-484 *)
Definition str_shr (s : str) (n : Z) : outcome str :=
  if (size s <=? 1) || (n =? 0) then Ok s
  else if n <? 0 then m <- chk32 (- n) ;; str_shl s m
  else m <- chk32 (size s - n) ;; str_shl s m.
(** str.hpp:508-514 *)
Definition str_reverse (s : str) : outcome str := into_buffer s (Ok (rev s)).

(** str.hpp:517-524: [c |= 0b0010'0000] *)
Definition str_lower (s : str) : str := map (fun c => to_char (Z.lor (schar c) 32)) s.
(** str.hpp:527-534: [c &= 0b1101'1111] *)
Definition str_upper (s : str) : str := map (fun c => to_char (Z.land (schar c) 223)) s.

(** str.hpp:537-546 *)
Definition str_erase (s : str) (start stop : Z) : outcome str :=
  hi <- chk32 (size s + 1) ;; check_bounds start 0 hi ;;; check_bounds stop 0 hi ;;; verase s start stop.

(** str.hpp:566-570 *)
Fixpoint replace_loop (s old_str new_str : str) (fuel : nat) (this_start : Z) (buffer : str) : outcome str :=
  match fuel with
  | O => OutOfFuel
  | S f =>
      patt_start <- str_find s old_str this_start INT_MAX ;;
      if patt_start =? -1 then r <- substr s this_start ;; Ok (buffer ++ r)
      else
        n <- chk32 (patt_start - this_start) ;; r <- substr_n s this_start n ;;
        next <- chk32 (patt_start + size old_str) ;;
        replace_loop s old_str new_str f next (buffer ++ r ++ new_str)
  end.
(** str.hpp:555-573. The [ostream_iterator] writes its delimiter as a C string. *)
Definition str_replace (s old_str new_str : str) : outcome str :=
  if str_is_empty old_str
  then Ok (new_str ++ flat_map (fun c => c :: c_str new_str) s)
  else replace_loop s old_str new_str (S (length s)) 0 [].

(** str.hpp:581, 588: the test of [strip]; [ch] is the argument, -1 by default. *)
Definition stripped_char (ch : Z) (c : ascii) : bool :=
  if ch =? -1 then schar c <=? 32 else schar c =? ch.
(** str.hpp:580-584: the final [i] *)
Fixpoint lead (f : ascii -> bool) (v : str) : Z :=
  match v with [] => 0 | c :: v' => if f c then 1 + lead f v' else 0 end.
(** str.hpp:587-591: the final [i]; [n] is the current [i] plus one. *)
Fixpoint trail (f : ascii -> bool) (v : str) (n : nat) : outcome Z :=
  match n with
  | O => Ok (-1)
  | S i => c <- vat v (Z.of_nat i) ;; if f c then trail f v i else Ok (Z.of_nat i)
  end.
(** str.hpp:576-595; the first loop stops at [int(buffer.size())], the second starts from [buffer.size() - 1] as an int. *)
Definition str_strip (s : str) (ch : Z) : outcome str :=
  let f := stripped_char ch in
  b <- verase s 0 (lead f (firstn (Z.to_nat (size s)) s)) ;;
  i <- (let last := wrap32 (len b - 1) in if last <? 0 then Ok last else trail f b (Z.to_nat (last + 1))) ;;
  verase b (i + 1) (len b).

(** str.hpp:615-618: the loop is that of List::slice. *)
(** str.hpp:599-621 *)
Definition str_slice (s : str) (start stop step : Z) : outcome str :=
  if step =? 0 then Throw SliceStepZero
  else
    lo <- chk32 (- size s) ;; check_bounds start lo (size s) ;;;
    lo' <- chk32 (lo - 1) ;; hi' <- chk32 (size s + 1) ;; check_bounds stop lo' hi' ;;;
    start <- (if start <? 0 then chk32 (start + size s) else Ok start) ;;
    stop <- (if stop <? 0 then chk32 (stop + size s) else Ok stop) ;;
    slice_loop s stop step (S (length s)) start [].

(** str.hpp:624-633 *)
Definition str_plus_char (s : str) (c : ascii) : str := s ++ [c].
Definition str_plus (s t : str) : str := s ++ t.

(** str.hpp:636-650; the copying loop is that of List::operator*. *)
Definition str_times (s : str) (times : Z) : outcome str :=
  if times <? 0 then Throw NegativeTimes
  else n <- chk32 (size s * times) ;;
       (if n <? 0 then Throw StdLengthError else times_loop s (Z.to_nat times) 0 (repeat NUL (Z.to_nat n))).

(** [str_list += x] on a [List<Str>] *)
Definition push (l : list str) (x : str) : outcome (list str) := on_copy (list_append x) l.

(** str.hpp:670-682 *)
Fixpoint split_loop (s sep : str) (keep_empty : bool) (fuel : nat) (this_start : Z) (l : list str) : outcome (list str) :=
  match fuel with
  | O => OutOfFuel
  | S f =>
      patt_start <- str_find s sep this_start INT_MAX ;;
      if patt_start =? -1 then
        if keep_empty || negb (this_start =? size s) then r <- substr s this_start ;; push l r else Ok l
      else
        l' <- (if negb keep_empty && (patt_start =? this_start) then Ok l
               else n <- chk32 (patt_start - this_start) ;; r <- substr_n s this_start n ;; push l r) ;;
        next <- chk32 (patt_start + size sep) ;;
        split_loop s sep keep_empty f next l'
  end.
(** str.hpp:662-685 *)
Definition str_split (s sep : str) (keep_empty : bool) : outcome (list str) :=
  if str_is_empty sep then Throw EmptySeparator
  else split_loop s sep keep_empty (S (length s)) 0 [].

(** str.hpp:701-704; [n] iterations remain. *)
Fixpoint join_loop (sep : str) (l : list str) (n : nat) (i : Z) (buffer : str) : outcome str :=
  match n with
  | O => Ok buffer
  | S n' => x <- list_at l i ;; join_loop sep l n' (i + 1) (buffer ++ sep ++ x)
  end.
(** str.hpp:693-706 *)
Definition str_join (sep : str) (l : list str) : outcome str :=
  if list_is_empty l then Ok []
  else x <- list_at l 0 ;; join_loop sep l (Z.to_nat (size l - 1)) 1 x.

(** [view.find(c)] and [view.find(c, from)]; [None] is [npos]. *)
Fixpoint find_char (v : str) (c : ascii) : option nat :=
  match v with [] => None | d :: v' => if Ascii.eqb d c then Some O else option_map S (find_char v' c) end.
Definition find_char_from (v : str) (c : ascii) (from : nat) : option nat :=
  option_map (Nat.add from) (find_char (skipn from v) c).

(** str.hpp:92-103: stream and view afterwards; [value] is what [oss << value] writes.
    [npos + 1] is zero. *)
Definition format_helper (oss view value : str) : str * str :=
  let open := find_char view "{" in
  let close := find_char_from view "}" (match open with Some i => S i | None => O end) in
  match open, close with
  | Some i, Some j => (oss ++ firstn i view ++ value, skipn (S j) view)
  | _, _ => (oss, view)
  end.
(** str.hpp:709-717 *)
Fixpoint format_args (oss view : str) (args : list str) : str * str :=
  match args with
  | [] => (oss, view)
  | a :: args' => let (o, v) := format_helper oss view a in format_args o v args'
  end.
Definition str_format (s : str) (args : list str) : str :=
  let (o, v) := format_args [] s args in o ++ v.

(** str.hpp:724-732 *)
Definition str_print (s : str) : str := """"%char :: s ++ [""""%char].

(** std::getline(is, str): stream and string afterwards. *)
Fixpoint take_line (b : str) : str * option str :=
  match b with
  | [] => ([], None)
  | c :: b' => if Ascii.eqb c "010" then ([], Some b') else let (l, r) := take_line b' in (c :: l, r)
  end.
Definition getline (is : istream) (s : str) : istream * str :=
  if negb (good is) then (set_fail is, s)
  else match take_line (buf is) with
       | (l, Some rest) => (IStream rest false false, l)
       | (l, None) => (IStream [] true (match l with [] => true | _ => false end), l)
       end.
(** str.hpp:735-738 *)
Definition str_extract (p : const_policy) (is : istream) (s : str) : outcome (istream * str) :=
  if negb (good is) then Ok (getline is s) else const_write p (getline is s).

(** str.hpp:746-752; [h] is [std::hash<std::string>]. *)
Definition str_hash (h : str -> Z) (s : str) : Z := h s.

(** Client code: reading [n] strings one after the other. *)
Fixpoint extract_lines (p : const_policy) (n : nat) (is : istream) : outcome (list str * istream) :=
  match n with
  | O => Ok ([], is)
  | S n' => r <- str_extract p is [] ;; q <- extract_lines p n' (fst r) ;; Ok (snd r :: fst q, snd q)
  end.
