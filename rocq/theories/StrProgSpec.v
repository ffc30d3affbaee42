(** The same programs run on plain texts and sequences of texts. A statement whose behaviour
    the code leaves undefined has no entry. *)
From Coq Require Import ZArith List Bool Ascii.
From Verif Require Import Outcome Show ListSpec StrSpec StrProgModel.
Import ListNotations.
Open Scope char_scope.
Open Scope Z_scope.

Notation num l := (Z.of_nat (length l)).

(** [b] tells whether [P] holds. *)
Definition says (b : bool) (P : Prop) : Prop := b = true <-> P.

(** [t] up to its first null character. *)
Definition until_null (t r : text) : Prop :=
  Forall (fun c => byte c <> 0) r /\ (t = r \/ exists c rest, byte c = 0 /\ t = r ++ c :: rest).

(** The characters [strip] takes away: for -1 the blanks and every byte from 128 up, else the character
    whose value as a signed char is [ch]. *)
Definition strips (ch : Z) (c : ascii) : Prop :=
  if ch =? -1 then byte c <= 32 \/ 128 <= byte c
  else (if byte c <? 128 then byte c else byte c - 256) = ch.

Definition bit5_set (c d : ascii) : Prop := byte d = if Z.testbit (byte c) 5 then byte c else byte c + 32.
Definition bit5_clear (c d : ascii) : Prop := byte d = if Z.testbit (byte c) 5 then byte c - 32 else byte c.

Definition quoted (t : text) : text := """" :: t ++ [""""].

(** The text an argument of [format] is written as. *)
Inductive argument (s : xstore) : xarg -> text -> Prop :=
| arg_str : forall v, argument s (XStrArg v) (quoted (strs s v))
| arg_int : forall z, argument s (XIntArg z) (show_int z)
| arg_chars : forall t r, until_null t r -> argument s (XTextArg t) r.

(** The text [r] computed by an expression. *)
Inductive computes (s : xstore) : xstmt -> xvar -> text -> Prop :=
| c_init : forall u t r, until_null t r -> computes s (XInit u t) u r
| c_init_std : forall u t, computes s (XInitStd u t) u t
| c_copy : forall u v, computes s (XCopy u v) u (strs s v)
| c_assign : forall u v, computes s (XAssign u v) u (strs s v)
| c_plus_char : forall u v c, computes s (XPlusChar u v c) u (strs s v ++ [c])
| c_plus : forall u v w, computes s (XPlus u v w) u (strs s v ++ strs s w)
| c_times : forall u v n, 0 <= n -> num (strs s v) * n <= INT_MAX -> computes s (XTimes u v n) u (concat (repeat (strs s v) (Z.to_nat n)))
| c_shl : forall u v n r, rotated (strs s v) r n -> computes s (XShl u v n) u r
| c_shr : forall u v n r, INT_MIN < n \/ num (strs s v) <= 1 -> rotated (strs s v) r (- n) -> computes s (XShr u v n) u r
| c_reverse : forall u v, computes s (XReverse u v) u (rev (strs s v))
| c_lower : forall u v r, Forall2 bit5_set (strs s v) r -> computes s (XLower u v) u r
| c_upper : forall u v r, Forall2 bit5_clear (strs s v) r -> computes s (XUpper u v) u r
| c_erase : forall u v i j a m b, strs s v = a ++ m ++ b -> num a = i -> num m = j - i -> computes s (XErase u v i j) u (a ++ b)
| c_replace : forall u v w x ps, strs s w <> [] -> pieces (strs s w) (strs s v) ps -> computes s (XReplace u v w x) u (glue (strs s x) ps)
| c_replace_empty : forall u v w x r, strs s w = [] -> until_null (strs s x) r ->
    computes s (XReplace u v w x) u (strs s x ++ concat (map (fun c => c :: r) (strs s v)))
| c_strip : forall u v ch r, trimmed (strips ch) (strs s v) r -> computes s (XStrip u v ch) u r
| c_slice : forall u v a b st r, st <> 0 -> - num (strs s v) <= a < num (strs s v) -> - num (strs s v) - 1 <= b <= num (strs s v) ->
    slice_fits (from_back (num (strs s v)) a) (from_back (num (strs s v)) b) st ->
    sliced (strs s v) r (from_back (num (strs s v)) a) (from_back (num (strs s v)) b) st -> computes s (XSlice u v a b st) u r
| c_format : forall u v args texts r, Forall2 (argument s) args texts -> formatted (strs s v) texts r -> computes s (XFormat u v args) u r
| c_join : forall u v l, computes s (XJoin u v l) u (glue (strs s v) (rows s l))
| c_row_at : forall u l i k r, position (num (rows s l)) i = Some k -> nth_error (rows s l) k = Some r -> computes s (XRowAt u l i) u r.

(** The exception a statement throws. *)
Inductive throws (s : xstore) : xstmt -> exn -> Prop :=
| t_times : forall u v n, n < 0 -> throws s (XTimes u v n) NegativeTimes
| t_erase : forall u v i j, ~ (0 <= i <= num (strs s v)) \/ ~ (0 <= j <= num (strs s v)) -> throws s (XErase u v i j) IndexOutOfRange
| t_slice : forall u v a b, throws s (XSlice u v a b 0) SliceStepZero
| t_slice_range : forall u v a b st, st <> 0 -> ~ (- num (strs s v) <= a < num (strs s v)) \/ ~ (- num (strs s v) - 1 <= b <= num (strs s v)) ->
    throws s (XSlice u v a b st) IndexOutOfRange
| t_row_at : forall u l i, position (num (rows s l)) i = None -> throws s (XRowAt u l i) IndexOutOfRange
| t_split : forall l v w keep, strs s w = [] -> throws s (XSplit l v w keep) EmptySeparator
| t_row_append : forall l v, num (rows s l) = INT_MAX -> throws s (XRowAppend l v) ContainerFull
| t_at : forall v i, position (num (strs s v)) i = None -> throws s (XAt v i) IndexOutOfRange
| t_base : forall v base, ~ (2 <= base <= 36) -> throws s (XInteger v base) BadBase
| t_literal : forall v base, 2 <= base <= 36 -> (forall z, ~ int_literal base (strs s v) z) -> throws s (XInteger v base) BadIntegerLiteral.

(** What a query lets the client observe. *)
Inductive shows (s : xstore) : xstmt -> list xevent -> Prop :=
| o_at : forall v i k c, position (num (strs s v)) i = Some k -> nth_error (strs s v) k = Some c -> shows s (XAt v i) [XChar c]
| o_size : forall v, shows s (XSize v) [XNum (num (strs s v))]
| o_empty : forall v b, says b (strs s v = []) -> shows s (XEmpty v) [XBool b]
| o_find : forall v w a b r, 0 <= a <= Z.min b (num (strs s v)) -> first_occurrence (strs s v) (strs s w) a (Z.min b (num (strs s v))) r ->
    shows s (XFind v w a b) [XNum r]
| o_find_beyond : forall v w a b, num (strs s v) < a -> shows s (XFind v w a b) [XNum (-1)]
| o_contains : forall v w a b f, 0 <= a <= Z.min b (num (strs s v)) ->
    says f (exists j, a <= j /\ j + num (strs s w) <= Z.min b (num (strs s v)) /\ occurs (strs s v) (strs s w) j) ->
    shows s (XContains v w a b) [XBool f]
| o_contains_beyond : forall v w a b, num (strs s v) < a -> shows s (XContains v w a b) [XBool false]
| o_count : forall v w js, strs s w <> [] -> apart (strs s v) (strs s w) 0 js -> (forall js', apart (strs s v) (strs s w) 0 js' -> (length js' <= length js)%nat) ->
    shows s (XCount v w) [XNum (num js)]
| o_count_empty : forall v w, strs s w = [] -> shows s (XCount v w) [XNum (num (strs s v) + 1)]
| o_starts : forall v w b, says b (exists r, strs s v = strs s w ++ r) -> shows s (XStarts v w) [XBool b]
| o_ends : forall v w b, says b (exists r, strs s v = r ++ strs s w) -> shows s (XEnds v w) [XBool b]
| o_less : forall v w b, says b (lex_lt byte_lt (strs s v) (strs s w)) -> shows s (XLess v w) [XBool b]
| o_equal : forall v w b, says b (strs s v = strs s w) -> shows s (XEqual v w) [XBool b]
| o_integer : forall v base z, 2 <= base <= 36 -> int_literal base (strs s v) z -> shows s (XInteger v base) [XText (show_int z)]
| o_print : forall v, shows s (XPrint v) [XText (quoted (strs s v))]
| o_each : forall v, shows s (XEach v) (map XChar (strs s v))
| o_each_back : forall v, shows s (XEachBack v) (map XChar (rev (strs s v)))
| o_row_size : forall l, shows s (XRowSize l) [XNum (num (rows s l))]
| o_row_print : forall l, shows s (XRowPrint l) [XText ("[" :: commas (map quoted (rows s l)) ++ ["]"])].

Inductive astep : xstmt -> xstore -> xstore -> list xevent -> Prop :=
| a_let : forall c s u r, computes s c u r -> astep c s (set_str s u r) []
| a_move : forall u v s, astep (XMove u v) s (set_str (set_str s v []) u (strs s v)) []
| a_move_assign : forall u v s, u <> v -> astep (XMoveAssign u v) s (set_str (set_str s v []) u (strs s v)) []
| a_split : forall l v w s ps, strs s w <> [] -> pieces (strs s w) (strs s v) ps -> astep (XSplit l v w true) s (set_row s l ps) []
| a_split_drop : forall l v w s ps, strs s w <> [] -> pieces (strs s w) (strs s v) ps ->
    astep (XSplit l v w false) s (set_row s l (filter (fun t => match t with [] => false | _ => true end) ps)) []
| a_row_append : forall l v s, num (rows s l) < INT_MAX -> astep (XRowAppend l v) s (set_row s l (rows s l ++ [strs s v])) []
| a_throw : forall c s e, throws s c e -> astep c s s [XThrow e]
| a_show : forall c s ev, shows s c ev -> astep c s s ev.

(** Every string is shorter than INT_MAX, every list has at most INT_MAX elements. *)
Definition short (s : xstore) : Prop :=
  (forall v, num (strs s v) < INT_MAX) /\ (forall l, num (rows s l) <= INT_MAX /\ Forall (fun t => num t < INT_MAX) (rows s l)).

(** A run whose strings are short before each statement. *)
Inductive arun : list xstmt -> xstore -> xstore -> list xevent -> Prop :=
| a_done : forall s, arun [] s s []
| a_more : forall c rest s s' s'' ev ev', short s -> astep c s s' ev -> arun rest s' s'' ev' -> arun (c :: rest) s s'' (ev ++ ev').

(** The calls left undefined by the code, besides writing to a const member. *)
Definition undefined (c : xstmt) (s : xstore) : Prop :=
  match c with
  | XFind v _ a b | XContains v _ a b => a <= num (strs s v) /\ (a < 0 \/ b < a)
  | XShr _ v n => n = INT_MIN /\ 1 < num (strs s v)
  | XErase _ v a b => 0 <= b < a /\ a <= num (strs s v)
  | XTimes _ v n => 0 <= n /\ INT_MAX < num (strs s v) * n
  | XSlice _ v a b st =>
      st <> 0 /\ - num (strs s v) <= a < num (strs s v) /\ - num (strs s v) - 1 <= b <= num (strs s v) /\
      ~ slice_fits (from_back (num (strs s v)) a) (from_back (num (strs s v)) b) st
  | XMoveAssign u v => u = v
  | _ => False
  end.

(** Arguments that are int, or signed char for [strip]. *)
Definition xint (c : xstmt) : Prop :=
  let int z := INT_MIN <= z <= INT_MAX in
  match c with
  | XTimes _ _ n | XShl _ _ n | XShr _ _ n | XRowAt _ _ n | XAt _ n | XInteger _ n => int n
  | XErase _ _ a b | XFind _ _ a b | XContains _ _ a b => int a /\ int b
  | XSlice _ _ a b st => int a /\ int b /\ int st
  | XStrip _ _ ch => -128 <= ch <= 127
  | _ => True
  end.

(** Statements that write to an existing Str object. *)
Definition writes (c : xstmt) : Prop :=
  match c with XMove _ _ | XAssign _ _ | XMoveAssign _ _ => True | _ => False end.
