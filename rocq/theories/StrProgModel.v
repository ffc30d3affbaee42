(** Programs over Str and List<Str> variables, run on the model of the code. *)
From Coq Require Import ZArith List Bool Ascii.
From Verif Require Import Outcome IntModel ListModel StrModel Show.
Import ListNotations.
Open Scope Z_scope.

Definition xvar := nat.
Bind Scope nat_scope with xvar.

(** Arguments of [format]: a Str variable, an int, a character literal. *)
Inductive xarg := XStrArg (v : xvar) | XIntArg (z : Z) | XTextArg (t : list ascii).

(** One statement of a client program, run inside its own [try]/[catch]. [Str u = e] declares
    a new object; the name [u] may have been in use before. *)
Inductive xstmt :=
| XInit (u : xvar) (t : list ascii)          (* Str u("...");                    str.hpp:114 *)
| XInitStd (u : xvar) (t : list ascii)       (* Str u(std::string);              str.hpp:120 *)
| XCopy (u v : xvar)                         (* Str u = v;                       str.hpp:126 *)
| XMove (u v : xvar)                         (* Str u = std::move(v);            str.hpp:129 *)
| XAssign (u v : xvar)                       (* u = v;                           str.hpp:146 *)
| XMoveAssign (u v : xvar)                   (* u = std::move(v);                str.hpp:153 *)
| XPlusChar (u v : xvar) (c : ascii)         (* Str u = v + c;                   str.hpp:624 *)
| XPlus (u v w : xvar)                       (* Str u = v + w;                   str.hpp:630 *)
| XTimes (u v : xvar) (n : Z)                (* Str u = v * n;                   str.hpp:636 *)
| XShl (u v : xvar) (n : Z)                  (* Str u = v << n;                  str.hpp:487 *)
| XShr (u v : xvar) (n : Z)                  (* Str u = v >> n;                  str.hpp:471 *)
| XReverse (u v : xvar)                      (* Str u = v.reverse();             str.hpp:508 *)
| XLower (u v : xvar)                        (* Str u = v.lower();               str.hpp:517 *)
| XUpper (u v : xvar)                        (* Str u = v.upper();               str.hpp:527 *)
| XErase (u v : xvar) (a b : Z)              (* Str u = v.erase(a, b);           str.hpp:537 *)
| XReplace (u v w x : xvar)                  (* Str u = v.replace(w, x);         str.hpp:555 *)
| XStrip (u v : xvar) (ch : Z)               (* Str u = v.strip(ch);             str.hpp:576 *)
| XSlice (u v : xvar) (a b st : Z)           (* Str u = v.slice(a, b, st);       str.hpp:599 *)
| XFormat (u v : xvar) (args : list xarg)    (* Str u = v.format(args...);       str.hpp:709 *)
| XJoin (u v l : xvar)                       (* Str u = v.join(l);               str.hpp:693 *)
| XRowAt (u l : xvar) (i : Z)                (* Str u = l[i];                    list.hpp:98 *)
| XSplit (l v w : xvar) (keep : bool)        (* List<Str> l = v.split(w, keep);  str.hpp:662 *)
| XRowAppend (l v : xvar)                    (* l += v;                          list.hpp:176 *)
| XAt (v : xvar) (i : Z)                     (* emit(v[i]);                      str.hpp:193 *)
| XSize (v : xvar)                           (* emit(v.size());                  str.hpp:205 *)
| XEmpty (v : xvar)                          (* emit(v.is_empty());              str.hpp:211 *)
| XFind (v w : xvar) (a b : Z)               (* emit(v.find(w, a, b));           str.hpp:225 *)
| XContains (v w : xvar) (a b : Z)           (* emit(v.contains(w, a, b));       str.hpp:240 *)
| XCount (v w : xvar)                        (* emit(v.count(w));                str.hpp:246 *)
| XStarts (v w : xvar)                       (* emit(v.starts_with(w));          str.hpp:455 *)
| XEnds (v w : xvar)                         (* emit(v.ends_with(w));            str.hpp:461 *)
| XLess (v w : xvar)                         (* emit(v < w);                     str.hpp:139 *)
| XEqual (v w : xvar)                        (* emit(v == w);                    str.hpp:139 *)
| XInteger (v : xvar) (base : Z)             (* std::cout << v.to_integer(base); str.hpp:401 *)
| XPrint (v : xvar)                          (* std::cout << v;                  str.hpp:724 *)
| XEach (v : xvar)                           (* for (char c : v) emit(c);        str.hpp:163-172 *)
| XEachBack (v : xvar)                       (* from rbegin() to rend();         str.hpp:175-184 *)
| XRowSize (l : xvar)                        (* emit(l.size());                  list.hpp:109 *)
| XRowPrint (l : xvar).                      (* std::cout << l;                  list.hpp:412 *)

(** What a client observes. *)
Inductive xevent := XThrow (e : exn) | XChar (c : ascii) | XBool (b : bool) | XNum (z : Z) | XText (t : list ascii).

Record xstore := XStore { strs : xvar -> list ascii; rows : xvar -> list (list ascii) }.
Definition set_str (s : xstore) (u : xvar) (t : list ascii) : xstore :=
  XStore (fun w => if Nat.eqb w u then t else strs s w) (rows s).
Definition set_row (s : xstore) (l : xvar) (r : list (list ascii)) : xstore :=
  XStore (strs s) (fun w => if Nat.eqb w l then r else rows s w).

(** A declaration of [u]. *)
Definition xlet (s : xstore) (u : xvar) (o : outcome str) : outcome (xstore * list xevent) :=
  match o with
  | Ok r => Ok (set_str s u r, [])
  | Throw e => Ok (s, [XThrow e])
  | UB b => UB b
  | OutOfFuel => OutOfFuel
  end.
(** A declaration of, or a call on, the list [l]. *)
Definition xrow (s : xstore) (l : xvar) (o : outcome (list str)) : outcome (xstore * list xevent) :=
  match o with
  | Ok r => Ok (set_row s l r, [])
  | Throw e => Ok (s, [XThrow e])
  | UB b => UB b
  | OutOfFuel => OutOfFuel
  end.
(** An expression whose value is emitted. *)
Definition xemit {A} (s : xstore) (o : outcome A) (ev : A -> xevent) : outcome (xstore * list xevent) :=
  match o with
  | Ok r => Ok (s, [ev r])
  | Throw e => Ok (s, [XThrow e])
  | UB b => UB b
  | OutOfFuel => OutOfFuel
  end.

(** What [oss << arg] writes. *)
Definition arg_text (s : xstore) (a : xarg) : str :=
  match a with
  | XStrArg v => str_print (strs s v)
  | XIntArg z => show_int z
  | XTextArg t => StreamModel.c_str t
  end.

Definition xstep (p : const_policy) (q : policy) (c : xstmt) (s : xstore) : outcome (xstore * list xevent) :=
  let t := strs s in
  match c with
  | XInit u x => xlet s u (Ok (str_of_chars x))
  | XInitStd u x => xlet s u (Ok x)
  | XCopy u v => xlet s u (Ok (t v))
  | XMove u v => r <- str_move p (t v) ;; Ok (set_str (set_str s v (snd r)) u (fst r), [])
  | XAssign u v => r <- str_assign p (t v) ;; Ok (set_str s u r, [])
  | XMoveAssign u v =>
      r <- str_move p (t v) ;; if Nat.eqb u v then UB SelfRange else Ok (set_str (set_str s v (snd r)) u (fst r), [])
  | XPlusChar u v c => xlet s u (Ok (str_plus_char (t v) c))
  | XPlus u v w => xlet s u (Ok (str_plus (t v) (t w)))
  | XTimes u v n => xlet s u (str_times (t v) n)
  | XShl u v n => xlet s u (str_shl (t v) n)
  | XShr u v n => xlet s u (str_shr (t v) n)
  | XReverse u v => xlet s u (str_reverse (t v))
  | XLower u v => xlet s u (Ok (str_lower (t v)))
  | XUpper u v => xlet s u (Ok (str_upper (t v)))
  | XErase u v a b => xlet s u (str_erase (t v) a b)
  | XReplace u v w x => xlet s u (str_replace (t v) (t w) (t x))
  | XStrip u v ch => xlet s u (str_strip (t v) ch)
  | XSlice u v a b st => xlet s u (str_slice (t v) a b st)
  | XFormat u v args => xlet s u (Ok (str_format (t v) (map (arg_text s) args)))
  | XJoin u v l => xlet s u (str_join (t v) (rows s l))
  | XRowAt u l i => xlet s u (list_at (rows s l) i)
  | XSplit l v w keep => xrow s l (str_split (t v) (t w) keep)
  | XRowAppend l v => xrow s l (push (rows s l) (t v))
  | XAt v i => xemit s (str_at (t v) i) XChar
  | XSize v => xemit s (Ok (size (t v))) XNum
  | XEmpty v => xemit s (Ok (str_is_empty (t v))) XBool
  | XFind v w a b => xemit s (str_find (t v) (t w) a b) XNum
  | XContains v w a b => xemit s (str_contains (t v) (t w) a b) XBool
  | XCount v w => xemit s (str_count (t v) (t w)) XNum
  | XStarts v w => xemit s (Ok (str_starts_with (t v) (t w))) XBool
  | XEnds v w => xemit s (Ok (str_ends_with (t v) (t w))) XBool
  | XLess v w => xemit s (Ok (match str_cmp (t v) (t w) with Lt => true | _ => false end)) XBool
  | XEqual v w => xemit s (Ok (str_eqb (t v) (t w))) XBool
  | XInteger v base => xemit s (x <- str_to_integer q (t v) base ;; Ok (int_print x)) XText
  | XPrint v => xemit s (Ok (str_print (t v))) XText
  | XEach v => Ok (s, map XChar (t v))
  | XEachBack v => Ok (s, map XChar (rev (t v)))
  | XRowSize l => xemit s (Ok (size (rows s l))) XNum
  | XRowPrint l => xemit s (Ok (list_print str_print (rows s l))) XText
  end.

Fixpoint xrun (p : const_policy) (q : policy) (prog : list xstmt) (s : xstore) : outcome (xstore * list xevent) :=
  match prog with
  | [] => Ok (s, [])
  | c :: rest => r <- xstep p q c s ;; r' <- xrun p q rest (fst r) ;; Ok (fst r', snd r ++ snd r')
  end.
