(** sources/str.hpp when memory may run out (see FailModel): which allocations each member makes, and what a member that
    fails leaves behind. The values are those of StrModel. Characters are copied without exceptions; the only events are
    allocations: of [std::string], of the [std::vector] in a [List<Str>], and of [Int].

    [std::string] and [std::stringbuf] are those of libstdc++ (GCC 13): up to 15 characters are kept in the object itself. *)
From Coq Require Import ZArith List Bool Ascii.
From Verif Require Import Outcome IntModel ListModel StrModel Show StrProgModel IntMemModel FailModel FailRunModel.
Import ListNotations.
Open Scope Z_scope.

(** ** std::string *)

(** The characters and the capacity. *)
Record xstr := Xstr { xchars : str; xroom : nat }.
Definition LOCAL : nat := 15.
Definition is_local (x : xstr) : bool := Nat.leb (xroom x) LOCAL.

(** What a moved-from string is when its storage is gone. *)
Definition xempty : xstr := Xstr [] LOCAL.

Section StrFail.
(** Whether event [k] succeeds; the growth policy of the vectors. *)
Variables (ok : nat -> bool) (grow : nat -> nat -> nat).

(** Storage for [n] characters of a new string. *)
Definition s_alloc {St} (n : nat) : xm St unit := if Nat.leb n LOCAL then xret tt else xevent ok.
(** Construction with given characters, and copying. *)
Definition s_new {St} (t : str) : xm St xstr := s_alloc (length t) ;~ xret (Xstr t (Nat.max LOCAL (length t))).
(** [b += t]: the capacity is at least doubled. *)
Definition s_append {St} (b : xstr) (t : str) : xm St xstr :=
  let r := xchars b ++ t in
  if Nat.leb (length r) (xroom b) then xret (Xstr r (xroom b))
  else xevent ok ;~ xret (Xstr r (Nat.max (length r) (2 * xroom b))).
(** [s + t] for two strings that are not temporary: the capacity is reserved first. *)
Definition s_concat {St} (s t : str) : xm St xstr :=
  s_alloc (length (s ++ t)) ;~
  xret (Xstr (s ++ t) (if Nat.leb (length (s ++ t)) LOCAL then LOCAL else Nat.max (length (s ++ t)) (2 * LOCAL))).
(** [b = t]: new storage is allocated before the old one is given up. *)
Definition s_assign (t : str) : xm xstr unit :=
  b <~ xget ;;
  if Nat.leb (length t) (xroom b) then xput (Xstr t (xroom b))
  else xevent ok ;~ xput (Xstr t (Nat.max (length t) (2 * xroom b))).
(** Move construction and move assignment: the new target and what is left of the source. A string in its own object is
    copied; otherwise the storage changes hands, and the source of an assignment gets that of the target, if it has any. *)
Definition s_move (x : xstr) : xstr * xstr := (Xstr (xchars x) (if is_local x then LOCAL else xroom x), xempty).
Definition s_move_assign (target x : xstr) : xstr * xstr :=
  if is_local x then (Xstr (xchars x) (xroom target), xempty)
  else (x, if is_local target then xempty else Xstr [] (xroom target)).

(** ** std::ostringstream *)

(** What has been written, the room of the buffer, and badbit. An exception of the buffer is caught by the stream. *)
Record sbuf := Sbuf { swritten : str; sroom : nat; sbad : bool }.
(** An event whose failure is not an exception. *)
Definition xask {St} : xm St bool := fun s k => (XRet (ok k), s, S k).
(** Characters one after the other: a full buffer grows to 512 characters, then to double its size. *)
Fixpoint s_put {St} (t : str) (b : sbuf) : xm St sbuf :=
  match t with
  | [] => xret b
  | c :: t' =>
      if sbad b then xret b
      else if Nat.ltb (length (swritten b)) (sroom b) then s_put t' (Sbuf (swritten b ++ [c]) (sroom b) false)
      else
        got <~ xask ;;
        if got then s_put t' (Sbuf (swritten b ++ [c]) (Nat.max 512 (2 * sroom b)) false)
        else xret (Sbuf (swritten b) (sroom b) true)
  end.
Definition s_stream : sbuf := Sbuf [] LOCAL false.
(** [oss.str()] *)
Definition s_text {St} (b : sbuf) : xm St xstr :=
  s_alloc (length (swritten b)) ;~
  xret (Xstr (swritten b) (if Nat.leb (length (swritten b)) LOCAL then LOCAL else Nat.max (length (swritten b)) (2 * LOCAL))).

(** ** Members of Str. What is returned is a copy of the local [std::string], since Str has no constructor that moves one. *)

(** str.hpp:114-126 *)
Definition fs_of {St} (t : str) : xm St xstr := s_new t.

(** str.hpp:487-505 *)
Definition fs_shl {St} (s : str) (n : Z) : xm St xstr :=
  if (size s <=? 1) || (n =? 0) then s_new s
  else
    let n := Z.rem n (size s) in
    n <~ xlift (if n <? 0 then chk32 (n + size s) else Ok n) ;;
    (if size s <? 0 then xlift (Throw StdLengthError) else s_alloc (Z.to_nat (size s)) ;~ r <~ xlift (into_buffer s (std_rotate s n)) ;; s_new r).
(** str.hpp:471-484 *)
Definition fs_shr {St} (s : str) (n : Z) : xm St xstr :=
  if (size s <=? 1) || (n =? 0) then s_new s
  else if n <? 0 then m <~ xlift (chk32 (- n)) ;; fs_shl s m
  else m <~ xlift (chk32 (size s - n)) ;; fs_shl s m.
(** str.hpp:508-514 *)
Definition fs_reverse {St} (s : str) : xm St xstr :=
  if size s <? 0 then xlift (Throw StdLengthError) else s_alloc (Z.to_nat (size s)) ;~ r <~ xlift (str_reverse s) ;; s_new r.
(** str.hpp:517-534 *)
Definition fs_lower {St} (s : str) : xm St xstr := b <~ s_new s ;; s_new (str_lower (xchars b)).
Definition fs_upper {St} (s : str) : xm St xstr := b <~ s_new s ;; s_new (str_upper (xchars b)).
(** str.hpp:537-546 *)
Definition fs_erase {St} (s : str) (start stop : Z) : xm St xstr :=
  hi <~ xlift (chk32 (size s + 1)) ;; xlift (check_bounds start 0 hi) ;~ xlift (check_bounds stop 0 hi) ;~
  b <~ s_new s ;; r <~ xlift (verase (xchars b) start stop) ;; s_new r.

(** str.hpp:566-572: [str_.substr(...) + new_str.str_] appends to the temporary. *)
Fixpoint fs_replace_loop {St} (s old_str new_str : str) (fuel : nat) (this_start : Z) (buffer : xstr) : xm St xstr :=
  match fuel with
  | O => xlift OutOfFuel
  | S f =>
      patt_start <~ xlift (str_find s old_str this_start INT_MAX) ;;
      if patt_start =? -1 then
        r <~ xlift (substr s this_start) ;; t <~ s_new r ;; b <~ s_append buffer (xchars t) ;; s_new (xchars b)
      else
        n <~ xlift (chk32 (patt_start - this_start)) ;; r <~ xlift (substr_n s this_start n) ;;
        t <~ s_new r ;; t <~ s_append t new_str ;; b <~ s_append buffer (xchars t) ;;
        next <~ xlift (chk32 (patt_start + size old_str)) ;;
        fs_replace_loop s old_str new_str f next b
  end.
(** str.hpp:555-573. [new_str.str_ + ss.str()] inserts into the temporary. *)
Definition fs_replace {St} (s old_str new_str : str) : xm St xstr :=
  if str_is_empty old_str then
    ss <~ s_put (flat_map (fun c => c :: StreamModel.c_str new_str) s) s_stream ;; t <~ s_text ss ;;
    (if Nat.leb (length new_str + length (xchars t)) (xroom t) then xret tt else xevent ok) ;~
    s_new (new_str ++ xchars t)
  else fs_replace_loop s old_str new_str (S (length s)) 0 xempty.

(** str.hpp:576-595 *)
Definition fs_strip {St} (s : str) (ch : Z) : xm St xstr := b <~ s_new s ;; r <~ xlift (str_strip (xchars b) ch) ;; s_new r.

(** str.hpp:615-618 *)
Fixpoint fs_slice_loop {St} (s : str) (stop step : Z) (fuel : nat) (i : Z) (buffer : xstr) : xm St xstr :=
  match fuel with
  | O => xlift OutOfFuel
  | S f =>
      if (if 0 <? step then i <? stop else stop <? i) then
        x <~ xlift (vat s i) ;; b <~ s_append buffer [x] ;; i' <~ xlift (chk32 (i + step)) ;; fs_slice_loop s stop step f i' b
      else xret buffer
  end.
(** str.hpp:599-621 *)
Definition fs_slice {St} (s : str) (start stop step : Z) : xm St xstr :=
  if step =? 0 then xlift (Throw SliceStepZero)
  else
    lo <~ xlift (chk32 (- size s)) ;; xlift (check_bounds start lo (size s)) ;~
    lo' <~ xlift (chk32 (lo - 1)) ;; hi' <~ xlift (chk32 (size s + 1)) ;; xlift (check_bounds stop lo' hi') ;~
    start <~ xlift (if start <? 0 then chk32 (start + size s) else Ok start) ;;
    stop <~ xlift (if stop <? 0 then chk32 (stop + size s) else Ok stop) ;;
    b <~ fs_slice_loop s stop step (S (length s)) start xempty ;; s_new (xchars b).

(** str.hpp:624-633 *)
Definition fs_plus {St} (s t : str) : xm St xstr := b <~ s_concat s t ;; s_new (xchars b).
(** str.hpp:636-650 *)
Definition fs_times {St} (s : str) (times : Z) : xm St xstr :=
  if times <? 0 then xlift (Throw NegativeTimes)
  else
    n <~ xlift (chk32 (size s * times)) ;;
    (if n <? 0 then xlift (Throw StdLengthError)
     else b <~ s_new (repeat NUL (Z.to_nat n)) ;; r <~ xlift (times_loop s (Z.to_nat times) 0 (xchars b)) ;; s_new r).

(** Copies of several Strs. *)
Fixpoint s_copies {St} (l : list str) : xm St unit :=
  match l with
  | [] => xret tt
  | t :: l' => s_alloc (length t) ;~ s_copies l'
  end.
(** [l += x] on a [List<Str>], list.hpp:176-183: the move constructor of Str is not [noexcept], so that a vector that
    grows copies its elements. *)
Definition fs_push {St} (l : rvec str) (x : str) : xm St (rvec str) :=
  xlift (check_full (size (relems l)) INT_MAX) ;~
  if Nat.ltb (length (relems l)) (rroom l) then s_alloc (length x) ;~ xret (Rvec (relems l ++ [x]) (rroom l))
  else
    xevent ok ;~ s_alloc (length x) ;~ s_copies (relems l) ;~
    xret (Rvec (relems l ++ [x]) (grow (length (relems l)) 1)).
(** [l += str_.substr(...)]: the [std::string], the Str made of it, the element. *)
Definition fs_push_part {St} (l : rvec str) (x : str) : xm St (rvec str) :=
  s_alloc (length x) ;~ s_alloc (length x) ;~ fs_push l x.
(** str.hpp:670-682 *)
Fixpoint fs_split_loop {St} (s sep : str) (keep_empty : bool) (fuel : nat) (this_start : Z) (l : rvec str) : xm St (rvec str) :=
  match fuel with
  | O => xlift OutOfFuel
  | S f =>
      patt_start <~ xlift (str_find s sep this_start INT_MAX) ;;
      if patt_start =? -1 then
        if keep_empty || negb (this_start =? size s) then r <~ xlift (substr s this_start) ;; fs_push_part l r else xret l
      else
        l' <~ (if negb keep_empty && (patt_start =? this_start) then xret l
               else n <~ xlift (chk32 (patt_start - this_start)) ;; r <~ xlift (substr_n s this_start n) ;; fs_push_part l r) ;;
        next <~ xlift (chk32 (patt_start + size sep)) ;;
        fs_split_loop s sep keep_empty f next l'
  end.
(** str.hpp:662-685 *)
Definition fs_split {St} (s sep : str) (keep_empty : bool) : xm St (rvec str) :=
  if str_is_empty sep then xlift (Throw EmptySeparator)
  else fs_split_loop s sep keep_empty (S (length s)) 0 (Rvec [] 0).

(** str.hpp:701-704 *)
Fixpoint fs_join_loop {St} (sep : str) (l : list str) (n : nat) (i : Z) (buffer : xstr) : xm St xstr :=
  match n with
  | O => xret buffer
  | S n' =>
      x <~ xlift (list_at l i) ;; t <~ s_concat sep x ;; b <~ s_append buffer (xchars t) ;; fs_join_loop sep l n' (i + 1) b
  end.
(** str.hpp:693-706 *)
Definition fs_join {St} (sep : str) (l : list str) : xm St xstr :=
  if list_is_empty l then xret xempty
  else
    x <~ xlift (list_at l 0) ;; b <~ s_new x ;;
    b <~ fs_join_loop sep l (Z.to_nat (size l - 1)) 1 b ;; s_new (xchars b).

(** str.hpp:709-717; [args] are the texts the arguments are written as. The pieces are written one after the other, and the
    buffer takes one character at a time, so that the whole text can be put at once. *)
Definition fs_format {St} (s : str) (args : list str) : xm St xstr :=
  oss <~ s_put (str_format s args) s_stream ;; t <~ s_text oss ;; s_new (xchars t).

(** Computations on Int (IntMemModel) with the same numbers of events. *)
Definition xmem {St A} (m : am A) : xm St A := fun s k =>
  match m k with
  | (MRet a, k') => (XRet a, s, k')
  | (MFail FBadAlloc, k') => (XErr (XFail (pred k')), s, k')
  | (MFail (FThrow e), k') => (XErr (FailModel.XThrow e), s, k')
  | (MFail (FUB u), k') => (XErr (XUB u), s, k')
  | (MFail FFuel, k') => (XErr XFuel, s, k')
  end.
(** str.hpp:414-445 *)
Fixpoint fs_integer_loop {St} (p : policy) (base n : Z) (cs : str) (st : state) (non_negative : bool) (integer : MInt)
  : xm St (state * bool * MInt) :=
  match cs with
  | [] => xret (st, non_negative, integer)
  | c :: cs' =>
      ev <~ xlift (get_event c base) ;;
      match st, ev with
      | S_START, E_BLANK => fs_integer_loop p base n cs' S_START non_negative integer
      | S_START, E_SIGN => fs_integer_loop p base n cs' S_SIGN (Ascii.eqb c "+") integer
      | (S_START | S_SIGN | S_INT), E_DIGIT =>
          b <~ xmem (m_of_int grow ok base) ;; m <~ xmem (m_mul ok p integer b) ;;
          d <~ xlift (char_to_integer c base) ;; d <~ xmem (m_of_int grow ok d) ;; integer <~ xmem (m_add grow ok p m d) ;;
          fs_integer_loop p base n cs' S_INT non_negative integer
      | (S_INT | S_END), E_BLANK => fs_integer_loop p base n cs' S_END non_negative integer
      | _, _ => st <~ xlift (leave_loop n) ;; xret (st, non_negative, integer)
      end
  end.
(** str.hpp:401-452; [return non_negative ? integer : -integer;] copies. *)
Definition fs_to_integer {St} (p : policy) (s : str) (base : Z) : xm St MInt :=
  if (base <? 2) || (36 <? base) then xlift (Throw BadBase)
  else
    r <~ fs_integer_loop p base (size s) s S_START true mzero ;;
    let '(st, non_negative, integer) := r in
    match st with
    | S_INT | S_END => if non_negative then xmem (m_copy ok integer) else xmem (m_neg ok integer)
    | _ => xlift (Throw BadIntegerLiteral)
    end.

(** ** Programs: the statements of StrProgModel, each in its own [try]/[catch] *)

Record fxstore := FXStore { fstrs : xvar -> xstr; frows : xvar -> rvec str }.
Definition fset_str (s : fxstore) (u : xvar) (x : xstr) : fxstore :=
  FXStore (fun w => if Nat.eqb w u then x else fstrs s w) (frows s).
Definition fset_row (s : fxstore) (l : xvar) (r : rvec str) : fxstore :=
  FXStore (fstrs s) (fun w => if Nat.eqb w l then r else frows s w).
(** The store without the capacities. *)
Definition ftexts (s : fxstore) : xstore := XStore (fun v => xchars (fstrs s v)) (fun l => relems (frows s l)).

Definition fxresult := outcome (fxstore * nat * list (seen StrProgModel.xevent)).
Definition fxstop (s : fxstore) (k : nat) (f : xfault) : fxresult :=
  match f with
  | XFail n => Ok (s, k, [Failed n])
  | FailModel.XThrow e => Ok (s, k, [Saw (StrProgModel.XThrow e)])
  | XUB u => UB u
  | XFuel => OutOfFuel
  end.
(** A declaration of the Str [u] or of the list [l], an assignment to the Str [u], a call on the list [l], an expression. *)
Definition fxlet (s : fxstore) (u : xvar) (k : nat) (m : xm unit xstr) : fxresult :=
  match m tt k with
  | (XRet x, _, k') => Ok (fset_str s u x, k', [])
  | (XErr f, _, k') => fxstop s k' f
  end.
Definition fxon (s : fxstore) (u : xvar) (k : nat) (m : xm xstr unit) : fxresult :=
  match m (fstrs s u) k with
  | (XRet _, x, k') => Ok (fset_str s u x, k', [])
  | (XErr f, x, k') => fxstop (fset_str s u x) k' f
  end.
Definition fxrow (s : fxstore) (l : xvar) (k : nat) (m : xm unit (rvec str)) : fxresult :=
  match m tt k with
  | (XRet x, _, k') => Ok (fset_row s l x, k', [])
  | (XErr f, _, k') => fxstop s k' f
  end.
Definition fxemit {A} (s : fxstore) (k : nat) (m : xm unit A) (ev : A -> StrProgModel.xevent) : fxresult :=
  match m tt k with
  | (XRet a, _, k') => Ok (s, k', [Saw (ev a)])
  | (XErr f, _, k') => fxstop s k' f
  end.

Definition fxstep (p : const_policy) (q : policy) (c : xstmt) (s : fxstore) (k : nat) : fxresult :=
  let t v := xchars (fstrs s v) in
  let row l := relems (frows s l) in
  match c with
  | XInit u x => fxlet s u k (fs_of (str_of_chars x))
  | XInitStd u x => fxlet s u k (fs_of x)
  | XCopy u v => fxlet s u k (fs_of (t v))
  | XMove u v =>
      const_write p tt ;;; let r := s_move (fstrs s v) in Ok (fset_str (fset_str s v (snd r)) u (fst r), k, [])
  | XAssign u v =>
      const_write p tt ;;; (if Nat.eqb u v then Ok (s, k, []) else fxon s u k (s_assign (t v)))
  | XMoveAssign u v =>
      const_write p tt ;;;
      (if Nat.eqb u v then UB SelfRange
       else let r := s_move_assign (fstrs s u) (fstrs s v) in Ok (fset_str (fset_str s v (snd r)) u (fst r), k, []))
  | XPlusChar u v c => fxlet s u k (fs_plus (t v) [c])
  | XPlus u v w => fxlet s u k (fs_plus (t v) (t w))
  | XTimes u v n => fxlet s u k (fs_times (t v) n)
  | XShl u v n => fxlet s u k (fs_shl (t v) n)
  | XShr u v n => fxlet s u k (fs_shr (t v) n)
  | XReverse u v => fxlet s u k (fs_reverse (t v))
  | XLower u v => fxlet s u k (fs_lower (t v))
  | XUpper u v => fxlet s u k (fs_upper (t v))
  | XErase u v a b => fxlet s u k (fs_erase (t v) a b)
  | XReplace u v w x => fxlet s u k (fs_replace (t v) (t w) (t x))
  | XStrip u v ch => fxlet s u k (fs_strip (t v) ch)
  | XSlice u v a b st => fxlet s u k (fs_slice (t v) a b st)
  | XFormat u v args => fxlet s u k (fs_format (t v) (map (arg_text (ftexts s)) args))
  | XJoin u v l => fxlet s u k (fs_join (t v) (row l))
  | XRowAt u l i => fxlet s u k (x <~ xlift (list_at (row l) i) ;; s_new x)
  | XSplit l v w keep => fxrow s l k (fs_split (t v) (t w) keep)
  | XRowAppend l v => fxrow s l k (fs_push (frows s l) (t v))
  | XAt v i => fxemit s k (xlift (str_at (t v) i)) XChar
  | XSize v => fxemit s k (xret (size (t v))) XNum
  | XEmpty v => fxemit s k (xret (str_is_empty (t v))) XBool
  | XFind v w a b => fxemit s k (xlift (str_find (t v) (t w) a b)) XNum
  | XContains v w a b => fxemit s k (xlift (str_contains (t v) (t w) a b)) XBool
  | XCount v w => fxemit s k (xlift (str_count (t v) (t w))) XNum
  | XStarts v w => fxemit s k (xret (str_starts_with (t v) (t w))) XBool
  | XEnds v w => fxemit s k (xret (str_ends_with (t v) (t w))) XBool
  | XLess v w => fxemit s k (xret (match str_cmp (t v) (t w) with Lt => true | _ => false end)) XBool
  | XEqual v w => fxemit s k (xret (str_eqb (t v) (t w))) XBool
  | XInteger v base => fxemit s k (x <~ fs_to_integer q (t v) base ;; xret (int_print (forget x))) XText
  | XPrint v => fxemit s k (xret (str_print (t v))) XText
  | XEach v => Ok (s, k, map (fun c => Saw (XChar c)) (t v))
  | XEachBack v => Ok (s, k, map (fun c => Saw (XChar c)) (rev (t v)))
  | XRowSize l => fxemit s k (xret (size (row l))) XNum
  | XRowPrint l => fxemit s k (xret (list_print str_print (row l))) XText
  end.

Fixpoint fxrun (p : const_policy) (q : policy) (prog : list xstmt) (s : fxstore) (k : nat) : fxresult :=
  match prog with
  | [] => Ok (s, k, [])
  | c :: rest =>
      r <- fxstep p q c s k ;; let '(s1, k1, ev1) := r in
      r' <- fxrun p q rest s1 k1 ;; let '(s2, k2, ev2) := r' in Ok (s2, k2, ev1 ++ ev2)
  end.
End StrFail.
