(** sources/list.hpp when allocations and copies of elements may throw (see FailModel): which events each member
    causes, and what a member that fails leaves behind. The values are those of ListModel. *)
From Coq Require Import ZArith List Bool Ascii.
From Verif Require Import Outcome ListModel ListProgModel FailModel.
Import ListNotations.
Open Scope Z_scope.

Section ListFail.
Context {T : Type}.
Variables (ok : nat -> bool) (grow : nat -> nat -> nat) (nothrow : bool) (moved : T -> T).
Variables (eqb lt : T -> T -> bool) (show : T -> list ascii) (d : T).

Notation vm := (xm (rvec T)).
Notation push := (vpush ok grow nothrow).

(** list.hpp:31-47, and the implicit copy constructor *)
Definition fl_new {St} (l : list T) : xm St (rvec T) := vnew ok l.
(** The implicit copy assignment, from another List *)
Definition fl_assign (l : list T) : vm unit := vassign ok l.

(** [list[i] = x]; list.hpp:90-95, then one copy assignment *)
Definition fl_set (i : Z) (x : T) : vm unit :=
  v <~ xget ;; let l := relems v in
  lo <~ xlift (chk32 (- size l)) ;; xlift (check_bounds i lo (size l)) ;~ k <~ xlift (from_end l i) ;;
  xlift (vat l k) ;~ xevent ok ;~ vcalm (update (fun l => vput l k x)).

(** list.hpp:152-159 *)
Definition fl_insert (i : Z) (x : T) : vm unit :=
  v <~ xget ;; let l := relems v in
  xlift (check_full (size l) INT_MAX) ;~ lo <~ xlift (chk32 (- size l)) ;; hi <~ xlift (chk32 (size l + 1)) ;;
  xlift (check_bounds i lo hi) ;~ k <~ xlift (from_end l i) ;;
  (if (k <? 0) || (len l <? k) then xlift (UB InvalidRange) else vinsert1 ok grow nothrow (Z.to_nat k) x).
(** [list.insert(i, list[k])] *)
Definition fl_insert_elem (i k : Z) : vm unit :=
  v <~ xget ;; x <~ xlift (list_at (relems v) k) ;; fl_insert i x.

(** list.hpp:163-173: the element is moved out, the others are moved down. *)
Definition fl_remove (i : Z) : vm T := vcalm (list_remove i).
(** list.hpp:176-183 *)
Definition fl_append (x : T) : vm unit :=
  v <~ xget ;; xlift (check_full (size (relems v)) INT_MAX) ;~ push x.
(** list.hpp:186-193 *)
Definition fl_append_list (w : list T) (self : bool) : vm unit :=
  v <~ xget ;;
  xlift (check_full (Z.quot (size (relems v)) 2 + Z.quot (size w) 2) (Z.quot INT_MAX 2)) ;~
  (if self then xlift (UB SelfRange) else vappend ok grow nothrow moved w).
(** list.hpp:196-204 *)
Definition fl_subtract (x : T) : vm unit := vcalm (list_subtract eqb x).
(** list.hpp:213-218 *)
Definition fl_divide (x : T) : vm unit := vcalm (list_divide eqb (Val x)).
(** list.hpp:221-262: [std::rotate] and [std::reverse] swap. *)
Definition fl_shr (n : Z) : vm unit := vcalm (list_shr n).
Definition fl_shl (n : Z) : vm unit := vcalm (list_shl n).
Definition fl_reverse : vm unit := vcalm list_reverse.
(** list.hpp:283-289: [std::stable_sort] asks for a buffer without throwing, sorts in place if there is none, and only moves. *)
Definition fl_sort : vm unit := vcalm (list_sort lt).
(** list.hpp:292-300 *)
Definition fl_erase (a b : Z) : vm unit := vcalm (list_erase a b).
(** list.hpp:304-309, for an action that does not throw *)
Definition fl_map (g : T -> T) : vm unit := vcalm (list_map (fun _ x => (tt, g x)) tt).
(** list.hpp:329-332 *)
Definition fl_clear : vm unit := vcalm list_clear.

(** list.hpp:313-319: [std::copy_if] copy-assigns each kept element to the place of the next one kept. *)
Fixpoint fl_filter_loop (p : T -> bool) (n : nat) (first result : Z) : vm Z :=
  match n with
  | O => xret result
  | S n' =>
      v <~ xget ;; y <~ xlift (vat (relems v) first) ;;
      if p y then xevent ok ;~ vcalm (update (fun l => vput l result y)) ;~ fl_filter_loop p n' (first + 1) (result + 1)
      else fl_filter_loop p n' (first + 1) result
  end.
Definition fl_filter (p : T -> bool) : vm unit :=
  v <~ xget ;; result <~ fl_filter_loop p (length (relems v)) 0 0 ;;
  vcalm (update (fun l => verase l result (len l))).

(** list.hpp:323-326. The range is not part of the list and its iterators are at least forward iterators. *)
Definition fl_extend (w : list T) : vm unit := vappend ok grow nothrow moved w.

(** list.hpp:266-279 *)
Fixpoint fl_uniq_loop (l : list T) : vm unit :=
  match l with
  | [] => xret tt
  | x :: l' =>
      b <~ xget ;;
      (if Nat.eqb (std_find eqb (relems b) x) (length (relems b)) then push x else xret tt) ;~ fl_uniq_loop l'
  end.
Definition fl_uniquify : vm unit :=
  v <~ xget ;; b <~ xlocal (Rvec [] 0) (fl_uniq_loop (relems v)) ;; xput (snd b).

(** list.hpp:383-399: the buffer is value-initialised, then each part is copy-assigned, then the buffer is copied into
    the List that is returned. *)
Fixpoint fl_times_loop {St} (l : list T) (n : nat) (part : Z) (buffer : list T) : xm St (list T) :=
  match n with
  | O => xret buffer
  | S n' =>
      o <~ xlift (chk32 (size l * part)) ;; b <~ xlift (std_copy l buffer o) ;;
      xevents ok (length l) ;~ fl_times_loop l n' (part + 1) b
  end.
Definition fl_times {St} (l : list T) (times : Z) : xm St (rvec T) :=
  if times <? 0 then xlift (Throw NegativeTimes)
  else
    n <~ xlift (chk32 (size l * times)) ;; xlift (check_full n INT_MAX) ;~
    (if n <? 0 then xlift (Throw StdLengthError)
     else b <~ vnew ok (repeat d (Z.to_nat n)) ;; b' <~ fl_times_loop l (Z.to_nat times) 0 (relems b) ;; fl_new b').
(** list.hpp:207-210 *)
Definition fl_times_assign (times : Z) : vm unit := v <~ xget ;; r <~ fl_times (relems v) times ;; xput r.

(** list.hpp:340-362: the buffer grows by push_back and is copied into the List that is returned. *)
Fixpoint fl_slice_loop (l : list T) (stop step : Z) (fuel : nat) (i : Z) : vm unit :=
  match fuel with
  | O => xlift OutOfFuel
  | S f =>
      if (if 0 <? step then i <? stop else stop <? i) then
        x <~ xlift (vat l i) ;; push x ;~ i' <~ xlift (chk32 (i + step)) ;; fl_slice_loop l stop step f i'
      else xret tt
  end.
Definition fl_slice {St} (l : list T) (start stop step : Z) : xm St (rvec T) :=
  if step =? 0 then xlift (Throw SliceStepZero)
  else
    lo <~ xlift (chk32 (- size l)) ;; xlift (check_bounds start lo (size l)) ;~
    lo' <~ xlift (chk32 (lo - 1)) ;; hi' <~ xlift (chk32 (size l + 1)) ;; xlift (check_bounds stop lo' hi') ;~
    start <~ xlift (if start <? 0 then chk32 (start + size l) else Ok start) ;;
    stop <~ xlift (if stop <? 0 then chk32 (stop + size l) else Ok stop) ;;
    b <~ xlocal (Rvec [] 0) (fl_slice_loop l stop step (S (length l)) start) ;; fl_new (relems (snd b)).

(** list.hpp:365-380, 402-405: [return List( *this) op= x] copies the list, and copies the result. *)
Definition fl_on_copy {St} (l : list T) (m : vm unit) : xm St (rvec T) :=
  c <~ fl_new l ;; c' <~ xlocal c m ;; fl_new (relems (snd c')).
Definition fl_plus {St} (l : list T) (x : T) : xm St (rvec T) := fl_on_copy l (fl_append x).
Definition fl_plus_list {St} (l w : list T) : xm St (rvec T) := fl_on_copy l (fl_append_list w false).
Definition fl_minus {St} (l : list T) (x : T) : xm St (rvec T) := fl_on_copy l (fl_subtract x).
Definition fl_over {St} (l : list T) (x : T) : xm St (rvec T) := fl_on_copy l (fl_divide x).

(** ** Programs: the statements of ListProgModel, each in its own [try]/[catch] *)

(** What the client sees: an event of ListProgModel, or that event number [n] of the run failed. *)
Inductive flevent := FSaw (e : levent T) | FFailed (n : nat).

Definition flstore := lvar -> rvec T.
Definition flset (s : flstore) (v : lvar) (x : rvec T) : flstore := fun w => if Nat.eqb w v then x else s w.
Definition flresult := outcome (flstore * nat * list flevent).

Definition flend (s : flstore) (k : nat) (f : xfault) : flresult :=
  match f with
  | XFail n => Ok (s, k, [FFailed n])
  | XThrow e => Ok (s, k, [FSaw (LThrow e)])
  | XUB u => UB u
  | XFuel => OutOfFuel
  end.
(** A member call on variable [v], an assignment of a new List to [u] (by moving), an emitted value. *)
Definition flcall {A} (s : flstore) (v : lvar) (k : nat) (m : vm A) (out : A -> list (levent T)) : flresult :=
  match m (s v) k with
  | (XRet a, x, k') => Ok (flset s v x, k', map FSaw (out a))
  | (XErr f, x, k') => flend (flset s v x) k' f
  end.
Definition flassign (s : flstore) (u : lvar) (k : nat) (m : xm unit (rvec T)) : flresult :=
  match m tt k with
  | (XRet x, _, k') => Ok (flset s u x, k', [])
  | (XErr f, _, k') => flend s k' f
  end.
Definition flemit {A} (s : flstore) (k : nat) (o : outcome A) (ev : A -> levent T) : flresult :=
  match o with
  | Ok a => Ok (s, k, [FSaw (ev a)])
  | Throw e => Ok (s, k, [FSaw (LThrow e)])
  | UB u => UB u
  | OutOfFuel => OutOfFuel
  end.

Definition flstep (c : lstmt T) (s : flstore) (k : nat) : flresult :=
  let at_ v := relems (s v) in
  match c with
  | LInit v xs => flassign s v k (fl_new xs)
  | LCopy v w => if Nat.eqb v w then Ok (s, k, []) else flcall s v k (fl_assign (at_ w)) silent
  | LMove v w => if Nat.eqb v w then UB SelfRange else Ok (flset (flset s v (s w)) w (Rvec [] 0), k, [])
  | LSet v i x => flcall s v k (fl_set i x) silent
  | LGet v i => flemit s k (list_at (at_ v) i) LElem
  | LInsert v i x => flcall s v k (fl_insert i x) silent
  | LInsertElem v i j => flcall s v k (fl_insert_elem i j) silent
  | LRemove v i => flcall s v k (fl_remove i) (fun x => [LElem x])
  | LAppend v x => flcall s v k (fl_append x) silent
  | LAppendList v w => flcall s v k (fl_append_list (at_ w) (Nat.eqb v w)) silent
  | LSub v x => flcall s v k (fl_subtract x) silent
  | LTimes v n => flcall s v k (fl_times_assign n) silent
  | LDiv v x => flcall s v k (fl_divide x) silent
  | LShr v n => flcall s v k (fl_shr n) silent
  | LShl v n => flcall s v k (fl_shl n) silent
  | LReverse v => flcall s v k fl_reverse silent
  | LUniquify v => flcall s v k fl_uniquify silent
  | LSort v => flcall s v k fl_sort silent
  | LErase v a b => flcall s v k (fl_erase a b) silent
  | LMap v g => flcall s v k (fl_map g) silent
  | LFilter v p => flcall s v k (fl_filter p) silent
  | LExtend v w =>
      if size (at_ w) <=? INT_MAX - size (at_ v) then
        (if Nat.eqb v w then UB SelfRange else flcall s v k (fl_extend (at_ w)) silent)
      else Ok (s, k, [])
  | LClear v => flcall s v k fl_clear silent
  | LSlice u v a b st => flassign s u k (fl_slice (at_ v) a b st)
  | LPlus u v w => flassign s u k (fl_plus_list (at_ v) (at_ w))
  | LPlusElem u v x => flassign s u k (fl_plus (at_ v) x)
  | LMinus u v x => flassign s u k (fl_minus (at_ v) x)
  | LOver u v x => flassign s u k (fl_over (at_ v) x)
  | LMult u v n => flassign s u k (fl_times (at_ v) n)
  | LIndex v x a b => flemit s k (list_index eqb (at_ v) x a b) LNum
  | LContains v x a b => flemit s k (list_contains eqb (at_ v) x a b) LBool
  | LCount v x => flemit s k (Ok (list_count eqb (at_ v) x)) LNum
  | LSize v => flemit s k (Ok (size (at_ v))) LNum
  | LIsEmpty v => flemit s k (Ok (list_is_empty (at_ v))) LBool
  | LEqual v w => flemit s k (Ok (list_eqb eqb (at_ v) (at_ w))) LBool
  | LPrint v => flemit s k (Ok (list_print show (at_ v))) LText
  end.

Fixpoint flrun (prog : list (lstmt T)) (s : flstore) (k : nat) : flresult :=
  match prog with
  | [] => Ok (s, k, [])
  | c :: rest =>
      r <- flstep c s k ;; let '(s1, k1, ev1) := r in
      r' <- flrun rest s1 k1 ;; let '(s2, k2, ev2) := r' in Ok (s2, k2, ev1 ++ ev2)
  end.
End ListFail.
