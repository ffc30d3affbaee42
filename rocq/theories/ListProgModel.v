(** Programs over List variables, run on the model of the code. *)
From Coq Require Import ZArith List Bool Ascii.
From Verif Require Import Outcome ListModel.
Import ListNotations.
Open Scope Z_scope.

Definition lvar := nat.

(** One statement of a client program; every statement is run inside its own
    [try]/[catch], so a program goes on after an exception. *)
Inductive lstmt (T : Type) :=
| LInit (v : lvar) (xs : list T)          (* v = {x, ...};                list.hpp:35-41 *)
| LCopy (v w : lvar)                      (* v = w; *)
| LMove (v w : lvar)                      (* v = std::move(w); *)
| LSet (v : lvar) (i : Z) (x : T)         (* v[i] = x;                    list.hpp:90 *)
| LGet (v : lvar) (i : Z)                 (* emit(v[i]); *)
| LInsert (v : lvar) (i : Z) (x : T)      (* v.insert(i, x);              list.hpp:152 *)
| LInsertElem (v : lvar) (i k : Z)        (* v.insert(i, v[k]); *)
| LRemove (v : lvar) (i : Z)              (* emit(v.remove(i));           list.hpp:163 *)
| LAppend (v : lvar) (x : T)              (* v += x;                      list.hpp:176 *)
| LAppendList (v w : lvar)                (* v += w;                      list.hpp:186 *)
| LSub (v : lvar) (x : T)                 (* v -= x;                      list.hpp:196 *)
| LTimes (v : lvar) (n : Z)               (* v *= n;                      list.hpp:207 *)
| LDiv (v : lvar) (x : T)                 (* v /= x;                      list.hpp:213 *)
| LShr (v : lvar) (n : Z)                 (* v >>= n;                     list.hpp:221 *)
| LShl (v : lvar) (n : Z)                 (* v <<= n;                     list.hpp:237 *)
| LReverse (v : lvar)                     (* v.reverse();                 list.hpp:257 *)
| LUniquify (v : lvar)                    (* v.uniquify();                list.hpp:266 *)
| LSort (v : lvar)                        (* v.sort(lt);                  list.hpp:283 *)
| LErase (v : lvar) (a b : Z)             (* v.erase(a, b);               list.hpp:292 *)
| LMap (v : lvar) (g : T -> T)            (* v.map(x = g(x));             list.hpp:304 *)
| LFilter (v : lvar) (p : T -> bool)      (* v.filter(p);                 list.hpp:313 *)
| LExtend (v w : lvar)                    (* if (w.size() <= INT_MAX - v.size()) v.extend(w);  list.hpp:323 *)
| LClear (v : lvar)                       (* v.clear();                   list.hpp:329 *)
| LSlice (u v : lvar) (a b s : Z)         (* u = v.slice(a, b, s);        list.hpp:340 *)
| LPlus (u v w : lvar)                    (* u = v + w;                   list.hpp:371 *)
| LPlusElem (u v : lvar) (x : T)          (* u = v + x;                   list.hpp:365 *)
| LMinus (u v : lvar) (x : T)             (* u = v - x;                   list.hpp:377 *)
| LOver (u v : lvar) (x : T)              (* u = v / x;                   list.hpp:402 *)
| LMult (u v : lvar) (n : Z)              (* u = v * n;                   list.hpp:383 *)
| LIndex (v : lvar) (x : T) (a b : Z)     (* emit(v.index(x, a, b));      list.hpp:127 *)
| LContains (v : lvar) (x : T) (a b : Z)  (* emit(v.contains(x, a, b));   list.hpp:135 *)
| LCount (v : lvar) (x : T)               (* emit(v.count(x));            list.hpp:141 *)
| LSize (v : lvar)                        (* emit(v.size());              list.hpp:109 *)
| LIsEmpty (v : lvar)                     (* emit(v.is_empty());          list.hpp:115 *)
| LEqual (v w : lvar)                     (* emit(v == w);                list.hpp:54 *)
| LPrint (v : lvar).                      (* std::cout << v;              list.hpp:412 *)
Arguments LInit {T}. Arguments LCopy {T}. Arguments LMove {T}. Arguments LSet {T}. Arguments LGet {T}.
Arguments LInsert {T}. Arguments LInsertElem {T}. Arguments LRemove {T}. Arguments LAppend {T}. Arguments LAppendList {T}.
Arguments LSub {T}. Arguments LTimes {T}. Arguments LDiv {T}. Arguments LShr {T}. Arguments LShl {T}. Arguments LReverse {T}.
Arguments LUniquify {T}. Arguments LSort {T}. Arguments LErase {T}. Arguments LMap {T}. Arguments LFilter {T}.
Arguments LExtend {T}. Arguments LClear {T}. Arguments LSlice {T}. Arguments LPlus {T}. Arguments LIndex {T}. Arguments LCount {T}.
Arguments LPlusElem {T}. Arguments LMinus {T}. Arguments LOver {T}. Arguments LMult {T}. Arguments LContains {T}. Arguments LIsEmpty {T}.
Arguments LSize {T}. Arguments LEqual {T}. Arguments LPrint {T}.

(** What a client observes. *)
Inductive levent (T : Type) :=
| LThrow (e : exn) | LElem (x : T) | LBool (b : bool) | LNum (z : Z) | LText (s : list ascii).
Arguments LThrow {T}. Arguments LElem {T}. Arguments LBool {T}. Arguments LNum {T}. Arguments LText {T}.

Definition lstore T := lvar -> list T.
Definition lset {T} (s : lstore T) (v : lvar) (x : list T) : lstore T := fun w => if Nat.eqb w v then x else s w.

Section Run.
(** Element type with its [==], [<], [<<] and value-initialised object. *)
Context {T : Type} (eqb lt : T -> T -> bool) (show : T -> list ascii) (d : T).

(** A member call on variable [v]; [out] is what the client emits for the returned value. *)
Definition call {A} (s : lstore T) (v : lvar) (m : M (list T) A) (out : A -> list (levent T)) : outcome (lstore T * list (levent T)) :=
  match m (s v) with
  | (Ok a, v') => Ok (lset s v v', out a)
  | (Throw e, v') => Ok (lset s v v', [LThrow e])
  | (UB u, _) => UB u
  | (OutOfFuel, _) => OutOfFuel
  end.
Definition silent (_ : unit) : list (levent T) := [].

(** An expression whose value is assigned to [v]. *)
Definition lassign (s : lstore T) (v : lvar) (o : outcome (list T)) : outcome (lstore T * list (levent T)) :=
  match o with
  | Ok r => Ok (lset s v r, [])
  | Throw e => Ok (s, [LThrow e])
  | UB u => UB u
  | OutOfFuel => OutOfFuel
  end.

(** An expression whose value is emitted. *)
Definition lemit {A} (s : lstore T) (o : outcome A) (ev : A -> levent T) : outcome (lstore T * list (levent T)) :=
  match o with
  | Ok r => Ok (s, [ev r])
  | Throw e => Ok (s, [LThrow e])
  | UB u => UB u
  | OutOfFuel => OutOfFuel
  end.

Definition lstep (c : lstmt T) (s : lstore T) : outcome (lstore T * list (levent T)) :=
  match c with
  | LInit v xs => Ok (lset s v xs, [])
  | LCopy v w => Ok (lset s v (s w), [])
  | LMove v w => if Nat.eqb v w then UB SelfRange else Ok (lset (lset s v (s w)) w [], [])
  | LSet v i x => call s v (list_set i x) silent
  | LGet v i => lemit s (list_at (s v) i) LElem
  | LInsert v i x => call s v (list_insert i x) silent
  | LInsertElem v i k =>
      call s v (fun l => match list_at l k with
                         | Ok x => list_insert i x l
                         | Throw e => (Throw e, l)
                         | UB u => (UB u, l)
                         | OutOfFuel => (OutOfFuel, l)
                         end) silent
  | LRemove v i => call s v (list_remove i) (fun x => [LElem x])
  | LAppend v x => call s v (list_append x) silent
  | LAppendList v w => call s v (list_append_list (s w) (Nat.eqb v w)) silent
  | LSub v x => call s v (list_subtract eqb x) silent
  | LTimes v n => call s v (list_times_assign d n) silent
  | LDiv v x => call s v (list_divide eqb (Val x)) silent
  | LShr v n => call s v (list_shr n) silent
  | LShl v n => call s v (list_shl n) silent
  | LReverse v => call s v list_reverse silent
  | LUniquify v => call s v (list_uniquify eqb) silent
  | LSort v => call s v (list_sort lt) silent
  | LErase v a b => call s v (list_erase a b) silent
  | LMap v g => call s v (list_map (fun _ x => (tt, g x)) tt) silent
  | LFilter v p => call s v (list_filter false p) silent
  | LExtend v w =>
      if size (s w) <=? INT_MAX - size (s v) then
        (if Nat.eqb v w then UB SelfRange else call s v (list_extend (s w)) silent)
      else Ok (s, [])
  | LClear v => call s v list_clear silent
  | LSlice u v a b st => lassign s u (list_slice (s v) a b st)
  | LPlus u v w => lassign s u (list_plus_list (s v) (s w))
  | LPlusElem u v x => lassign s u (list_plus (s v) x)
  | LMinus u v x => lassign s u (list_minus eqb (s v) x)
  | LOver u v x => lassign s u (list_over eqb (s v) x)
  | LMult u v n => lassign s u (list_times d (s v) n)
  | LIndex v x a b => lemit s (list_index eqb (s v) x a b) LNum
  | LContains v x a b => lemit s (list_contains eqb (s v) x a b) LBool
  | LCount v x => lemit s (Ok (list_count eqb (s v) x)) LNum
  | LSize v => lemit s (Ok (size (s v))) LNum
  | LIsEmpty v => lemit s (Ok (list_is_empty (s v))) LBool
  | LEqual v w => lemit s (Ok (list_eqb eqb (s v) (s w))) LBool
  | LPrint v => lemit s (Ok (list_print show (s v))) LText
  end.

Fixpoint lrun (prog : list (lstmt T)) (s : lstore T) : outcome (lstore T * list (levent T)) :=
  match prog with
  | [] => Ok (s, [])
  | c :: rest =>
      se <- lstep c s ;; se' <- lrun rest (fst se) ;; Ok (fst se', snd se ++ snd se')
  end.
End Run.
