(** Iterators over Lists, sources/list.hpp:60-82, 121-124 and 37-41. Definitions only.

    An iterator is the address of an element or the end of a vector. Every member of [std::vector] that inserts, erases,
    assigns or moves makes the earlier end of that vector unusable, also when the number of elements stays the same; this is
    expressed by a number that counts these events. A reverse iterator is the iterator [base()], and [*r] is the element in
    front of it, so [rbegin()] is the end and [rend()] the begin. *)
From Coq Require Import ZArith List Bool Ascii.
From Verif Require Import Outcome ListModel ListProgModel ListRefModel.
Import ListNotations.
Open Scope Z_scope.

Record jstate (T : Type) := JState {
  jh : vstate T;                       (* List variables; the pointer variables are the iterators at elements *)
  jo : nat -> nat;                     (* the List that an element belongs to *)
  jg : nat -> nat;                     (* how often the end of a List has changed *)
  je : nat -> option (nat * nat)       (* the iterators at an end: the List, and which of its ends *)
}.
Arguments JState {T}. Arguments jh {T}. Arguments jo {T}. Arguments jg {T}. Arguments je {T}.

Inductive jstmt (T : Type) :=
| JDo (c : lstmt T)                   (* a statement of ListProgModel.v *)
| JBegin (i v : nat)                  (* i = v.begin(); *)
| JEnd (i v : nat)                    (* i = v.end(); *)
| JFind (i v : nat) (x : T)           (* i = v.find(x); *)
| JCopy (i j : nat)                   (* i = j; *)
| JAdd (i : nat) (k : Z)              (* i += k; *)
| JRead (i : nat)                     (* emit( *i); *)
| JBack (i : nat)                     (* emit( *std::make_reverse_iterator(i)); *)
| JDiff (i j : nat)                   (* emit(i - j); *)
| JRange (v i j : nat)                (* v = List(i, j); *)
| JRevRange (v i j : nat)             (* v = List(std::make_reverse_iterator(i), std::make_reverse_iterator(j)); *)
| JAppend (v i : nat)                 (* v += *i; *)
| JRemove (v i : nat).                (* emit(v.remove(i - v.begin())); *)
Arguments JDo {T}. Arguments JBegin {T}. Arguments JEnd {T}. Arguments JFind {T}. Arguments JCopy {T}. Arguments JAdd {T}. Arguments JRead {T}.
Arguments JBack {T}. Arguments JDiff {T}. Arguments JRange {T}. Arguments JRevRange {T}. Arguments JAppend {T}. Arguments JRemove {T}.

Section Iters.
Context {T : Type} (eqb lt : T -> T -> bool) (show : T -> list ascii) (d : T) (grow : Z -> Z -> Z).
Notation state := (jstate T).
Notation result := (outcome (state * list (levent T))).

(** The variable in which a vector member makes objects. *)
Definition made_in (o : vop) : nat :=
  match o with ONone => 0%nat | OAssign v | OInsert v _ _ | OErase v _ | OReplace v | OCopy v | OMove v _ => v end.
(** A move hands the objects over. *)
Definition lowners (o : vop) (h : vstate T) (own : nat -> nat) : nat -> nat := fun a =>
  if Nat.leb (vn h) a then made_in o
  else match o with
       | OMove v w => if among (va h w) a then v else own a
       | _ => own a
       end.
(** The ends that change. *)
Definition lends (o : vop) (g : nat -> nat) : nat -> nat :=
  match o with
  | ONone | OAssign _ => g
  | OInsert v _ _ | OErase v _ | OReplace v | OCopy v => vset g v (S (g v))
  | OMove v w => fun u => if Nat.eqb u v || Nat.eqb u w then S (g u) else g u
  end.

(** The statements without iterators. *)
Definition j_do (c : lstmt T) (s : state) : result :=
  match lstep eqb lt show d c (lview (jh s)) with
  | Ok (s', ev) =>
      let o := if threw ev then ONone else vop_of eqb c (lview (jh s)) s' in
      Ok (JState (apply grow o s' (jh s)) (lowners o (jh s) (jo s)) (lends o (jg s)) (je s), ev)
  | Throw e => Throw e
  | UB u => UB u
  | OutOfFuel => OutOfFuel
  end.

(** Where an iterator is: the List and the position; it can be used if its element lives or if it is the present end. *)
Definition j_at (s : state) (i : nat) : outcome (nat * nat) :=
  match je s i with
  | Some (v, n) => if Nat.eqb n (jg s v) then Ok (v, length (va (jh s) v)) else UB BadDeref
  | None =>
      match vr (jh s) i with
      | Some a =>
          if vl (jh s) a
          then match find_address a (va (jh s) (jo s a)) with Some p => Ok (jo s a, p) | None => UB BadDeref end
          else UB BadDeref
      | None => UB BadDeref
      end
  end.
(** The iterator to position [p] of [v]. *)
Definition j_put (i v p : nat) (s : state) : state :=
  match nth_error (va (jh s) v) p with
  | Some a => JState (v_bind i (Some a) (jh s)) (jo s) (jg s) (vset (je s) i None)
  | None => JState (v_bind i None (jh s)) (jo s) (jg s) (vset (je s) i (Some (v, jg s v)))
  end.
(** The element at a position. *)
Definition j_elem (s : state) (v p : nat) : outcome T :=
  match nth_error (lview (jh s) v) p with Some x => Ok x | None => UB BadDeref end.

(** [begin] list.hpp:61-64, [end] 67-70, [rbegin] 73-76, [rend] 79-82, [find] 121-124, the constructor from a range 37-41,
    [+=] 176-183, [remove] 163-173; the rest is std::vector::const_iterator. Using an iterator that was never set or is no longer valid,
    leaving the range, dereferencing the end, and relating iterators of different vectors are undefined. *)
Definition j_step (c : jstmt T) (s : state) : result :=
  match c with
  | JDo c => j_do c s
  | JBegin i v => Ok (j_put i v 0 s, [])
  | JEnd i v => Ok (j_put i v (length (va (jh s) v)) s, [])
  | JFind i v x => Ok (j_put i v (std_find eqb (lview (jh s) v) x) s, [])
  | JCopy i j => t <- j_at s j ;; Ok (j_put i (fst t) (snd t) s, [])
  | JAdd i k =>
      t <- j_at s i ;;
      let q := Z.of_nat (snd t) + k in
      if (0 <=? q) && (q <=? len (va (jh s) (fst t))) then Ok (j_put i (fst t) (Z.to_nat q) s, []) else UB OutOfBounds
  | JRead i => t <- j_at s i ;; x <- j_elem s (fst t) (snd t) ;; Ok (s, [LElem x])
  | JBack i =>
      t <- j_at s i ;;
      match snd t with
      | O => UB OutOfBounds
      | S p => x <- j_elem s (fst t) p ;; Ok (s, [LElem x])
      end
  | JDiff i j =>
      t <- j_at s i ;;
      u <- j_at s j ;;
      if Nat.eqb (fst t) (fst u) then Ok (s, [LNum (Z.of_nat (snd t) - Z.of_nat (snd u))]) else UB BadDeref
  | JRange v i j =>
      t <- j_at s i ;;
      u <- j_at s j ;;
      if Nat.eqb (fst t) (fst u) && Nat.leb (snd t) (snd u)
      then j_do (LInit v (firstn (snd u - snd t) (skipn (snd t) (lview (jh s) (fst t))))) s
      else UB BadDeref
  | JRevRange v i j =>
      t <- j_at s i ;;
      u <- j_at s j ;;
      if Nat.eqb (fst t) (fst u) && Nat.leb (snd u) (snd t)
      then j_do (LInit v (rev (firstn (snd t - snd u) (skipn (snd u) (lview (jh s) (fst t)))))) s
      else UB BadDeref
  | JAppend v i => t <- j_at s i ;; x <- j_elem s (fst t) (snd t) ;; j_do (LAppend v x) s
  | JRemove v i =>
      t <- j_at s i ;;
      if Nat.eqb (fst t) v then j_do (LRemove v (Z.of_nat (snd t))) s else UB BadDeref
  end.

(** A program: the first undefined statement ends it. *)
Fixpoint j_run (prog : list (jstmt T)) (s : state) : result :=
  match prog with
  | [] => Ok (s, [])
  | c :: rest => se <- j_step c s ;; se' <- j_run rest (fst se) ;; Ok (fst se', snd se ++ snd se')
  end.

(** for (; i != e; ++i) { body } *)
Fixpoint j_loop (fuel : nat) (i e : nat) (body : list (jstmt T)) (s : state) : result :=
  match fuel with
  | O => OutOfFuel
  | S f =>
      t <- j_at s i ;;
      u <- j_at s e ;;
      if Nat.eqb (fst t) (fst u)
      then if Nat.eqb (snd t) (snd u) then Ok (s, [])
           else se <- j_run (body ++ [JAdd i 1]) s ;; se' <- j_loop f i e body (fst se) ;; Ok (fst se', snd se ++ snd se')
      else UB BadDeref
  end.
(** for (const auto& x : v) { body }, where [x] is [*i] and [e] is the end taken before the loop. *)
Definition range_for (fuel : nat) (i e v : nat) (body : list (jstmt T)) (s : state) : result :=
  se <- j_run [JBegin i v; JEnd e v] s ;; j_loop fuel i e body (fst se).

(** for (r = v.rbegin(); r != v.rend(); ++r) { body }, where [i] is [r.base()] and [e] the base of the rend() taken before the loop. *)
Fixpoint j_loop_back (fuel : nat) (i e : nat) (body : list (jstmt T)) (s : state) : result :=
  match fuel with
  | O => OutOfFuel
  | S f =>
      t <- j_at s i ;;
      u <- j_at s e ;;
      if Nat.eqb (fst t) (fst u)
      then if Nat.eqb (snd t) (snd u) then Ok (s, [])
           else se <- j_run (body ++ [JAdd i (-1)]) s ;; se' <- j_loop_back f i e body (fst se) ;; Ok (fst se', snd se ++ snd se')
      else UB BadDeref
  end.
Definition range_back (fuel : nat) (i e v : nat) (body : list (jstmt T)) (s : state) : result :=
  se <- j_run [JEnd i v; JBegin e v] s ;; j_loop_back fuel i e body (fst se).
End Iters.
