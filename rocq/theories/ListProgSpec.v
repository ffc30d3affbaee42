(** The same programs run on abstract sequences. A statement whose behaviour the code leaves
    undefined has no entry. *)
From Coq Require Import ZArith List Bool Ascii.
From Verif Require Import Outcome ListProgModel ListSpec.
Import ListNotations.
Open Scope Z_scope.

Section Spec.
Context {T : Type} (eqb lt : T -> T -> bool) (show : T -> list ascii).

Notation num l := (Z.of_nat (length l)).
Definition within (lo i hi : Z) : Prop := lo <= i <= hi.

(** Effect of a mutator on the sequence it is called on: the new sequence and the events. *)
Inductive mut : lstmt T -> list T -> list T -> list (levent T) -> Prop :=
| m_set : forall v i x l k a y b, position (num l) i = Some k -> cut l a (y :: b) (Z.of_nat k) -> mut (LSet v i x) l (a ++ x :: b) []
| m_set_bad : forall v i x l, position (num l) i = None -> mut (LSet v i x) l l [LThrow IndexOutOfRange]
| m_insert : forall v i x l a b, num l < INT_MAX -> within (- num l) i (num l) -> cut l a b (from_back (num l) i) ->
    mut (LInsert v i x) l (a ++ x :: b) []
| m_insert_bad : forall v i x l, num l < INT_MAX -> ~ within (- num l) i (num l) -> mut (LInsert v i x) l l [LThrow IndexOutOfRange]
| m_insert_full : forall v i x l, num l = INT_MAX -> mut (LInsert v i x) l l [LThrow ContainerFull]
| m_insert_elem : forall v i k l p x l' ev, position (num l) k = Some p -> nth_error l p = Some x ->
    mut (LInsert v i x) l l' ev -> mut (LInsertElem v i k) l l' ev
| m_insert_elem_bad : forall v i k l, position (num l) k = None -> mut (LInsertElem v i k) l l [LThrow IndexOutOfRange]
| m_remove : forall v i l k a x b, position (num l) i = Some k -> cut l a (x :: b) (Z.of_nat k) -> mut (LRemove v i) l (a ++ b) [LElem x]
| m_remove_bad : forall v i l, l <> [] -> position (num l) i = None -> mut (LRemove v i) l l [LThrow IndexOutOfRange]
| m_remove_empty : forall v i, mut (LRemove v i) [] [] [LThrow ContainerEmpty]
| m_append : forall v x l, num l < INT_MAX -> mut (LAppend v x) l (l ++ [x]) []
| m_append_full : forall v x l, num l = INT_MAX -> mut (LAppend v x) l l [LThrow ContainerFull]
| m_sub : forall v x a y b, Forall (fun z => z <> x) a -> y = x -> mut (LSub v x) (a ++ y :: b) (a ++ b) []
| m_sub_absent : forall v x l, ~ In x l -> mut (LSub v x) l l []
| m_times : forall v n l, 0 <= n -> num l * n < INT_MAX -> mut (LTimes v n) l (concat (repeat l (Z.to_nat n))) []
| m_times_neg : forall v n l, n < 0 -> mut (LTimes v n) l l [LThrow NegativeTimes]
| m_times_full : forall v n l, 0 <= n -> num l * n = INT_MAX -> mut (LTimes v n) l l [LThrow ContainerFull]
| m_div : forall v x l, mut (LDiv v x) l (filter (fun y => negb (eqb y x)) l) []
| m_shr : forall v n l r, INT_MIN < n \/ num l <= 1 -> rotated l r (- n) -> mut (LShr v n) l r []
| m_shl : forall v n l r, rotated l r n -> mut (LShl v n) l r []
| m_reverse : forall v l, mut (LReverse v) l (rev l) []
| m_uniquify : forall v l, mut (LUniquify v) l (firsts eqb l) []
| m_sort : forall v l r, stably_sorted lt l r -> mut (LSort v) l r []
| m_erase : forall v i j l a m b, num l < INT_MAX -> l = a ++ m ++ b -> num a = i -> num m = j - i -> mut (LErase v i j) l (a ++ b) []
| m_erase_bad : forall v i j l, num l < INT_MAX -> ~ within 0 i (num l) \/ ~ within 0 j (num l) -> mut (LErase v i j) l l [LThrow IndexOutOfRange]
| m_map : forall v g l, mut (LMap v g) l (map g l) []
| m_filter : forall v p l, mut (LFilter v p) l (filter p l) []
| m_clear : forall v l, mut (LClear v) l [] [].

(** The operators that leave their operands alone do to a copy what the assigning operators do. *)
Inductive copying : lstmt T -> lvar -> lvar -> lstmt T -> Prop :=
| c_plus : forall u v x, copying (LPlusElem u v x) u v (LAppend v x)
| c_minus : forall u v x, copying (LMinus u v x) u v (LSub v x)
| c_over : forall u v x, copying (LOver u v x) u v (LDiv v x)
| c_mult : forall u v n, copying (LMult u v n) u v (LTimes v n).

Inductive sstep : lstmt T -> lstore T -> lstore T -> list (levent T) -> Prop :=
| s_init : forall v xs s, sstep (LInit v xs) s (lset s v xs) []
| s_copy : forall v w s, sstep (LCopy v w) s (lset s v (s w)) []
| s_move : forall v w s, v <> w -> sstep (LMove v w) s (lset (lset s v (s w)) w []) []
| s_mut : forall c v s l' ev, 
    match c with
    | LSet u _ _ | LInsert u _ _ | LInsertElem u _ _ | LRemove u _ | LAppend u _ | LSub u _ | LTimes u _ | LDiv u _ | LShr u _ | LShl u _
    | LReverse u | LUniquify u | LSort u | LErase u _ _ | LMap u _ | LFilter u _ | LClear u => u = v
    | _ => False
    end -> mut c (s v) l' ev -> sstep c s (lset s v l') ev
| s_get : forall v i s k x, position (num (s v)) i = Some k -> nth_error (s v) k = Some x -> sstep (LGet v i) s s [LElem x]
| s_get_bad : forall v i s, position (num (s v)) i = None -> sstep (LGet v i) s s [LThrow IndexOutOfRange]
| s_append_list : forall v w s, v <> w -> num (s v) / 2 + num (s w) / 2 < INT_MAX / 2 -> sstep (LAppendList v w) s (lset s v (s v ++ s w)) []
| s_append_list_full : forall v w s, INT_MAX / 2 <= num (s v) / 2 + num (s w) / 2 -> sstep (LAppendList v w) s (lset s v (s v)) [LThrow ContainerFull]
| s_extend : forall v w s, v <> w -> num (s v) + num (s w) <= INT_MAX -> sstep (LExtend v w) s (lset s v (s v ++ s w)) []
| s_extend_no : forall v w s, INT_MAX < num (s v) + num (s w) -> sstep (LExtend v w) s s []
| s_slice : forall u v a b st s r, num (s v) < INT_MAX -> st <> 0 -> - num (s v) <= a < num (s v) -> - num (s v) - 1 <= b <= num (s v) ->
    slice_fits (from_back (num (s v)) a) (from_back (num (s v)) b) st ->
    sliced (s v) r (from_back (num (s v)) a) (from_back (num (s v)) b) st -> sstep (LSlice u v a b st) s (lset s u r) []
| s_slice_step : forall u v a b s, sstep (LSlice u v a b 0) s s [LThrow SliceStepZero]
| s_slice_start : forall u v a b st s, st <> 0 -> ~ (- num (s v) <= a < num (s v)) -> sstep (LSlice u v a b st) s s [LThrow IndexOutOfRange]
| s_slice_stop : forall u v a b st s, num (s v) < INT_MAX -> st <> 0 -> - num (s v) <= a < num (s v) -> ~ (- num (s v) - 1 <= b <= num (s v)) ->
    sstep (LSlice u v a b st) s s [LThrow IndexOutOfRange]
| s_plus : forall u v w s, num (s v) / 2 + num (s w) / 2 < INT_MAX / 2 -> sstep (LPlus u v w) s (lset s u (s v ++ s w)) []
| s_plus_full : forall u v w s, INT_MAX / 2 <= num (s v) / 2 + num (s w) / 2 -> sstep (LPlus u v w) s s [LThrow ContainerFull]
| s_copying : forall c u v c' s l', copying c u v c' -> mut c' (s v) l' [] -> sstep c s (lset s u l') []
| s_copying_throw : forall c u v c' s l' e, copying c u v c' -> mut c' (s v) l' [LThrow e] -> sstep c s s [LThrow e]
| s_index : forall v x a b s r, 0 <= a <= Z.min b (num (s v)) -> first_at eqb (s v) x a (Z.min b (num (s v))) r -> sstep (LIndex v x a b) s s [LNum r]
| s_contains : forall v x a b s r, 0 <= a <= Z.min b (num (s v)) -> (r = true <-> In x (firstn (Z.to_nat (b - a)) (skipn (Z.to_nat a) (s v)))) ->
    sstep (LContains v x a b) s s [LBool r]
| s_count : forall v x s, sstep (LCount v x) s s [LNum (num (filter (fun y => eqb y x) (s v)))]
| s_size : forall v s, sstep (LSize v) s s [LNum (num (s v))]
| s_is_empty : forall v s b, (b = true <-> s v = []) -> sstep (LIsEmpty v) s s [LBool b]
| s_equal : forall v w s b, (b = true <-> s v = s w) -> sstep (LEqual v w) s s [LBool b]
| s_print : forall v s, sstep (LPrint v) s s [LText ("["%char :: commas (map show (s v)) ++ ["]"%char])].

Inductive srun : list (lstmt T) -> lstore T -> lstore T -> list (levent T) -> Prop :=
| s_nil : forall s, srun [] s s []
| s_cons : forall c rest s s1 s2 ev1 ev2, sstep c s s1 ev1 -> srun rest s1 s2 ev2 -> srun (c :: rest) s s2 (ev1 ++ ev2).
End Spec.

(** Every list has at most INT_MAX elements; every int argument is an int. *)
Definition sized {T} (s : lstore T) : Prop := forall v, Z.of_nat (length (s v)) <= INT_MAX.
Definition int_stmt {T} (c : lstmt T) : Prop :=
  let fits z := INT_MIN <= z <= INT_MAX in
  match c with
  | LInit _ xs => Z.of_nat (length xs) <= INT_MAX
  | LSet _ i _ | LGet _ i | LInsert _ i _ | LRemove _ i | LTimes _ i | LShr _ i | LShl _ i => fits i
  | LMult _ _ i => fits i
  | LInsertElem _ i j | LErase _ i j | LIndex _ _ i j | LContains _ _ i j => fits i /\ fits j
  | LSlice _ _ i j k => fits i /\ fits j /\ fits k
  | _ => True
  end.

(** The calls the code leaves undefined. *)
Definition lundef {T} (c : lstmt T) (s : lstore T) : Prop :=
  let n v := Z.of_nat (length (s v)) in
  match c with
  | LMove v w => v = w
  | LAppendList v w => v = w /\ n v / 2 + n w / 2 < INT_MAX / 2
  | LExtend v w => v = w /\ n v + n w <= INT_MAX
  | LTimes v k => 0 <= k /\ INT_MAX < n v * k
  | LMult _ v k => 0 <= k /\ INT_MAX < n v * k
  | LShr v k => k = INT_MIN /\ 1 < n v
  | LErase v a b => n v = INT_MAX \/ (0 <= b < a /\ a <= n v)
  | LSlice _ v a b st =>
      st <> 0 /\ - n v <= a < n v /\
      (n v = INT_MAX \/ (- n v - 1 <= b <= n v /\ ~ slice_fits (from_back (n v) a) (from_back (n v) b) st))
  | LIndex v _ a b | LContains v _ a b => ~ (0 <= a <= Z.min b (n v))
  | _ => False
  end.
