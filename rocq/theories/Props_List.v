(** Properties C47-C66 and C106-C109: lists. Theorems only; each is an instance of a lemma
    proved elsewhere and is followed by its assumptions and by a concrete case.
    [len l] is the true number of elements, [size l] what size() returns. *)
From Coq Require Import String Ascii ZArith List Bool Lia Permutation.
From Verif Require Import Outcome Show ListModel ListSpec ListFacts ListMore ListAlias ListProgModel ListProgSpec ListProg ExTools.
Import ListNotations.
Open Scope Z_scope.

Theorem C47_read : forall (T : Type) (l : list T) i, len l <= INT_MAX ->
  match position (len l) i with
  | Some k => exists x, nth_error l k = Some x /\ list_at l i = Ok x
  | None => list_at l i = Throw IndexOutOfRange
  end.
Proof. exact at_spec. Qed.
Print Assumptions C47_read.

Theorem C47_write : forall (T : Type) (l : list T) i y, len l <= INT_MAX ->
  match position (len l) i with
  | Some k => exists a x b, cut l a (x :: b) (Z.of_nat k) /\ list_set i y l = (Ok tt, a ++ y :: b)
  | None => list_set i y l = (Throw IndexOutOfRange, l)
  end.
Proof. exact set_spec. Qed.
Print Assumptions C47_write.

Example C47_case : list_at [5; 6; 7] 2 = Ok 7 /\ list_at [5; 6; 7] (-3) = Ok 5 /\ list_at [5; 6; 7] 3 = Throw IndexOutOfRange /\
  list_at [5; 6; 7] (-4) = Throw IndexOutOfRange /\ list_set (-2) 9 [5; 6; 7] = (Ok tt, [5; 9; 7]).
Proof. vm_compute. repeat split. Qed.

Theorem C48_insert : forall (T : Type) (l : list T) i y, len l <= INT_MAX ->
  (len l = INT_MAX -> list_insert i y l = (Throw ContainerFull, l)) /\
  (len l < INT_MAX -> ~ (- len l <= i <= len l) -> list_insert i y l = (Throw IndexOutOfRange, l)) /\
  (len l < INT_MAX -> - len l <= i <= len l -> forall a b, cut l a b (from_back (len l) i) ->
     list_insert i y l = (Ok tt, a ++ y :: b)).
Proof. exact insert_spec. Qed.
Print Assumptions C48_insert.

Theorem C48_remove : forall (T : Type) (l : list T) i, len l <= INT_MAX ->
  (l = [] -> list_remove i l = (Throw ContainerEmpty, l)) /\
  (l <> [] -> position (len l) i = None -> list_remove i l = (Throw IndexOutOfRange, l)) /\
  (forall k, position (len l) i = Some k -> forall a x b, cut l a (x :: b) (Z.of_nat k) ->
     list_remove i l = (Ok x, a ++ b)).
Proof. exact remove_spec. Qed.
Print Assumptions C48_remove.

Theorem C48_remove_after_insert : forall (T : Type) (l : list T) i y, len l < INT_MAX -> - len l <= i <= len l ->
  exists l', list_insert i y l = (Ok tt, l') /\ list_remove (if i <? 0 then i - 1 else i) l' = (Ok y, l).
Proof. exact insert_remove. Qed.
Print Assumptions C48_remove_after_insert.

Example C48_case : list_insert 1 9 [5; 6; 7] = (Ok tt, [5; 9; 6; 7]) /\ list_insert (-1) 9 [5; 6; 7] = (Ok tt, [5; 6; 9; 7]) /\
  list_insert 3 9 [5; 6; 7] = (Ok tt, [5; 6; 7; 9]) /\ list_insert 4 9 [5; 6; 7] = (Throw IndexOutOfRange, [5; 6; 7]) /\
  list_remove (-3) [5; 6; 7] = (Ok 5, [6; 7]) /\ list_remove 0 (@nil Z) = (Throw ContainerEmpty, []).
Proof. vm_compute. repeat split. Qed.

Theorem C49_sizes : forall (T : Type) (l w : list T) i x, len l <= INT_MAX -> len w <= INT_MAX ->
  let fine (r : outcome unit * list T) :=
    (exists e, fst r = Throw e /\ snd r = l) \/
    (exists a, fst r = Ok a /\ len (snd r) <= INT_MAX /\ size (snd r) = len (snd r)) in
  fine (list_insert i x l) /\ fine (list_append x l) /\ fine (list_append_list w false l).
Proof. exact growth_bounded. Qed.
Print Assumptions C49_sizes.

Theorem C49_append : forall (T : Type) (l : list T) x, len l <= INT_MAX ->
  (len l = INT_MAX -> list_append x l = (Throw ContainerFull, l)) /\
  (len l < INT_MAX -> list_append x l = (Ok tt, l ++ [x])).
Proof. exact append_spec. Qed.
Print Assumptions C49_append.

Theorem C49_append_list : forall (T : Type) (l w : list T), len l <= INT_MAX -> len w <= INT_MAX ->
  (INT_MAX / 2 <= len l / 2 + len w / 2 -> list_append_list w false l = (Throw ContainerFull, l)) /\
  (len l / 2 + len w / 2 < INT_MAX / 2 -> list_append_list w false l = (Ok tt, l ++ w) /\ len (l ++ w) < INT_MAX).
Proof. exact append_list_spec. Qed.
Print Assumptions C49_append_list.

Example C49_case : list_append 8 [5; 6] = (Ok tt, [5; 6; 8]) /\ list_append_list [1; 2] false [5; 6] = (Ok tt, [5; 6; 1; 2]) /\
  (exists l : list Z, len l = INT_MAX).
Proof. repeat split. exact full_list. Qed.

Theorem C50_repetition : forall (T : Type) (d : T) l n, len l <= INT_MAX ->
  (n < 0 -> list_times d l n = Throw NegativeTimes) /\
  (0 <= n -> len l * n < INT_MAX -> list_times d l n = Ok (concat (repeat l (Z.to_nat n)))) /\
  (0 <= n -> len l * n = INT_MAX -> list_times d l n = Throw ContainerFull) /\
  (0 <= n -> INT_MAX < len l * n -> list_times d l n = UB SignedOverflow).
Proof. exact times_spec. Qed.
Print Assumptions C50_repetition.

Theorem C50_assignment : forall (T : Type) (d : T) l n, len l <= INT_MAX ->
  list_times_assign d n l = match list_times d l n with
    | Ok r => (Ok tt, r) | Throw e => (Throw e, l) | UB u => (UB u, l) | OutOfFuel => (OutOfFuel, l) end.
Proof. exact times_assign_spec. Qed.
Print Assumptions C50_assignment.

Example C50_case : list_times 0 [1; 2] 3 = Ok [1; 2; 1; 2; 1; 2] /\ list_times 0 [1; 2] 0 = Ok [] /\
  list_times_assign 0 (-1) [1; 2] = (Throw NegativeTimes, [1; 2]).
Proof. vm_compute. repeat split. Qed.

(** The exact condition is in C50_repetition: undefined as soon as size * n exceeds INT_MAX. *)
Theorem C51_repetition_overflow_refuted : exists l : list Z, len l = 65536 /\ list_times 0 l 32768 = UB SignedOverflow.
Proof. exact times_overflow_witness. Qed.
Print Assumptions C51_repetition_overflow_refuted.

Theorem C52_minus : forall (T : Type) (eqb : T -> T -> bool) l x,
  ((forall y, In y l -> eqb y x = false) -> list_subtract eqb x l = (Ok tt, l)) /\
  (forall a y b, l = a ++ y :: b -> (forall z, In z a -> eqb z x = false) -> eqb y x = true ->
     list_subtract eqb x l = (Ok tt, a ++ b)).
Proof. exact subtract_spec. Qed.
Print Assumptions C52_minus.

Theorem C52_divide : forall (T : Type) (eqb : T -> T -> bool) l x,
  list_divide eqb (Val x) l = (Ok tt, filter (fun y => negb (eqb y x)) l).
Proof. exact divide_spec. Qed.
Print Assumptions C52_divide.

Example C52_case : list_subtract Z.eqb 2 [1; 2; 3; 2] = (Ok tt, [1; 3; 2]) /\ list_subtract Z.eqb 9 [1; 2] = (Ok tt, [1; 2]) /\
  list_divide Z.eqb (Val 2) [1; 2; 3; 2] = (Ok tt, [1; 3]).
Proof. vm_compute. repeat split. Qed.

(** The elements equal to list[0] = 1 are not all removed. *)
Theorem C53_divide_by_own_element_refuted : exists l : list Z, nth_error l 0 = Some 1 /\
  list_divide Z.eqb (Elem 0) l = (Ok tt, [2; 1; 3]) /\ filter (fun y => negb (y =? 1)) l = [2; 3].
Proof. exact divide_alias_witness. Qed.
Print Assumptions C53_divide_by_own_element_refuted.

(** It is right when no more than k elements are kept, so that position k is never overwritten. *)
Theorem C53_late_element : forall (T : Type) (eqb : T -> T -> bool) l k x, nth_error l (Z.to_nat k) = Some x -> 0 <= k ->
  len (filter (fun y => negb (eqb y x)) l) <= k ->
  list_divide eqb (Elem k) l = (Ok tt, filter (fun y => negb (eqb y x)) l).
Proof. exact divide_alias. Qed.
Print Assumptions C53_late_element.

(** In particular list /= list[-1] is right. *)
Theorem C53_last_element : forall (T : Type) (eqb : T -> T -> bool) l x, decides eqb ->
  list_divide eqb (Elem (len l)) (l ++ [x]) = (Ok tt, filter (fun y => negb (eqb y x)) (l ++ [x])).
Proof. exact divide_last. Qed.
Print Assumptions C53_last_element.

(** Otherwise some element y is moved onto position k; from there on elements equal to y are removed instead. *)
Theorem C53_overwritten : forall (T : Type) (eqb : T -> T -> bool) l k x p y q,
  l = p ++ y :: q -> nth_error l (Z.to_nat k) = Some x -> 0 <= k ->
  eqb y x = false -> len (filter (fun z => negb (eqb z x)) p) = k ->
  list_divide eqb (Elem k) l = (Ok tt, filter (fun z => negb (eqb z x)) p ++ y :: filter (fun z => negb (eqb z y)) q).
Proof. exact @divide_overwritten. Qed.
Print Assumptions C53_overwritten.

(** So list /= list[k] is right exactly when neither the value nor the one moved onto its place occurs behind the latter. *)
Theorem C53_right_exactly : forall (T : Type) (eqb : T -> T -> bool) l k x, decides eqb -> nth_error l (Z.to_nat k) = Some x -> 0 <= k ->
  list_divide eqb (Elem k) l = (Ok tt, filter (fun z => negb (eqb z x)) l) <->
  (forall p y q, l = p ++ y :: q -> y <> x -> len (filter (fun z => negb (eqb z x)) p) = k -> ~ In x q /\ ~ In y q).
Proof. exact @divide_right. Qed.
Print Assumptions C53_right_exactly.

Example C53_case2 : let l := [5; 1; 2; 1; 3; 2] in l = [5; 1] ++ 2 :: [1; 3; 2] /\ nth_error l (Z.to_nat 1) = Some 1 /\ (2 =? 1) = false /\
  len (filter (fun z => negb (z =? 1)) [5; 1]) = 1 /\ list_divide Z.eqb (Elem 1) l = (Ok tt, [5; 2; 1; 3]) /\
  list_divide Z.eqb (Elem 3) l = (Ok tt, [5; 2; 3; 2]).
Proof. vm_compute. repeat split. Qed.

Example C53_case : list_divide Z.eqb (Elem 3) ([1; 2; 1] ++ [1]) = (Ok tt, [2]) /\ decides Z.eqb.
Proof. split; [reflexivity|exact Z.eqb_eq]. Qed.

Theorem C54_left : forall (T : Type) (l : list T) n, len l <= INT_MAX -> exists r, list_shl n l = (Ok tt, r) /\ rotated l r n.
Proof. exact shl_spec. Qed.
Print Assumptions C54_left.

Theorem C54_right : forall (T : Type) (l : list T) n, len l <= INT_MAX -> INT_MIN < n <= INT_MAX ->
  exists r, list_shr n l = (Ok tt, r) /\ rotated l r (- n).
Proof. exact shr_spec. Qed.
Print Assumptions C54_right.

Theorem C54_right_INT_MIN : forall (T : Type) (l : list T), len l <= INT_MAX ->
  list_shr INT_MIN l = if len l <=? 1 then (Ok tt, l) else (UB SignedOverflow, l).
Proof. exact shr_min. Qed.
Print Assumptions C54_right_INT_MIN.

Theorem C54_right_undoes_left : forall (T : Type) (l r : list T) n, len l <= INT_MAX -> INT_MIN < n <= INT_MAX ->
  list_shl n l = (Ok tt, r) -> list_shr n r = (Ok tt, l).
Proof. exact shl_shr. Qed.
Print Assumptions C54_right_undoes_left.

Theorem C54_left_undoes_right : forall (T : Type) (l r : list T) n, len l <= INT_MAX -> INT_MIN < n <= INT_MAX ->
  list_shr n l = (Ok tt, r) -> list_shl n r = (Ok tt, l).
Proof. exact shr_shl. Qed.
Print Assumptions C54_left_undoes_right.

Theorem C54_full_turns : forall (T : Type) (l : list T) k, len l <= INT_MAX -> list_shl (k * len l) l = (Ok tt, l).
Proof. exact shl_full_turns. Qed.
Print Assumptions C54_full_turns.

(** The relation determines the result. *)
Theorem C54_rotated_unique : forall (T : Type) (l r r' : list T) n n', n mod len l = n' mod len l ->
  rotated l r n -> rotated l r' n' -> r = r'.
Proof. exact rotated_unique. Qed.
Print Assumptions C54_rotated_unique.

Example C54_case : list_shl 1 [1; 2; 3; 4] = (Ok tt, [2; 3; 4; 1]) /\ list_shl (-5) [1; 2; 3; 4] = (Ok tt, [4; 1; 2; 3]) /\
  list_shr 6 [1; 2; 3; 4] = (Ok tt, [3; 4; 1; 2]) /\ list_shr (- INT_MAX) [1; 2; 3; 4] = (Ok tt, [4; 1; 2; 3]).
Proof. vm_compute. repeat split. Qed.

Theorem C55_uniquify : forall (T : Type) (eqb : T -> T -> bool) l, decides eqb -> list_uniquify eqb l = (Ok tt, firsts eqb l).
Proof. exact uniquify_spec. Qed.
Print Assumptions C55_uniquify.

Theorem C55_distinct : forall (T : Type) (eqb : T -> T -> bool), decides eqb -> forall l, NoDup (firsts eqb l).
Proof. exact firsts_nodup. Qed.
Print Assumptions C55_distinct.

Theorem C55_same_elements : forall (T : Type) (eqb : T -> T -> bool), decides eqb -> forall l x, In x (firsts eqb l) <-> In x l.
Proof. exact firsts_in. Qed.
Print Assumptions C55_same_elements.

(** Of a ++ b, the result for a comes first, then what b adds, in its order. *)
Theorem C55_order : forall (T : Type) (eqb : T -> T -> bool), decides eqb -> forall a b,
  firsts eqb (a ++ b) = firsts eqb a ++ filter (fun y => negb (existsb (eqb y) a)) (firsts eqb b).
Proof. exact firsts_app. Qed.
Print Assumptions C55_order.

Example C55_case : list_uniquify Z.eqb [3; 1; 3; 2; 1; 3] = (Ok tt, [3; 1; 2]) /\ decides Z.eqb.
Proof. split; [reflexivity|exact Z.eqb_eq]. Qed.

Theorem C56_sort : forall (T : Type) (lt : T -> T -> bool) l, strict_weak lt ->
  exists r, list_sort lt l = (Ok tt, r) /\ stably_sorted lt l r.
Proof. exact list_sort_spec. Qed.
Print Assumptions C56_sort.

(** Any algorithm with the guarantees of std::stable_sort gives the same result as the model. *)
Theorem C56_stable_sort_unique : forall (T : Type) (lt : T -> T -> bool), strict_weak lt -> forall l r1 r2,
  stably_sorted lt l r1 -> stably_sorted lt l r2 -> r1 = r2.
Proof. exact @stable_unique. Qed.
Print Assumptions C56_stable_sort_unique.

Theorem C56_reverse : forall (T : Type) (l : list T), list_reverse l = (Ok tt, rev l).
Proof. exact reverse_spec. Qed.
Print Assumptions C56_reverse.

Example C56_case :
  let tens x y := x / 10 <? y / 10 in
  strict_weak tens /\ list_sort tens [31; 15; 12; 37; 8; 11; 30] = (Ok tt, [8; 15; 12; 11; 31; 37; 30]).
Proof.
  split; [|reflexivity]. split; [|split]; intros; rewrite ?Z.ltb_lt, ?Z.ltb_ge in *; try lia.
Qed.

Theorem C57_slice : forall (T : Type) (l : list T) start stop step, len l < INT_MAX ->
  let a := from_back (len l) start in let b := from_back (len l) stop in
  (step = 0 -> list_slice l start stop step = Throw SliceStepZero) /\
  (step <> 0 -> ~ (- len l <= start < len l) \/ ~ (- len l - 1 <= stop <= len l) ->
     list_slice l start stop step = Throw IndexOutOfRange) /\
  (step <> 0 -> - len l <= start < len l -> - len l - 1 <= stop <= len l ->
     (slice_fits a b step /\ exists r, list_slice l start stop step = Ok r /\ sliced l r a b step) \/
     (~ slice_fits a b step /\ list_slice l start stop step = UB SignedOverflow)).
Proof. exact slice_spec. Qed.
Print Assumptions C57_slice.

Theorem C57_ordinary_steps_fit : forall n start stop step, 0 <= start < n -> -1 <= stop <= n ->
  INT_MIN <= step -> step <= INT_MAX - n -> n < INT_MAX -> step <> 0 -> slice_fits start stop step.
Proof. exact slice_fits_small. Qed.
Print Assumptions C57_ordinary_steps_fit.

(** The relation determines the result. *)
Theorem C57_slice_unique : forall (T : Type) (l r r' : list T) a b s, sliced l r a b s -> sliced l r' a b s -> r = r'.
Proof. exact sliced_unique. Qed.
Print Assumptions C57_slice_unique.

Example C57_case : list_slice [0; 1; 2; 3; 4; 5] 1 5 2 = Ok [1; 3] /\ list_slice [0; 1; 2; 3; 4; 5] (-1) (-7) (-2) = Ok [5; 3; 1] /\
  list_slice [0; 1; 2] 2 0 1 = Ok [] /\ list_slice [0; 1; 2] 3 0 1 = Throw IndexOutOfRange /\ list_slice [0; 1; 2] 0 1 0 = Throw SliceStepZero.
Proof. vm_compute. repeat split. Qed.

Theorem C58_slice_every_step_refuted : list_slice [1; 2] 1 2 INT_MAX = UB SignedOverflow.
Proof. exact eq_refl. Qed.
Print Assumptions C58_slice_every_step_refuted.

Theorem C59_erase : forall (T : Type) (l : list T) start stop, len l < INT_MAX ->
  (~ (0 <= start <= len l) \/ ~ (0 <= stop <= len l) -> list_erase start stop l = (Throw IndexOutOfRange, l)) /\
  (0 <= start <= len l -> 0 <= stop <= len l -> stop < start -> list_erase start stop l = (UB InvalidRange, l)) /\
  (forall a m b, l = a ++ m ++ b -> len a = start -> len m = stop - start -> list_erase start stop l = (Ok tt, a ++ b)).
Proof. exact erase_spec. Qed.
Print Assumptions C59_erase.

(** Every range 0 <= start <= stop <= size cuts the list as in C59_erase. *)
Theorem C59_valid_ranges : forall (T : Type) (l : list T) start stop, 0 <= start <= stop -> stop <= len l ->
  exists a m b, l = a ++ m ++ b /\ len a = start /\ len m = stop - start.
Proof. exact erase_cut. Qed.
Print Assumptions C59_valid_ranges.

Example C59_case : list_erase 1 3 [5; 6; 7; 8] = (Ok tt, [5; 8]) /\ list_erase 2 2 [5; 6] = (Ok tt, [5; 6]) /\
  list_erase (-1) 2 [5; 6] = (Throw IndexOutOfRange, [5; 6]).
Proof. vm_compute. repeat split. Qed.

(** The exact condition is the second part of C59_erase. *)
Theorem C60_erase_inverted_refuted : list_erase 2 1 [1; 2; 3] = (UB InvalidRange, [1; 2; 3]).
Proof. exact eq_refl. Qed.
Print Assumptions C60_erase_inverted_refuted.

Theorem C61_index : forall (T : Type) (eqb : T -> T -> bool) (l : list T) x start stop, len l <= INT_MAX ->
  let stop' := Z.min stop (len l) in
  (0 <= start <= stop' -> exists r, list_index eqb l x start stop = Ok r /\ first_at eqb l x start stop' r) /\
  (~ (0 <= start <= stop') -> list_index eqb l x start stop = UB InvalidRange).
Proof. exact index_spec. Qed.
Print Assumptions C61_index.

Theorem C61_contains : forall (T : Type) (eqb : T -> T -> bool) (l : list T) x start stop, len l <= INT_MAX ->
  0 <= start <= Z.min stop (len l) -> exists b, list_contains eqb l x start stop = Ok b /\
  (b = true <-> exists k y, start <= k < Z.min stop (len l) /\ nth_error l (Z.to_nat k) = Some y /\ eqb y x = true).
Proof. exact contains_spec. Qed.
Print Assumptions C61_contains.

Theorem C61_count : forall (T : Type) (eqb : T -> T -> bool) (l : list T) x, len l <= INT_MAX ->
  list_count eqb l x = len (filter (fun y => eqb y x) l).
Proof. exact count_spec. Qed.
Print Assumptions C61_count.

Theorem C61_find : forall (T : Type) (eqb : T -> T -> bool) (l : list T) x,
  let f := list_find eqb l x in
  (f <= length l)%nat /\ (forall k y, (k < f)%nat -> nth_error l k = Some y -> eqb y x = false) /\
  (f < length l -> exists y, nth_error l f = Some y /\ eqb y x = true)%nat.
Proof. exact find_first. Qed.
Print Assumptions C61_find.

Theorem C61_first_unique : forall (T : Type) (eqb : T -> T -> bool) l x start stop r r', 0 <= start -> stop <= len l ->
  first_at eqb l x start stop r -> first_at eqb l x start stop r' -> r = r'.
Proof. exact first_at_unique. Qed.
Print Assumptions C61_first_unique.

Example C61_case : list_index Z.eqb [5; 6; 5; 7] 5 1 INT_MAX = Ok 2 /\ list_index Z.eqb [5; 6; 5; 7] 5 1 2 = Ok (-1) /\
  list_contains Z.eqb [5; 6; 5; 7] 7 0 4 = Ok true /\ list_count Z.eqb [5; 6; 5; 7] 5 = 2 /\ list_index Z.eqb [] 5 0 INT_MAX = Ok (-1).
Proof. vm_compute. repeat split. Qed.

(** The exact condition is the second part of C61_index. *)
Theorem C62_search_beyond_end_refuted : list_index Z.eqb [7] 7 2 INT_MAX = UB InvalidRange.
Proof. exact eq_refl. Qed.
Print Assumptions C62_search_beyond_end_refuted.

Theorem C63_filter : forall (T : Type) (p : T -> bool) l, list_filter false p l = (Ok tt, filter p l).
Proof. exact filter_spec. Qed.
Print Assumptions C63_filter.

(** The action may also change a state of its own: it is called on every element once, front to back. *)
Theorem C63_map : forall (S T : Type) (f : S -> T -> S * T) l s, exists l',
  list_map f s l = (Ok (fold_left (fun s x => fst (f s x)) l s), l') /\ length l' = length l /\
  forall k x, nth_error l k = Some x ->
    nth_error l' k = Some (snd (f (fold_left (fun s x => fst (f s x)) (firstn k l) s) x)).
Proof. exact map_spec. Qed.
Print Assumptions C63_map.

(** An action that logs its argument logs the list. *)
Theorem C63_map_calls : forall (T : Type) (g : T -> T) l log,
  list_map (fun s x => (s ++ [x], g x)) log l = (Ok (log ++ l), map g l).
Proof. exact map_log. Qed.
Print Assumptions C63_map_calls.

Example C63_case : list_filter false Z.even [1; 2; 3; 4; 6] = (Ok tt, [2; 4; 6]) /\
  list_map (fun n x => (n + 1, x * n)) 1 [5; 6; 7] = (Ok 4, [5; 12; 21]).
Proof. vm_compute. repeat split. Qed.

Theorem C64_equality : forall (T : Type) (eqb : T -> T -> bool), decides eqb -> decides (list_eqb eqb).
Proof. exact eqb_spec. Qed.
Print Assumptions C64_equality.

Theorem C64_lexicographic : forall (T : Type) (cmp : T -> T -> comparison) lt, total_order cmp lt ->
  total_order (list_cmp cmp) (lex_lt lt).
Proof. exact list_total_order. Qed.
Print Assumptions C64_lexicographic.

Example C64_case : total_order Z.compare Z.lt /\ list_cmp Z.compare [1; 2] [1; 2; 0] = Lt /\ list_cmp Z.compare [2] [1; 9] = Gt /\
  list_eqb Z.eqb [1; 2] [1; 2] = true /\ list_eqb Z.eqb [1; 2] [1; 2; 0] = false.
Proof. split; [|vm_compute; repeat split]. split; [exact Z.compare_spec|]. split; [exact Z.lt_irrefl|exact Z.lt_trans]. Qed.

Theorem C65_print : forall (T : Type) (show : T -> list ascii) l,
  list_print show l = "["%char :: commas (map show l) ++ ["]"%char].
Proof. exact list_print_spec. Qed.
Print Assumptions C65_print.

Example C65_case : list_print show_int [1; -20; 3] = chars "[1, -20, 3]" /\ list_print show_int [] = chars "[]" /\ list_print show_int [7] = chars "[7]".
Proof. vm_compute. repeat split. Qed.

(** Running a program on the code and on abstract sequences gives the same lists, results, text and exceptions. *)
Theorem C66_histories : forall (T : Type) (eqb lt : T -> T -> bool) (show : T -> list ascii) (d : T), decides eqb -> strict_weak lt ->
  forall prog s, sized s -> Forall int_stmt prog -> forall s' ev,
  lrun eqb lt show d prog s = Ok (s', ev) <-> srun eqb lt show prog s s' ev.
Proof. exact @run_exact. Qed.
Print Assumptions C66_histories.

(** A program either has an abstract run, whose lists again have at most INT_MAX elements, or reaches undefined behaviour. *)
Theorem C66_otherwise_undefined : forall (T : Type) (eqb lt : T -> T -> bool) (show : T -> list ascii) (d : T), decides eqb -> strict_weak lt ->
  forall prog s, sized s -> Forall int_stmt prog ->
  (exists s' ev, srun eqb lt show prog s s' ev /\ sized s') \/ (exists u, lrun eqb lt show d prog s = UB u).
Proof. exact @run_defined. Qed.
Print Assumptions C66_otherwise_undefined.

Example C66_case : strict_weak Z.ltb /\ sized (fun _ : lvar => @nil Z) /\ exists s',
  lrun Z.eqb Z.ltb show_int 0
    [LInit 1%nat [3; 1; 2]; LAppend 1%nat 1; LCopy 2%nat 1%nat; LSort 1%nat; LAppendList 2%nat 1%nat; LUniquify 2%nat; LRemove 2%nat 9;
     LRemove 2%nat (-1); LTimes 1%nat 2; LErase 1%nat 1 4; LPrint 1%nat; LSlice 3%nat 1%nat (-1) 0 (-2); LPrint 3%nat; LShl 2%nat 1; LPrint 2%nat]
    (fun _ => []) = Ok (s', [LThrow IndexOutOfRange; LElem 2; LText (chars "[1, 1, 1, 2, 3]"); LText (chars "[3, 1]"); LText (chars "[1, 3]")]).
Proof.
  split; [split; [exact Z.ltb_irrefl|split; intros; rewrite ?Z.ltb_lt in *; lia]|].
  split; [intros v; cbn; unfold INT_MAX; lia|]. eexists. vm_compute. reflexivity.
Qed.

Theorem C106_erase_full_list_refuted : exists l : list Z, len l = INT_MAX /\ list_erase 0 0 l = (UB SignedOverflow, l).
Proof. exact erase_full_witness. Qed.
Print Assumptions C106_erase_full_list_refuted.

Theorem C106_slice_full_list_refuted : exists l : list Z, len l = INT_MAX /\ list_slice l 0 1 1 = UB SignedOverflow.
Proof. exact slice_full_witness. Qed.
Print Assumptions C106_slice_full_list_refuted.

Theorem C106_erase_full_list : forall (T : Type) (l : list T) start stop, len l = INT_MAX -> list_erase start stop l = (UB SignedOverflow, l).
Proof. exact erase_full. Qed.
Print Assumptions C106_erase_full_list.

Theorem C106_slice_full_list : forall (T : Type) (l : list T) start stop step, len l = INT_MAX -> step <> 0 -> - len l <= start < len l ->
  list_slice l start stop step = UB SignedOverflow.
Proof. exact slice_full. Qed.
Print Assumptions C106_slice_full_list.

(** Under the reading of the standard, every filter of a non-empty list breaks the precondition of copy_if. *)
Theorem C107_filter_overlap_refuted : forall (T : Type) (p : T -> bool) l, l <> [] -> list_filter true p l = (UB Overlap, l).
Proof. exact filter_strict. Qed.
Print Assumptions C107_filter_overlap_refuted.

Theorem C108_extend_wraps_refuted : exists l w : list Z, len l = INT_MAX /\ len w = 1 /\ list_extend w l = (Ok tt, l ++ w) /\ size (l ++ w) = INT_MIN.
Proof. exact extend_witness. Qed.
Print Assumptions C108_extend_wraps_refuted.

(** INT_MAX - 1 elements plus none is rejected. The exact condition is in C49_append_list. *)
Theorem C109_append_that_fits_refuted : exists l : list Z, len l = INT_MAX - 1 /\ list_append_list [] false l = (Throw ContainerFull, l).
Proof. exact append_fits_witness. Qed.
Print Assumptions C109_append_that_fits_refuted.

(** It accepts everything up to INT_MAX - 3 elements in total. *)
Theorem C109_append_small : forall (T : Type) (l w : list T), len l + len w <= INT_MAX - 3 -> list_append_list w false l = (Ok tt, l ++ w).
Proof. exact append_small. Qed.
Print Assumptions C109_append_small.

Example C109_case : list_append_list [3] false [1; 2] = (Ok tt, [1; 2; 3]) /\ len [1; 2] + len [3] <= INT_MAX - 3.
Proof. split; [reflexivity|]. unfold len, INT_MAX. cbn [length]. lia. Qed.
