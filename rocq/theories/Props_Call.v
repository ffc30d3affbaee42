(** Properties C194..C196: the members of List that call code of the client. Theorems only; each is an instance of a lemma
    proved elsewhere and is followed by its assumptions and by a concrete case. [S] is the state of the client's code and [X]
    the type of its exceptions. [asks cs s l o s']: the calls [cs] are made in this order from state [s] until one throws;
    [l] are the answers, [o] the exception, [s'] the state. [scan b cs s r s']: the same, but the calls also end with the first
    answer [b]. *)
From Coq Require Import ZArith List Bool Lia.
From Verif Require Import Outcome ListModel ListSpec ListCallModel ListCallSpec ListCall.
Import ListNotations.
Open Scope Z_scope.

(** The calls of a sequence have exactly one course. *)
Theorem C194_calls_total : forall (S Y A : Type) (cs : list (S -> (A + Y) * S)) s, exists l o s', asks cs s l o s' /\
  forall l2 o2 s2, asks cs s l2 o2 s2 -> l = l2 /\ o = o2 /\ s' = s2.
Proof. exact @asks_unique. Qed.
Print Assumptions C194_calls_total.

(** The calls of a search have exactly one course. *)
Theorem C194_scan_total : forall (S X : Type) (stop : bool) (cs : list (call S X bool)) s, exists r s', scan stop cs s r s' /\
  forall r2 s2, scan stop cs s r2 s2 -> r = r2 /\ s' = s2.
Proof. exact @scan_unique. Qed.
Print Assumptions C194_scan_total.

(** index asks element == x from start on until the answer is yes. *)
Theorem C194_index : forall (T S X : Type) (eq : T -> T -> call S X bool) x start stop v s r s',
  Z.of_nat (length v) <= INT_MAX -> 0 <= start -> INT_MIN <= stop <= INT_MAX -> start <= Z.min stop (Z.of_nat (length v)) ->
  scan true (map (fun y => eq y x) (firstn (Z.to_nat (Z.min stop (Z.of_nat (length v)) - start)) (skipn (Z.to_nat start) v))) s r s' ->
  list_index_calls eq x start stop (v, s) =
    (match r with At k => CRet (start + Z.of_nat k) | Nowhere => CRet (-1) | Threw e => CThrow e end, (v, s')).
Proof. exact @index_calls. Qed.
Print Assumptions C194_index.

(** contains makes the same calls. *)
Theorem C194_contains : forall (T S X : Type) (eq : T -> T -> call S X bool) x start stop v s r s',
  Z.of_nat (length v) <= INT_MAX -> 0 <= start -> INT_MIN <= stop <= INT_MAX -> start <= Z.min stop (Z.of_nat (length v)) ->
  scan true (map (fun y => eq y x) (firstn (Z.to_nat (Z.min stop (Z.of_nat (length v)) - start)) (skipn (Z.to_nat start) v))) s r s' ->
  list_contains_calls eq x start stop (v, s) =
    (match r with At _ => CRet true | Nowhere => CRet false | Threw e => CThrow e end, (v, s')).
Proof. exact @contains_calls. Qed.
Print Assumptions C194_contains.

(** With another range nothing is called and the behaviour is undefined. *)
Theorem C194_index_undefined : forall (T S X : Type) (eq : T -> T -> call S X bool) x start stop v s,
  Z.of_nat (length v) <= INT_MAX -> start < 0 \/ Z.min stop (Z.of_nat (length v)) < start ->
  list_index_calls eq x start stop (v, s) = (CUB InvalidRange, (v, s)) /\ list_contains_calls eq x start stop (v, s) = (CUB InvalidRange, (v, s)).
Proof. exact @index_calls_ub. Qed.
Print Assumptions C194_index_undefined.

(** count asks about every element, in order. *)
Theorem C194_count : forall (T S X : Type) (eq : T -> T -> call S X bool) x v s bs o s',
  Z.of_nat (length v) <= INT_MAX -> asks (map (fun y => eq y x) v) s bs o s' ->
  list_count_calls eq x (v, s) = (match o with None => CRet (Z.of_nat (length (filter (fun b => b) bs))) | Some e => CThrow e end, (v, s')).
Proof. exact @count_calls_ok. Qed.
Print Assumptions C194_count.

(** -= searches and removes what it finds. *)
Theorem C194_subtract : forall (T S X : Type) (eq : T -> T -> call S X bool) x v s r s', scan true (map (fun y => eq y x) v) s r s' ->
  list_subtract_calls eq x (v, s) =
    match r with
    | At k => (CRet tt, (firstn k v ++ skipn (k + 1) v, s'))
    | Nowhere => (CRet tt, (v, s'))
    | Threw e => (CThrow e, (v, s'))
    end.
Proof. exact @subtract_calls. Qed.
Print Assumptions C194_subtract.

(** /= asks about every element, in order. *)
Theorem C194_divide : forall (T S X : Type) (eq : T -> T -> call S X bool) x v s bs o s', asks (map (fun y => eq y x) v) s bs o s' ->
  list_divide_calls eq x (v, s) =
    match o with
    | None => (CRet tt, (picked false bs v, s'))
    | Some e => (CThrow e, (half_done false bs v, s'))
    end.
Proof. exact @divide_calls. Qed.
Print Assumptions C194_divide.

(** filter asks about every element, in order. *)
Theorem C194_filter : forall (T S X : Type) (p : T -> call S X bool) v s bs o s', asks (map p v) s bs o s' ->
  list_filter_calls p (v, s) =
    match o with
    | None => (CRet tt, (picked true bs v, s'))
    | Some e => (CThrow e, (half_done true bs v, s'))
    end.
Proof. exact @filter_calls. Qed.
Print Assumptions C194_filter.

(** map hands every element to the action, in order. *)
Theorem C194_map : forall (T S X : Type) (action : ref_call T S X) v s l o s', asks (map action v) s l o s' ->
  list_map_calls action (v, s) =
    match o with
    | None => (CRet tt, (l, s'))
    | Some (z, e) => (CThrow e, (l ++ z :: skipn (length l + 1) v, s'))
    end.
Proof. exact @map_calls. Qed.
Print Assumptions C194_map.

(** uniquify searches for each element among those kept so far. *)
Theorem C194_uniquify : forall (T S X : Type) (eq : T -> T -> call S X bool) v s r s', uniq eq v [] s r s' ->
  list_uniquify_calls eq (v, s) = match r with inl l => (CRet tt, (l, s')) | inr e => (CThrow e, (v, s')) end.
Proof. exact @uniquify_calls. Qed.
Print Assumptions C194_uniquify.

(** It always ends in one of these ways. *)
Theorem C194_uniquify_total : forall (T S X : Type) (eq : T -> T -> call S X bool) l b s, exists r s', uniq eq l b s r s'.
Proof. exact @uniq_total. Qed.
Print Assumptions C194_uniquify_total.

(** == of lists asks element by element until the answer is no, *)
Theorem C194_equal : forall (T S X : Type) (eq : T -> T -> call S X bool) v w s r s', length v = length w ->
  scan false (map (fun q => eq (fst q) (snd q)) (combine v w)) s r s' ->
  list_equal_calls eq w (v, s) = (match r with At _ => CRet false | Nowhere => CRet true | Threw e => CThrow e end, (v, s')).
Proof. exact @equal_calls_ok. Qed.
Print Assumptions C194_equal.

(** and asks nothing when the sizes differ. *)
Theorem C194_equal_sizes : forall (T S X : Type) (eq : T -> T -> call S X bool) v w s, length v <> length w ->
  list_equal_calls eq w (v, s) = (CRet false, (v, s)).
Proof. exact @equal_calls_sizes. Qed.
Print Assumptions C194_equal_sizes.

(** With an == that cannot fail the members are those of ListModel.v. *)
Theorem C194_pure_search : forall (T S X : Type) (eqb : T -> T -> bool) x start stop v (s : S),
  agrees (fst (list_index_calls (pure (X := X) eqb) x start stop (v, s))) (list_index eqb v x start stop) /\
  snd (list_index_calls (pure (X := X) eqb) x start stop (v, s)) = (v, s) /\
  agrees (fst (list_contains_calls (pure (X := X) eqb) x start stop (v, s))) (list_contains eqb v x start stop) /\
  snd (list_contains_calls (pure (X := X) eqb) x start stop (v, s)) = (v, s).
Proof. exact @pure_index. Qed.
Print Assumptions C194_pure_search.

Theorem C194_pure : forall (T S X : Type) (eqb : T -> T -> bool) x v w (s : S),
  list_count_calls (pure (X := X) eqb) x (v, s) = (CRet (list_count eqb v x), (v, s)) /\
  list_equal_calls (pure (X := X) eqb) w (v, s) = (CRet (list_eqb eqb v w), (v, s)) /\
  list_subtract_calls (pure (X := X) eqb) x (v, s) = (CRet tt, (snd (list_subtract eqb x v), s)) /\
  list_divide_calls (pure (X := X) eqb) x (v, s) = (CRet tt, (snd (list_divide eqb (Val x) v), s)) /\
  list_uniquify_calls (pure (X := X) eqb) (v, s) = (CRet tt, (snd (list_uniquify eqb v), s)).
Proof. exact @pure_all. Qed.
Print Assumptions C194_pure.

Theorem C194_pure_map : forall (T S X : Type) (f : S -> T -> S * T) v s s' v', list_map f s v = (Ok s', v') ->
  list_map_calls (fun y t => (@inl T (T * X) (snd (f t y)), fst (f t y))) (v, s) = (CRet tt, (v', s')).
Proof. exact @pure_map. Qed.
Print Assumptions C194_pure_map.

Theorem C194_pure_filter : forall (T S X : Type) (p : T -> bool) v (s : S),
  list_filter_calls (fun y (t : S) => (@inl bool X (p y), t)) (v, s) = (CRet tt, (snd (list_filter false p v), s)) /\ fst (list_filter false p v) = Ok tt.
Proof. exact @pure_filter. Qed.
Print Assumptions C194_pure_filter.

Example C194_case :
  let p := fun y s => if y =? 9 then (inr tt, s ++ [y]) else (inl (Z.even y), s ++ [y]) : (bool + unit) * list Z in
  asks (map p [1; 2; 3; 4]) [] [false; true; false; true] None [1; 2; 3; 4] /\
  list_filter_calls p ([1; 2; 3; 4], []) = (CRet tt, ([2; 4], [1; 2; 3; 4])) /\
  asks (map p [1; 2; 3; 4; 9; 8]) [] [false; true; false; true] (Some tt) [1; 2; 3; 4; 9] /\
  list_filter_calls p ([1; 2; 3; 4; 9; 8], []) = (CThrow tt, ([2; 4; 3; 4; 9; 8], [1; 2; 3; 4; 9])).
Proof. cbv zeta. repeat match goal with |- _ /\ _ => split end; try reflexivity; repeat (econstructor; [reflexivity|]); constructor; reflexivity. Qed.

Example C194_case_scan :
  let eq := fun a b s => if a =? 9 then (inr tt, s + 1) else (inl (a =? b), s + 1) : (bool + unit) * Z in
  scan true (map (fun y => eq y 5) [1; 5; 9]) 0 (At 1) 2 /\ list_subtract_calls eq 5 ([1; 5; 9], 0) = (CRet tt, ([1; 9], 2)) /\
  list_subtract_calls eq 7 ([1; 5; 9; 7], 0) = (CThrow tt, ([1; 5; 9; 7], 3)) /\ list_index_calls eq 5 1 3 ([1; 5; 9], 0) = (CRet 1, ([1; 5; 9], 1)) /\
  list_uniquify_calls eq ([1; 2; 1; 2], 0) = (CRet tt, ([1; 2], 4)) /\ list_uniquify_calls eq ([1; 9; 1], 0) = (CRet tt, ([1; 9], 2)) /\
  list_uniquify_calls eq ([1; 9; 3], 0) = (CThrow tt, ([1; 9; 3], 3)) /\
  list_equal_calls eq [1; 2; 3] ([1; 5; 9], 0) = (CRet false, ([1; 5; 9], 2)).
Proof.
  cbv zeta. split; [|repeat split; reflexivity]. apply (sc_at true _ 1); [cbn; lia|]. repeat (econstructor; [reflexivity|]). constructor.
Qed.

Example C194_case_map :
  let f := fun y s => if y =? 9 then (inr (0, tt), s) else (inl (y * 2), s + 1) : (Z + Z * unit) * Z in
  list_map_calls f ([1; 2; 3], 0) = (CRet tt, ([2; 4; 6], 3)) /\ list_map_calls f ([1; 2; 9; 3], 0) = (CThrow tt, ([2; 4; 0; 3], 2)).
Proof. split; reflexivity. Qed.

(** An exception from the predicate of filter leaves a list that is neither the old nor the new one. *)
Theorem C195_filter_refuted : exists (p : Z -> call unit unit bool) v w, list_filter_calls p (v, tt) = (CThrow tt, (w, tt)) /\ w <> v.
Proof. exact filter_witness. Qed.
Print Assumptions C195_filter_refuted.

(** So does one from the action of map, *)
Theorem C195_map_refuted : exists (f : ref_call Z unit unit) v w, list_map_calls f (v, tt) = (CThrow tt, (w, tt)) /\ w <> v.
Proof. exact map_witness. Qed.
Print Assumptions C195_map_refuted.

(** and one from == in /=. *)
Theorem C195_divide_refuted : exists (eq : Z -> Z -> call unit unit bool) x v w, list_divide_calls eq x (v, tt) = (CThrow tt, (w, tt)) /\ w <> v.
Proof. exact divide_witness. Qed.
Print Assumptions C195_divide_refuted.

(** -= and uniquify leave the list as it was. *)
Theorem C195_strong : forall (T S X : Type) (eq : T -> T -> call S X bool) x v s e vs,
  (list_subtract_calls eq x (v, s) = (CThrow e, vs) -> fst vs = v) /\ (list_uniquify_calls eq (v, s) = (CThrow e, vs) -> fst vs = v).
Proof. exact @strong_guarantee. Qed.
Print Assumptions C195_strong.

(** The members that only look never change the list. *)
Theorem C195_readers : forall (T S X : Type) (eq : T -> T -> call S X bool) x start stop w v s, Z.of_nat (length v) <= INT_MAX -> INT_MIN <= stop <= INT_MAX ->
  fst (snd (list_index_calls eq x start stop (v, s))) = v /\ fst (snd (list_contains_calls eq x start stop (v, s))) = v /\
  fst (snd (list_count_calls eq x (v, s))) = v /\ fst (snd (list_equal_calls eq w (v, s))) = v.
Proof. exact @readers_keep. Qed.
Print Assumptions C195_readers.

(** The others keep the length, and filter and /= bring in no new value. *)
Theorem C195_basic : forall (T S X : Type) (eq : T -> T -> call S X bool) x (p : T -> call S X bool) (action : ref_call T S X) v s e vs,
  (list_divide_calls eq x (v, s) = (CThrow e, vs) -> length (fst vs) = length v /\ incl (fst vs) v) /\
  (list_filter_calls p (v, s) = (CThrow e, vs) -> length (fst vs) = length v /\ incl (fst vs) v) /\
  (list_map_calls action (v, s) = (CThrow e, vs) -> length (fst vs) = length v).
Proof. exact @basic_guarantee. Qed.
Print Assumptions C195_basic.

Example C195_case :
  let eq := fun a b s => if a =? 9 then (inr tt, s + 1) else (inl (a =? b), s + 1) : (bool + unit) * Z in
  list_subtract_calls eq 7 ([1; 5; 9; 7], 0) = (CThrow tt, ([1; 5; 9; 7], 3)) /\
  list_divide_calls eq 1 ([1; 5; 1; 9; 7], 0) = (CThrow tt, ([5; 5; 1; 9; 7], 4)).
Proof. split; reflexivity. Qed.

(** count and /= compare every element once with x, the element on the left. *)
Theorem C196_count : forall (T X : Type) (eqb : T -> T -> bool) x v log, Z.of_nat (length v) <= INT_MAX ->
  (exists n, list_count_calls (logged (X := X) eqb) x (v, log) = (CRet n, (v, log ++ map (fun y => (y, x)) v))) /\
  (exists v', list_divide_calls (logged (X := X) eqb) x (v, log) = (CRet tt, (v', log ++ map (fun y => (y, x)) v))).
Proof. exact @logged_all. Qed.
Print Assumptions C196_count.

(** -= compares up to the first equal element, *)
Theorem C196_subtract : forall (T X : Type) (eqb : T -> T -> bool) x a y b log, (forall z, In z a -> eqb z x = false) -> eqb y x = true ->
  list_subtract_calls (logged (X := X) eqb) x (a ++ y :: b, log) = (CRet tt, (a ++ b, log ++ map (fun y => (y, x)) (a ++ [y]))).
Proof. exact @logged_subtract_at. Qed.
Print Assumptions C196_subtract.

(** or all of them. *)
Theorem C196_subtract_absent : forall (T X : Type) (eqb : T -> T -> bool) x v log, (forall z, In z v -> eqb z x = false) ->
  list_subtract_calls (logged (X := X) eqb) x (v, log) = (CRet tt, (v, log ++ map (fun y => (y, x)) v)).
Proof. exact @logged_subtract_no. Qed.
Print Assumptions C196_subtract_absent.

(** uniquify makes between n-1 and n(n-1)/2 comparisons, the latter when all elements differ. *)
Theorem C196_uniquify : forall (T X : Type) (eqb : T -> T -> bool) v log,
  exists v' more, list_uniquify_calls (logged (X := X) eqb) (v, log) = (CRet tt, (v', log ++ more)) /\
  (length v - 1 <= length more)%nat /\ (2 * length more <= length v * (length v - 1))%nat /\
  (decides eqb -> NoDup v -> (2 * length more = length v * (length v - 1))%nat).
Proof. exact @logged_uniquify. Qed.
Print Assumptions C196_uniquify.

(** When all elements are equal it makes n-1. *)
Theorem C196_uniquify_same : forall (T X : Type) (eqb : T -> T -> bool) e n log, eqb e e = true ->
  list_uniquify_calls (logged (X := X) eqb) (repeat e (n + 1), log) = (CRet tt, ([e], log ++ repeat (e, e) n)).
Proof. exact @logged_uniquify_same1. Qed.
Print Assumptions C196_uniquify_same.

Example C196_case :
  list_uniquify_calls (logged (X := unit) Z.eqb) ([1; 2; 3], []) = (CRet tt, ([1; 2; 3], [(1, 2); (1, 3); (2, 3)])) /\
  list_uniquify_calls (logged (X := unit) Z.eqb) ([5; 5; 5], []) = (CRet tt, ([5], [(5, 5); (5, 5)])) /\
  list_subtract_calls (logged (X := unit) Z.eqb) 2 ([1; 2; 3], []) = (CRet tt, ([1; 3], [(1, 2); (2, 2)])).
Proof. repeat split; reflexivity. Qed.
