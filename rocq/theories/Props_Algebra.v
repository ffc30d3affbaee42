(** Properties C148-C153: laws between operations. Theorems only; each is an instance of a
    lemma proved elsewhere and is followed by its assumptions and by a concrete case. *)
From Coq Require Import String Ascii ZArith QArith List Bool Lia.
From Verif Require Import Outcome Show IntModel IntSpec IntProgModel FracModel FracSpec ExprModel ExprSpec ListModel ListSpec StrModel
  IntExpr FracExpr ListAlgebra StrAlgebra ExTools.
Import ListNotations.
Open Scope Z_scope.

Theorem C148_value : forall s r, (forall v, repr (s v) (r v)) -> forall e, literals_ok e ->
  match zden r e with
  | Some z => returns (int_eval Benign s e) z
  | None => int_eval Benign s e = Throw DivideByZero
  end.
Proof. exact int_eval_ok. Qed.
Print Assumptions C148_value.

(** Two expressions for the same number give the same object: equal under ==, with the same text and hash. *)
Theorem C148_same_value : forall s r, (forall v, repr (s v) (r v)) -> forall e e', literals_ok e -> literals_ok e' ->
  zden r e = zden r e' -> int_eval Benign s e = int_eval Benign s e'.
Proof. exact int_eval_same. Qed.
Print Assumptions C148_same_value.

(** With the standard reading of the out-of-bounds access of C06, evaluation gives this or is undefined. *)
Theorem C148_strict : forall s e, int_eval Strict s e = int_eval Benign s e \/ exists u, int_eval Strict s e = UB u.
Proof. exact int_eval_strict. Qed.
Print Assumptions C148_strict.

Theorem C148_ring_laws : forall s r, (forall v, repr (s v) (r v)) ->
  Forall (fun l => int_eval Benign s (fst l) = int_eval Benign s (snd l)) ring_laws.
Proof. exact int_ring. Qed.
Print Assumptions C148_ring_laws.

Theorem C148_quotient_laws : forall s r, (forall v, repr (s v) (r v)) -> r 1%nat <> 0 -> r 2%nat <> 0 ->
  Forall (fun l => int_eval Benign s (fst l) = int_eval Benign s (snd l)) quotient_laws.
Proof. exact int_quotient. Qed.
Print Assumptions C148_quotient_laws.

(** Every one of the laws that need exact division fails for some operands. *)
Theorem C148_truncation : exists s r, (forall v, repr (s v) (r v)) /\ (forall v, r v <> 0) /\
  Forall (fun l => int_eval Benign s (fst l) <> int_eval Benign s (snd l)) field_laws.
Proof. exact int_field_refuted. Qed.
Print Assumptions C148_truncation.

Example C148_case : let s := fun v : var => match v with 0%nat => MkInt (-1) [7; 1] | 1%nat => MkInt 1 [5] | _ => MkInt 1 [2] end in
  let e := ESub (EMul (EVar 0%nat) (EAdd (EVar 1%nat) (ELit 12))) (EDiv (EVar 0%nat) (EVar 2%nat)) in
  (forall v, repr (s v) (match v with 0%nat => -17 | 1%nat => 5 | _ => 2 end)) /\ literals_ok e /\
  int_eval Benign s e = Ok (MkInt (-1) [1; 8; 2]) /\
  int_eval Benign s (EDiv e (ESub (EVar 1%nat) (ELit 5))) = Throw DivideByZero.
Proof.
  cbv zeta. split; [intros [|[|v]]; apply repr_check; reflexivity|]. split; [cbn; unfold INT_MIN, INT_MAX; lia|]. split; reflexivity.
Qed.

(** [right_outcome] leaves an int overflow as the only other possibility. *)
Theorem C149_value : forall s, (forall v, valid (s v)) -> forall e, literals_ok e ->
  right_outcome (frac_eval s e) (qden (fun v => qval (s v)) e).
Proof. exact frac_eval_ok. Qed.
Print Assumptions C149_value.

Theorem C149_same_value : forall s, (forall v, valid (s v)) -> forall e e' f f', literals_ok e -> literals_ok e' ->
  same_rational (qden (fun v => qval (s v)) e) (qden (fun v => qval (s v)) e') ->
  frac_eval s e = Ok f -> frac_eval s e' = Ok f' -> f = f'.
Proof. exact frac_eval_same. Qed.
Print Assumptions C149_same_value.

Theorem C149_ring_laws : forall s, (forall v, valid (s v)) ->
  Forall (fun l => forall f f', frac_eval s (fst l) = Ok f -> frac_eval s (snd l) = Ok f' -> f = f') ring_laws.
Proof. exact frac_ring. Qed.
Print Assumptions C149_ring_laws.

Theorem C149_field_laws : forall s, (forall v, valid (s v)) -> ~ (qval (s 1%nat) == 0)%Q -> ~ (qval (s 2%nat) == 0)%Q ->
  Forall (fun l => forall f f', frac_eval s (fst l) = Ok f -> frac_eval s (snd l) = Ok f' -> f = f') (quotient_laws ++ field_laws).
Proof. exact frac_field. Qed.
Print Assumptions C149_field_laws.

Example C149_case : let s := fun v : var => match v with 0%nat => Frac (-1) 2 | 1%nat => Frac 2 3 | _ => Frac 5 1 end in
  (forall v, valid (s v)) /\ ~ (qval (s 1%nat) == 0)%Q /\ ~ (qval (s 2%nat) == 0)%Q /\
  Forall (fun l => exists f, frac_eval s (fst l) = Ok f /\ frac_eval s (snd l) = Ok f) (ring_laws ++ quotient_laws ++ field_laws) /\
  frac_eval s (EDiv (EVar 0%nat) (ESub (EVar 1%nat) (EDiv (ELit 2) (ELit 3)))) = Throw DivideByZero.
Proof.
  cbv zeta. split; [intros [|[|v]]; repeat split; cbn; unfold INT_MAX; try lia; reflexivity|].
  split; [discriminate|]. split; [discriminate|]. split; [|reflexivity].
  unfold ring_laws, quotient_laws, field_laws. cbn [app]. repeat apply Forall_cons; [..|apply Forall_nil]; eexists; split; reflexivity.
Qed.

(** INT_MAX + 1 + -1: undefined from left to right, defined from right to left. *)
Theorem C150_regrouping_refuted : let s := fun v : var => match v with 0%nat => Frac INT_MAX 1 | 1%nat => Frac 1 1 | _ => Frac (-1) 1 end in
  (forall v, valid (s v)) /\
  frac_eval s (EAdd (EAdd (EVar 0%nat) (EVar 1%nat)) (EVar 2%nat)) = UB SignedOverflow /\
  frac_eval s (EAdd (EVar 0%nat) (EAdd (EVar 1%nat) (EVar 2%nat))) = Ok (Frac INT_MAX 1).
Proof. exact regroup_witness. Qed.
Print Assumptions C150_regrouping_refuted.

Theorem C151_plus : forall T (a b c : list T), len a + len b + len c <= INT_MAX - 3 ->
  (ab <- list_plus_list a b ;; list_plus_list ab c) = (bc <- list_plus_list b c ;; list_plus_list a bc) /\
  (exists r, (ab <- list_plus_list a b ;; list_plus_list ab c) = Ok r) /\
  list_plus_list a [] = Ok a /\ list_plus_list [] a = Ok a.
Proof. exact plus_assoc. Qed.
Print Assumptions C151_plus.

Theorem C151_times : forall T (d : T) l m n, len l < INT_MAX -> 0 <= m -> 0 <= n -> len l * m < INT_MAX -> len l * (m * n) < INT_MAX ->
  list_times d l 0 = Ok [] /\ list_times d l 1 = Ok l /\
  (lm <- list_times d l m ;; list_times d lm n) = list_times d l (m * n) /\
  (len l * (m + n) <= INT_MAX - 3 ->
     (lm <- list_times d l m ;; ln <- list_times d l n ;; list_plus_list lm ln) = list_times d l (m + n)) /\
  exists r, list_times d l (m * n) = Ok r.
Proof. exact times_laws. Qed.
Print Assumptions C151_times.

Theorem C151_count : forall T (eqb : T -> T -> bool) (d : T) a b x n, len a + len b <= INT_MAX - 3 -> 0 <= n -> len a * n < INT_MAX ->
  (exists ab, list_plus_list a b = Ok ab /\ list_count eqb ab x = list_count eqb a x + list_count eqb b x) /\
  (exists an, list_times d a n = Ok an /\ list_count eqb an x = list_count eqb a x * n) /\
  (exists r, list_reverse a = (Ok tt, r) /\ list_count eqb r x = list_count eqb a x).
Proof. exact count_laws. Qed.
Print Assumptions C151_count.

(** -= lowers the count of what it removes by one, /= to zero; both leave the counts of other elements alone. *)
Theorem C151_removal : forall T (eqb : T -> T -> bool) l x, len l <= INT_MAX ->
  exists l' l'', list_subtract eqb x l = (Ok tt, l') /\ list_divide eqb (Val x) l = (Ok tt, l'') /\
  list_count eqb l' x = Z.max 0 (list_count eqb l x - 1) /\ list_count eqb l'' x = 0 /\
  (forall y, (forall z, eqb z x = true -> eqb z y = false) ->
     list_count eqb l' y = list_count eqb l y /\ list_count eqb l'' y = list_count eqb l y) /\
  (list_count eqb l x = 0 -> l' = l /\ l'' = l).
Proof. exact subtract_count. Qed.
Print Assumptions C151_removal.

(** count, index and contains tell the same. *)
Theorem C151_search : forall T (eqb : T -> T -> bool) (l : list T) x, len l <= INT_MAX -> exists i b,
  list_index eqb l x 0 INT_MAX = Ok i /\ list_contains eqb l x 0 INT_MAX = Ok b /\
  (b = true <-> 0 < list_count eqb l x) /\ (i = -1 <-> list_count eqb l x = 0) /\ (b = true <-> 0 <= i < len l).
Proof. exact found. Qed.
Print Assumptions C151_search.

Theorem C151_reverse : forall T (d : T) a b n, len a + len b <= INT_MAX - 3 -> 0 <= n -> len a * n < INT_MAX ->
  on_copy (list_reverse) a = Ok (rev a) /\ (a' <- on_copy list_reverse a ;; on_copy list_reverse a') = Ok a /\
  (ab <- list_plus_list a b ;; on_copy list_reverse ab) =
    (a' <- on_copy list_reverse a ;; b' <- on_copy list_reverse b ;; list_plus_list b' a') /\
  (an <- list_times d a n ;; on_copy list_reverse an) = (a' <- on_copy list_reverse a ;; list_times d a' n).
Proof. exact reverse_laws. Qed.
Print Assumptions C151_reverse.

Theorem C151_slice_backward : forall T (l : list T), 0 < len l <= INT_MAX - 1 ->
  list_slice l (-1) (- len l - 1) (-1) = on_copy list_reverse l.
Proof. exact slice_backward. Qed.
Print Assumptions C151_slice_backward.

Theorem C151_rotation : forall T (l : list T) m n, len l <= INT_MAX ->
  (l' <- on_copy (list_shl m) l ;; on_copy (list_shl n) l') = on_copy (list_shl (m + n)) l /\ exists r, on_copy (list_shl (m + n)) l = Ok r.
Proof. exact shl_compose. Qed.
Print Assumptions C151_rotation.

Theorem C151_sort : forall T (lt : T -> T -> bool) a b n, strict_weak lt -> len a + len b <= INT_MAX - 3 ->
  (l' <- on_copy (list_sort lt) a ;; on_copy (list_sort lt) l') = on_copy (list_sort lt) a /\
  ((forall x y, lt x y = false -> lt y x = false -> x = y) ->
     (ab <- list_plus_list a b ;; on_copy (list_sort lt) ab) = (ba <- list_plus_list b a ;; on_copy (list_sort lt) ba) /\
     (a' <- on_copy list_reverse a ;; on_copy (list_sort lt) a') = on_copy (list_sort lt) a /\
     (a' <- on_copy (list_shl n) a ;; on_copy (list_sort lt) a') = on_copy (list_sort lt) a) /\
  exists r, on_copy (list_sort lt) a = Ok r.
Proof. exact sort_laws. Qed.
Print Assumptions C151_sort.

Theorem C151_uniquify : forall T (eqb : T -> T -> bool) (d : T) l n, decides eqb -> 0 < n -> len l * n < INT_MAX ->
  exists u, on_copy (list_uniquify eqb) l = Ok u /\ on_copy (list_uniquify eqb) u = Ok u /\
  (ln <- list_times d l n ;; on_copy (list_uniquify eqb) ln) = Ok u /\
  (forall x, list_count eqb u x = Z.min 1 (list_count eqb l x)).
Proof. exact uniquify_laws. Qed.
Print Assumptions C151_uniquify.

Example C151_case : (lm <- list_times 0 [1; 2; 1] 2 ;; list_times 0 lm 2) = list_times 0 [1; 2; 1] 4 /\
  (lm <- list_times 0 [1; 2; 1] 2 ;; on_copy (list_uniquify Z.eqb) lm) = Ok [1; 2] /\ list_count Z.eqb [1; 2; 1] 1 = 2 /\
  (ab <- list_plus_list [3; 1] [2] ;; on_copy (list_sort Z.ltb) ab) = Ok [1; 2; 3] /\
  list_subtract Z.eqb 1 [1; 2; 1] = (Ok tt, [2; 1]) /\ list_slice [1; 2; 3] (-1) (-4) (-1) = Ok [3; 2; 1].
Proof. vm_compute. repeat split. Qed.

(** slice(0, n) + slice(n, n) of a list of n elements: the second slice throws. *)
Theorem C152_split_refuted : forall T (l : list T), len l < INT_MAX -> list_slice l (len l) (len l) 1 = Throw IndexOutOfRange.
Proof. exact slice_end. Qed.
Print Assumptions C152_split_refuted.

(** Every other position; the two parts swapped are the rotation. *)
Theorem C152_split_otherwise : forall T (l : list T) k, len l <= INT_MAX - 3 -> 0 <= k < len l ->
  (a <- list_slice l 0 k 1 ;; b <- list_slice l k (len l) 1 ;; list_plus_list a b) = Ok l /\
  (b <- list_slice l k (len l) 1 ;; a <- list_slice l 0 k 1 ;; list_plus_list b a) = on_copy (list_shl k) l /\
  list_slice l 0 (len l) 1 = Ok l.
Proof. exact slice_split. Qed.
Print Assumptions C152_split_otherwise.

Example C152_case : list_slice [1; 2; 3] 0 3 1 = Ok [1; 2; 3] /\ list_slice [1; 2; 3] 3 3 1 = Throw IndexOutOfRange /\
  (a <- list_slice [1; 2; 3] 0 1 1 ;; b <- list_slice [1; 2; 3] 1 3 1 ;; list_plus_list a b) = Ok [1; 2; 3] /\
  list_slice (@nil Z) 0 0 1 = Throw IndexOutOfRange.
Proof. vm_compute. repeat split. Qed.

(** count, find, contains, split and starts_with tell the same. *)
Theorem C153_search : forall s p, len s < INT_MAX -> p <> [] -> exists n i b l,
  str_count s p = Ok n /\ str_find s p 0 INT_MAX = Ok i /\ str_contains s p 0 INT_MAX = Ok b /\ str_split s p true = Ok l /\
  len l = n + 1 /\ (b = true <-> 0 < n) /\ (i = -1 <-> n = 0) /\ (str_starts_with s p = true <-> i = 0) /\ (n = 0 <-> l = [s]).
Proof. exact search_laws. Qed.
Print Assumptions C153_search.

(** replace is split then join, and changes the size by count times the difference. *)
Theorem C153_replace : forall s old new, len s < INT_MAX -> old <> [] -> exists n r,
  str_count s old = Ok n /\ str_replace s old new = Ok r /\ len r = len s + n * (len new - len old) /\ (n = 0 -> r = s) /\
  (l <- str_split s old true ;; str_join new l) = Ok r /\ str_replace s old old = Ok s.
Proof. exact replace_laws. Qed.
Print Assumptions C153_replace.

Theorem C153_replace_back : forall s c d, len s < INT_MAX -> ~ In d s ->
  (r <- str_replace s [c] [d] ;; str_replace r [d] [c]) = Ok s.
Proof. exact replace_back. Qed.
Print Assumptions C153_replace_back.

Theorem C153_reverse_plus : forall s t : str, len s + len t <= INT_MAX ->
  str_reverse (str_plus s t) = (t' <- str_reverse t ;; s' <- str_reverse s ;; Ok (str_plus t' s')).
Proof. exact rev_plus. Qed.
Print Assumptions C153_reverse_plus.

Theorem C153_reverse_ends : forall s p : str, len s <= INT_MAX -> len p <= INT_MAX ->
  exists s' p', str_reverse s = Ok s' /\ str_reverse p = Ok p' /\
    str_ends_with s p = str_starts_with s' p' /\ str_starts_with s p = str_ends_with s' p'.
Proof. exact rev_ends. Qed.
Print Assumptions C153_reverse_ends.

Theorem C153_slices : forall s k, len s <= INT_MAX - 1 -> 0 <= k < len s ->
  (a <- str_slice s 0 k 1 ;; b <- str_slice s k (len s) 1 ;; Ok (str_plus a b)) = Ok s /\
  (b <- str_slice s k (len s) 1 ;; a <- str_slice s 0 k 1 ;; Ok (str_plus b a)) = str_shl s k /\
  str_slice s (-1) (- len s - 1) (-1) = str_reverse s /\
  (forall j, 0 <= j <= k -> (a <- str_slice s 0 j 1 ;; b <- str_slice s k (len s) 1 ;; Ok (str_plus a b)) = str_erase s j k).
Proof. exact str_slices. Qed.
Print Assumptions C153_slices.

Theorem C153_rotation : forall s m n, len s <= INT_MAX ->
  (s' <- str_shl s m ;; str_shl s' n) = str_shl s (m + n) /\ exists r, str_shl s (m + n) = Ok r.
Proof. exact str_shl_compose. Qed.
Print Assumptions C153_rotation.

Theorem C153_times : forall s m n, len s <= INT_MAX -> 0 <= m -> 0 <= n -> len s * m <= INT_MAX -> len s * (m * n) <= INT_MAX ->
  str_times s 0 = Ok [] /\ str_times s 1 = Ok s /\ (sm <- str_times s m ;; str_times sm n) = str_times s (m * n) /\
  (len s * (m + n) <= INT_MAX -> (sm <- str_times s m ;; sn <- str_times s n ;; Ok (str_plus sm sn)) = str_times s (m + n)) /\
  (n <= INT_MAX -> len s * n <= INT_MAX -> str_join [] (repeat s (Z.to_nat n)) = str_times s n) /\
  exists r, str_times s (m * n) = Ok r.
Proof. exact str_times_laws. Qed.
Print Assumptions C153_times.

Theorem C153_strip : forall s ch r, len s <= INT_MAX -> str_strip s ch = Ok r -> str_strip r ch = Ok r.
Proof. exact strip_idem. Qed.
Print Assumptions C153_strip.

Theorem C153_case_change : forall s t, str_lower (str_plus s t) = str_plus (str_lower s) (str_lower t) /\
  str_upper (str_plus s t) = str_plus (str_upper s) (str_upper t) /\
  str_upper (str_lower s) = str_upper s /\ str_lower (str_upper s) = str_lower s.
Proof. exact case_laws. Qed.
Print Assumptions C153_case_change.

Example C153_case : str_count (chars "abcabc") (chars "bc") = Ok 2 /\ str_replace (chars "abcabc") (chars "bc") (chars "-+-") = Ok (chars "a-+-a-+-") /\
  ~ In "-"%char (chars "abcabc") /\ (r <- str_replace (chars "abcabc") (chars "b") (chars "-") ;; str_replace r (chars "-") (chars "b")) = Ok (chars "abcabc") /\
  (a <- str_slice (chars "hello") 0 2 1 ;; b <- str_slice (chars "hello") 2 5 1 ;; Ok (str_plus b a)) = Ok (chars "llohe") /\
  str_times (chars "ab") 3 = Ok (chars "ababab") /\ str_strip (chars " a b ") (-1) = Ok (chars "a b").
Proof. split; [reflexivity|]. split; [reflexivity|]. split; [cbn; intuition discriminate|]. repeat split. Qed.
