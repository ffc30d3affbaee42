(** The library and the Python types it is modelled on: C264 to C274. *)
From Coq Require Import String Ascii ZArith QArith List Bool Lia.
From Verif Require Import Outcome IntModel IntSpec ListModel ListSpec SetSpec DequeModel DictModel DictSpec StrModel StrSpec
  FracModel FracSpec PySpec Py PyDict ExTools.
Import ListNotations.
Open Scope Z_scope.

(** l[i]: the same element, and out of range in the same cases. *)
Theorem C264_item : forall (T : Type) (l : list T) i, len l <= INT_MAX ->
  match py_item l i with Some x => list_at l i = Ok x | None => list_at l i = Throw IndexOutOfRange end.
Proof. exact @at_python. Qed.
Print Assumptions C264_item.

(** l.insert(i, x), for the positions that List accepts. *)
Theorem C264_insert : forall (T : Type) (l : list T) i y, len l < INT_MAX -> - len l <= i <= len l ->
  list_insert i y l = (Ok tt, py_insert l i y).
Proof. exact @insert_python. Qed.
Print Assumptions C264_insert.

(** Whenever insert returns. *)
Theorem C264_insert_only : forall (T : Type) (l : list T) i y l', len l <= INT_MAX -> list_insert i y l = (Ok tt, l') -> l' = py_insert l i y.
Proof. exact @insert_python_only. Qed.
Print Assumptions C264_insert_only.

(** remove(i) is l.pop(i). *)
Theorem C264_pop : forall (T : Type) (l : list T) i, len l <= INT_MAX ->
  match py_pop l i with
  | Some (x, l') => list_remove i l = (Ok x, l')
  | None => exists e, list_remove i l = (Throw e, l)
  end.
Proof. exact @remove_python. Qed.
Print Assumptions C264_pop.

(** slice(start, stop, step) is l[start:stop:step] whenever it returns. *)
Theorem C264_slice : forall (T : Type) (l : list T) start stop s r, len l < INT_MAX -> list_slice l start stop s = Ok r ->
  py_slice l start stop s = Some r.
Proof. exact @slice_python. Qed.
Print Assumptions C264_slice.

(** It does return for these arguments. *)
Theorem C264_slice_domain : forall (T : Type) (l : list T) start stop s, len l < INT_MAX -> s <> 0 ->
  - len l <= start < len l -> - len l - 1 <= stop <= len l -> INT_MIN <= s <= INT_MAX - len l ->
  exists r, list_slice l start stop s = Ok r /\ py_slice l start stop s = Some r.
Proof. exact @slice_python_domain. Qed.
Print Assumptions C264_slice_domain.

(** l * n whenever it returns. *)
Theorem C264_times : forall (T : Type) (d : T) l n r, len l <= INT_MAX -> list_times d l n = Ok r -> r = py_times l n.
Proof. exact @times_python. Qed.
Print Assumptions C264_times.

(** erase(a, b) is del l[a:b] whenever it returns. *)
Theorem C264_erase : forall (T : Type) (l l' : list T) start stop, len l < INT_MAX -> list_erase start stop l = (Ok tt, l') ->
  l' = py_del l start stop.
Proof. exact @erase_python. Qed.
Print Assumptions C264_erase.

(** index(x, start, stop) whenever it returns, -1 standing for ValueError. *)
Theorem C264_index : forall (T : Type) (eqb : T -> T -> bool) l x start stop r, len l <= INT_MAX ->
  list_index eqb l x start stop = Ok r -> py_index eqb l x start stop r.
Proof. exact @index_python. Qed.
Print Assumptions C264_index.

Example C264_example : list_at [1; 2; 3] (-1) = Ok 3 /\ list_insert (-1) 9 [1; 2; 3] = (Ok tt, [1; 2; 9; 3]) /\ py_insert [1; 2; 3] (-1) 9 = [1; 2; 9; 3] /\
  list_remove (-2) [1; 2; 3] = (Ok 2, [1; 3]) /\ py_pop [1; 2; 3] (-2) = Some (2, [1; 3]) /\
  list_slice [1; 2; 3; 4; 5] (-1) (-6) (-2) = Ok [5; 3; 1] /\ py_slice [1; 2; 3; 4; 5] (-1) (-6) (-2) = Some [5; 3; 1] /\
  list_slice [1; 2; 3; 4; 5] 4 (-1) 1 = Ok [] /\ py_slice [1; 2; 3; 4; 5] 4 (-1) 1 = Some [] /\
  list_times 0 [1; 2] 2 = Ok [1; 2; 1; 2] /\ list_erase 1 2 [1; 2; 3] = (Ok tt, [1; 3]) /\ list_index Z.eqb [7; 8] 8 1 5 = Ok 1.
Proof. vm_compute. repeat split. Qed.

(** s[i] *)
Theorem C265_item : forall (s : str) i, len s <= INT_MAX ->
  match py_item s i with Some x => str_at s i = Ok x | None => str_at s i = Throw IndexOutOfRange end.
Proof. exact str_at_python. Qed.
Print Assumptions C265_item.

(** s[start:stop:step] whenever slice returns. *)
Theorem C265_slice : forall (l : str) start stop s r, len l < INT_MAX -> str_slice l start stop s = Ok r -> py_slice l start stop s = Some r.
Proof. exact str_slice_python. Qed.
Print Assumptions C265_slice.

(** It does return for these arguments. *)
Theorem C265_slice_domain : forall (l : str) start stop s, len l < INT_MAX -> s <> 0 ->
  - len l <= start < len l -> - len l - 1 <= stop <= len l -> INT_MIN <= s <= INT_MAX - len l ->
  exists r, str_slice l start stop s = Ok r /\ py_slice l start stop s = Some r.
Proof. exact str_slice_python_domain. Qed.
Print Assumptions C265_slice_domain.

(** s * n whenever it returns. *)
Theorem C265_times : forall (s : str) n r, len s <= INT_MAX -> str_times s n = Ok r -> r = py_times s n.
Proof. exact str_times_python. Qed.
Print Assumptions C265_times.

(** s[:a] + s[b:] whenever erase returns. *)
Theorem C265_erase : forall (s r : str) start stop, len s < INT_MAX -> str_erase s start stop = Ok r -> r = py_del s start stop.
Proof. exact str_erase_python. Qed.
Print Assumptions C265_erase.

(** s.find(p, start, stop) whenever find returns. *)
Theorem C265_find : forall s p start stop r, len s <= INT_MAX -> str_find s p start stop = Ok r -> py_find s p start stop r.
Proof. exact find_python. Qed.
Print Assumptions C265_find.

Example C265_example : str_slice (chars "python") (-1) (-7) (-2) = Ok (chars "nhy") /\ py_slice (chars "python") (-1) (-7) (-2) = Some (chars "nhy") /\
  str_times (chars "ab") 2 = Ok (chars "abab") /\ str_erase (chars "python") 1 3 = Ok (chars "phon") /\
  str_find (chars "hello") (chars "l") 1 100 = Ok 2 /\ str_find (chars "hello") (chars "") 6 100 = Ok (-1).
Proof. vm_compute. repeat split. Qed.

(** Lists: what the library rejects and Python accepts. *)
Theorem C266_list_refuted : (list_slice [1; 2; 3] 0 10 1 = Throw IndexOutOfRange /\ py_slice [1; 2; 3] 0 10 1 = Some [1; 2; 3]) /\
  (list_slice (@nil Z) 0 0 1 = Throw IndexOutOfRange /\ py_slice (@nil Z) 0 0 1 = Some []) /\
  (list_insert 5 9 [1; 2; 3] = (Throw IndexOutOfRange, [1; 2; 3]) /\ py_insert [1; 2; 3] 5 9 = [1; 2; 3; 9]) /\
  (list_times 0 [1; 2] (-1) = Throw NegativeTimes /\ py_times [1; 2] (-1) = []) /\
  (list_erase (-1) 3 [1; 2; 3] = (Throw IndexOutOfRange, [1; 2; 3]) /\ py_del [1; 2; 3] (-1) 3 = [1; 2]) /\
  (list_erase 2 1 [1; 2; 3] = (UB InvalidRange, [1; 2; 3]) /\ py_del [1; 2; 3] 2 1 = [1; 2; 3]) /\
  (list_index Z.eqb [7; 8] 8 (-1) 2 = UB InvalidRange /\ py_index Z.eqb [7; 8] 8 (-1) 2 1).
Proof. exact accepts_more. Qed.
Print Assumptions C266_list_refuted.

(** Strings likewise. *)
Theorem C266_str_refuted : let s := ["a"; "b"]%char in
  (str_slice s 0 10 1 = Throw IndexOutOfRange /\ py_slice s 0 10 1 = Some s) /\
  (str_times s (-1) = Throw NegativeTimes /\ py_times s (-1) = []) /\
  (str_erase s (-1) 2 = Throw IndexOutOfRange /\ py_del s (-1) 2 = ["a"%char]) /\
  ((exists u, str_find s ["b"%char] (-1) 2 = UB u) /\ py_find s ["b"%char] (-1) 2 1).
Proof. exact str_accepts_more. Qed.
Print Assumptions C266_str_refuted.

(** -7 // 2 is -4. *)
Theorem C267_div_refuted : exists x y q, repr x (-7) /\ repr y 2 /\ int_div Benign x y = Ok q /\ value q = -3 /\ py_divmod (-7) 2 (-4) 1.
Proof. exact div_python_refuted. Qed.
Print Assumptions C267_div_refuted.

(** -7 % 5 is 3. *)
Theorem C267_mod_refuted : exists x y r, repr x (-7) /\ repr y 5 /\ int_mod Benign x y = Ok r /\ value r = 2 /\ py_divmod (-7) 5 (-2) 3.
Proof. exact mod_python_refuted. Qed.
Print Assumptions C267_mod_refuted.

(** The quotients for which / is Python's //. *)
Theorem C267_div_exact : forall x y a b, repr x a -> repr y b -> b <> 0 ->
  exists q, returns (int_div Benign x y) q /\ ((exists r, py_divmod a b q r) <-> 0 <= a * b \/ (b | a)).
Proof. exact div_python. Qed.
Print Assumptions C267_div_exact.

(** The remainders for which % is Python's %. *)
Theorem C267_mod_exact : forall x y a b, repr x a -> repr y b -> b <> 0 ->
  let fewer := exists k, 0 <= k /\ Z.abs a < 10 ^ k <= Z.abs b in
  exists r, returns (int_mod Benign x y) r /\
    ((exists q, py_divmod a b q r) <->
     0 <= a /\ 0 < b \/ (b | a) \/ a < 0 /\ b < 0 /\ fewer \/ a < 0 /\ 0 < b /\ ~ fewer /\ 2 * (a mod b) = b).
Proof. exact mod_python. Qed.
Print Assumptions C267_mod_exact.

(** Python's quotient and remainder are determined. *)
Theorem C267_divmod_unique : forall a b q r, b <> 0 -> (py_divmod a b q r <-> q = a / b /\ r = a mod b).
Proof. exact divmod_floor. Qed.
Print Assumptions C267_divmod_unique.

Example C267_example : int_div Benign (MkInt 1 [7]) (MkInt 1 [2]) = Ok (MkInt 1 [3]) /\ int_mod Benign (MkInt 1 [7]) (MkInt 1 [2]) = Ok (MkInt 1 [1]) /\
  int_mod Benign (MkInt (-1) [7]) (MkInt (-1) [5; 1]) = Ok (MkInt (-1) [7]) /\ py_divmod (-7) (-15) 0 (-7).
Proof. repeat split; lia. Qed.

(** -1/2 % 1/3. *)
Theorem C268_refuted : exists x y r, valid x /\ valid y /\ frac_mod x y = Ok r /\ ~ py_frac_mod (qval x) (qval y) (qval r).
Proof. exact frac_mod_python_refuted. Qed.
Print Assumptions C268_refuted.

(** The remainders for which % is Python's %. *)
Theorem C268_exact : forall x y r, valid x -> valid y -> frac_mod x y = Ok r ->
  (py_frac_mod (qval x) (qval y) (qval r) <-> (0 <= qval x * qval y)%Q \/ (qval r == 0)%Q).
Proof. exact frac_mod_python. Qed.
Print Assumptions C268_exact.

Example C268_example : let x := {| num := 7; den := 2 |} in let y := {| num := 2; den := 3 |} in
  valid x /\ valid y /\ frac_mod x y = Ok {| num := 1; den := 6 |} /\ (0 <= qval x * qval y)%Q.
Proof. cbv zeta. repeat split; try (unfold INT_MAX; cbn; lia); try reflexivity. discriminate. Qed.

(** A tab. *)
Theorem C269_refuted : exists s, str_split s [" "%char] false <> Ok (py_split s).
Proof. exact split_python_refuted. Qed.
Print Assumptions C269_refuted.

(** split() is Python's split() exactly for texts in which all whitespace is spaces. *)
Theorem C269_exact : forall s, len s < INT_MAX ->
  (str_split s [" "%char] false = Ok (py_split s) <-> forall c, In c s -> py_space c = true -> c = " "%char).
Proof. exact split_python_exact. Qed.
Print Assumptions C269_exact.

Example C269_example : str_split (chars "  ab c ") [" "%char] false = Ok [chars "ab"; chars "c"] /\ py_split (chars "  ab c ") = [chars "ab"; chars "c"] /\
  py_split ["a"; "009"; "b"]%char = [["a"]; ["b"]]%char.
Proof. vm_compute. repeat split. Qed.

(** A text that begins with the character 0. *)
Theorem C270_refuted : exists s r, Forall (fun c => byte c < 128) s /\ py_strip s r /\ str_strip s (-1) <> Ok r.
Proof. exact strip_python_refuted. Qed.
Print Assumptions C270_refuted.

(** strip() is Python's strip() exactly if what that leaves does not begin or end with another character up to 32. *)
Theorem C270_exact : forall s r, len s <= INT_MAX -> Forall (fun c => byte c < 128) s -> py_strip s r ->
  (str_strip s (-1) = Ok r <->
   (forall c r', r = c :: r' -> 32 < byte c) /\ (forall c r', r = r' ++ [c] -> 32 < byte c)).
Proof. exact strip_python_exact. Qed.
Print Assumptions C270_exact.

(** No whitespace is left at the ends. *)
Theorem C270_all : forall s, len s <= INT_MAX -> Forall (fun c => byte c < 128) s ->
  exists r, str_strip s (-1) = Ok r /\
    (forall c r', r = c :: r' -> py_space c = false) /\ (forall c r', r = r' ++ [c] -> py_space c = false).
Proof. exact strip_python_more. Qed.
Print Assumptions C270_all.

Example C270_example : py_strip (chars " ab ") (chars "ab") /\ str_strip (chars " ab ") (-1) = Ok (chars "ab").
Proof.
  split; [|reflexivity]. exists [" "%char], [" "%char]. split; [reflexivity|]. split; [repeat constructor|]. split; [repeat constructor|]. split.
  - intros c r' e. injection e as <- _. discriminate.
  - intros c r' e. change (chars "ab") with (["a"%char] ++ ["b"%char]) in e. apply app_inj_tail in e as (_ & <-). discriminate.
Qed.

(** to_integer(base) returns what int(s, base) returns. *)
Theorem C271_to_integer : forall p base s r, len s < INT_MAX -> str_to_integer p s base = Ok r -> py_int base s (value r).
Proof. exact to_integer_python. Qed.
Print Assumptions C271_to_integer.

(** Int(s) is int(s). *)
Theorem C271_constructor : forall cs r, int_of_chars cs = Ok r -> py_int 10 cs (value r).
Proof. exact int_of_chars_python. Qed.
Print Assumptions C271_constructor.

Example C271_example : (exists r, str_to_integer Benign (chars " -fF ") 16 = Ok r /\ value r = -255) /\ (exists r, int_of_chars (chars "+007") = Ok r /\ value r = 7).
Proof. split; eexists; split; reflexivity. Qed.

(** 1_0 *)
Theorem C272_underscore_refuted : exists s z, py_int 10 s z /\ int_of_chars s = Throw WrongIntegerLiteral /\ forall p, str_to_integer p s 10 = Throw BadIntegerLiteral.
Proof. exact not_all_texts. Qed.
Print Assumptions C272_underscore_refuted.

(** 0xf *)
Theorem C272_prefix_refuted : exists s z, py_int 16 s z /\ forall p, str_to_integer p s 16 = Throw BadIntegerLiteral.
Proof. exact prefix_only. Qed.
Print Assumptions C272_prefix_refuted.

(** Only Str::to_integer takes spaces around the number. *)
Theorem C272_blanks_refuted : exists s z, py_int 10 s z /\ int_of_chars s = Throw WrongIntegerLiteral /\ exists r, str_to_integer Benign s 10 = Ok r.
Proof. exact blanks_only. Qed.
Print Assumptions C272_blanks_refuted.

(** 1, 2 put in front of 3. *)
Theorem C273_refuted : exists w d : list Z, deq_extend_front w d <> (Ok tt, py_extendleft d w).
Proof. exact extend_front_python_refuted. Qed.
Print Assumptions C273_refuted.

(** extend_front is extendleft exactly for ranges that read the same backwards. *)
Theorem C273_exact : forall (T : Type) (w d : list T), deq_extend_front w d = (Ok tt, py_extendleft d w) <-> rev w = w.
Proof. exact @extend_front_python. Qed.
Print Assumptions C273_exact.

Example C273_example : deq_extend_front [1; 2] [3] = (Ok tt, [1; 2; 3]) /\ py_extendleft [3] [1; 2] = [2; 1; 3] /\ rev [1; 2; 1] = [1; 2; 1].
Proof. repeat split. Qed.

(** The order of the entries, and the value of a key that is given twice. *)
Theorem C274_refuted : dict_of Z.ltb [(2, 1); (1, 1)] <> py_dict Z.eqb [(2, 1); (1, 1)] /\
  dict_of Z.ltb [(1, 1); (1, 2)] = [(1, 1)] /\ py_dict Z.eqb [(1, 1); (1, 2)] = [(1, 2)].
Proof. exact of_python_refuted. Qed.
Print Assumptions C274_refuted.

(** d.update *)
Theorem C274_extend_refuted : dict_extend Z.ltb [(1, 2)] [(1, 1)] = (Ok tt, [(1, 1)]) /\ py_update Z.eqb [(1, 1)] [(1, 2)] = [(1, 2)].
Proof. exact extend_python_refuted. Qed.
Print Assumptions C274_extend_refuted.

(** The keys are iterated in the same order exactly if they were given in increasing order, apart from repetitions. *)
Theorem C274_keys_exact : forall (K V : Type) (ltk eqk : K -> K -> bool), strict_total ltk -> decides eqk -> forall xs : list (K * V),
  map fst (dict_of ltk xs) = map fst (py_dict eqk xs) <-> increasing ltk (firsts eqk (map fst xs)).
Proof. exact @keys_python. Qed.
Print Assumptions C274_keys_exact.

(** The entries are the same exactly if every key comes last with the value with which it comes first. *)
Theorem C274_values_exact : forall (K V : Type) (ltk eqk : K -> K -> bool), strict_total ltk -> decides eqk -> forall xs : list (K * V),
  (forall k x, In (k, x) (dict_of ltk xs) <-> In (k, x) (py_dict eqk xs)) <->
  (forall k x y, first_value xs k x -> last_value xs k y -> x = y).
Proof. exact @values_python. Qed.
Print Assumptions C274_values_exact.

(** Extending is constructing from both ranges. *)
Theorem C274_extend : forall (K V : Type) (ltk eqk : K -> K -> bool) (xs ys : list (K * V)),
  dict_extend ltk xs (dict_of ltk ys) = (Ok tt, dict_of ltk (ys ++ xs)) /\ py_update eqk (py_dict eqk ys) xs = py_dict eqk (ys ++ xs).
Proof. exact @extend_as_dict. Qed.
Print Assumptions C274_extend.

Example C274_example : strict_total Z.ltb /\ decides Z.eqb /\ increasing Z.ltb (firsts Z.eqb (map fst [(1, 5); (2, 6); (1, 5)])) /\
  dict_of Z.ltb [(1, 5); (2, 6); (1, 5)] = py_dict Z.eqb [(1, 5); (2, 6); (1, 5)].
Proof.
  split; [split; [apply Z.ltb_irrefl|split; intros; rewrite ?Z.ltb_lt in *; lia]|]. split; [exact Z.eqb_eq|].
  split; [cbn; repeat constructor|reflexivity].
Qed.
