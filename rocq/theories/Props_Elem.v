(** Properties C163-C171: Fraction as double, and the element types of the library in containers. Theorems
    only; each is an instance of a lemma proved elsewhere and is followed by its assumptions and by a
    concrete case. *)
From Coq Require Import ZArith QArith Qreals Reals Ascii String List Bool Lia Permutation.
From Flocq Require Import Core BinarySingleNaN.
From Verif Require Import Outcome IntModel IntSpec Show ListModel ListSpec ListProgModel DequeModel SetModel SetSpec DictModel DictSpec
  StrModel StrSpec FloatModel FloatFacts FracModel FracSpec ComplexModel ComplexCases RenameSpec ElemSpec
  FracMore FracDouble FracEqual RenameFacts ElemFacts ExTools.
Import ListNotations.
Open Scope Z_scope.

(** One rounding, to nearest even. *)
Theorem C163_correctly_rounded : forall x, valid x ->
  is_finite (frac_double x) = true /\ B2R (frac_double x) = drnd (Q2R (qval x)).
Proof. exact to_double. Qed.
Print Assumptions C163_correctly_rounded.

(** No double is closer. *)
Theorem C163_nearest : forall x (d : double), valid x -> is_finite d = true ->
  (Rabs (B2R (frac_double x) - Q2R (qval x)) <= Rabs (B2R d - Q2R (qval x)))%R.
Proof. exact to_double_nearest. Qed.
Print Assumptions C163_nearest.

Theorem C163_error : forall x, valid x ->
  (Rabs (B2R (frac_double x) - Q2R (qval x)) <= / IZR (2 ^ 53) * Rabs (Q2R (qval x)))%R.
Proof. exact to_double_err. Qed.
Print Assumptions C163_error.

Theorem C163_monotone : forall x y, valid x -> valid y -> (qval x <= qval y)%Q ->
  dleb (frac_double x) (frac_double y) = true.
Proof. exact to_double_mono. Qed.
Print Assumptions C163_monotone.

(** Exact when the denominator is a power of two. *)
Theorem C163_exact : forall x k, valid x -> 0 <= k -> den x = 2 ^ k ->
  B2R (frac_double x) = Q2R (qval x).
Proof. exact to_double_dyadic. Qed.
Print Assumptions C163_exact.

Theorem C163_sign : forall x, valid x ->
  (dltb (frac_double x) (double_of_Z 0) = true <-> (qval x < 0)%Q) /\
  (dltb (double_of_Z 0) (frac_double x) = true <-> (0 < qval x)%Q) /\
  (deqb (frac_double x) (double_of_Z 0) = true <-> (qval x == 0)%Q).
Proof. exact to_double_sign. Qed.
Print Assumptions C163_sign.

Example C163_case : valid (Frac (-3) 8) /\ den (Frac (-3) 8) = 2 ^ 3 /\
  deqb (dmul (frac_double (Frac (-3) 8)) (double_of_Z 8)) (double_of_Z (-3)) = true /\
  valid (Frac 1 3) /\ (qval (Frac (-3) 8) <= qval (Frac 1 3))%Q.
Proof. repeat split; try (vm_compute; congruence). Qed.

(** Both relations are defined or neither is; if they are, exactly one of x < y, x == y, x > y holds. *)
Theorem C164_trichotomy : forall x y, valid x -> valid y ->
  (exists l g, frac_lt x y = Ok l /\ frac_gt x y = Ok g /\
    ((l = true /\ frac_eqb x y = false /\ g = false) \/
     (l = false /\ frac_eqb x y = true /\ g = false) \/
     (l = false /\ frac_eqb x y = false /\ g = true))) \/
  (frac_lt x y = UB SignedOverflow /\ frac_gt x y = UB SignedOverflow).
Proof. exact trichotomy. Qed.
Print Assumptions C164_trichotomy.

Example C164_case : let x := Frac 46340 46339 in let y := Frac 46339 46338 in
  valid x /\ valid y /\ frac_lt x y = Ok true /\ frac_eqb x y = false /\ frac_gt x y = Ok false.
Proof. cbv zeta. repeat split; try (vm_compute; congruence). Qed.

(** == holds exactly when the two rationals round to the same double. *)
Theorem C41_exact : forall x y, valid x -> valid y ->
  (frac_eqb x y = true <-> drnd (Q2R (qval x)) = drnd (Q2R (qval y))).
Proof. exact eq_rounded. Qed.
Print Assumptions C41_exact.

(** It is an equivalence. *)
Theorem C41_equivalence : (forall x, valid x -> frac_eqb x x = true) /\ (forall x y, valid x -> valid y -> frac_eqb x y = frac_eqb y x) /\
  (forall x y z, valid x -> valid y -> valid z -> frac_eqb x y = true -> frac_eqb y z = true -> frac_eqb x z = true).
Proof. exact eq_equivalence. Qed.
Print Assumptions C41_equivalence.

(** What lies between equal Fractions is equal to both. *)
Theorem C41_between : forall x y z, valid x -> valid y -> valid z -> (qval x <= qval y)%Q -> (qval y <= qval z)%Q ->
  frac_eqb x z = true -> frac_eqb x y = true /\ frac_eqb y z = true.
Proof. exact eq_between. Qed.
Print Assumptions C41_between.

(** Fractions that compare equal differ by at most 2^-53 of the sum of their magnitudes. *)
Theorem C41_close : forall x y, valid x -> valid y -> frac_eqb x y = true ->
  (Rabs (Q2R (qval x) - Q2R (qval y)) <= / IZR (2 ^ 53) * (Rabs (Q2R (qval x)) + Rabs (Q2R (qval y))))%R.
Proof. exact eq_close. Qed.
Print Assumptions C41_close.

Example C41_case_between : let x := Frac 2147483644 2147483643 in let y := Frac 2147483645 2147483644 in let z := Frac 2147483646 2147483645 in
  valid x /\ valid y /\ valid z /\ (qval z < qval y)%Q /\ (qval y < qval x)%Q /\ frac_eqb x z = true /\ frac_eqb x y = true /\ frac_eqb y z = true /\
  frac_eqb (Frac 1 3) (Frac 33333333 100000000) = false.
Proof. cbv zeta. repeat match goal with |- _ /\ _ => split end; try (apply valid_check; vm_compute; reflexivity); vm_compute; reflexivity. Qed.

(** libstdc++: the hash of an int is the int as a 64-bit word. *)
Theorem C165_hash_refuted : let h := frac_hash (fun z => z mod 2 ^ 64) Z.lxor (fun z => z * 2 mod 2 ^ 64) in
  let x := Frac 2147483647 2147483646 in let y := Frac 2147483646 2147483645 in
  valid x /\ valid y /\ frac_eqb x y = true /\ h x <> h y.
Proof. exact hash_witness. Qed.
Print Assumptions C165_hash_refuted.

(** Whatever std::hash<int> is. *)
Theorem C165_moderate : forall hi lx sh x y, valid x -> valid y ->
  Z.abs (num x * den y) < 2 ^ 52 -> Z.abs (num y * den x) < 2 ^ 52 ->
  frac_eqb x y = true -> frac_hash hi lx sh x = frac_hash hi lx sh y.
Proof. exact hash_moderate. Qed.
Print Assumptions C165_moderate.

Example C165_case : let x := Frac 1000000 999999 in
  valid x /\ Z.abs (num x * den x) < 2 ^ 52 /\ frac_eqb x x = true.
Proof. cbv zeta. repeat split; try (vm_compute; congruence). Qed.

(** f preserves ==, < and printing; then a program on lists of renamed elements does what the original does, renamed. *)
Theorem C166_lists : forall (U T : Type) (f : U -> T) eqb lt eqb' lt' show show' (d : U),
  (forall a b, eqb (f a) (f b) = eqb' a b) -> (forall a b, lt (f a) (f b) = lt' a b) -> (forall a, show (f a) = show' a) ->
  forall prog prog' (t : lstore U) (s : lstore T), Forall2 (lrename f) prog prog' -> renames f t s ->
  same_run f (levent_map f) (lrun eqb' lt' show' d prog t) (lrun eqb lt show (f d) prog' s).
Proof. exact @lrun_map. Qed.
Print Assumptions C166_lists.

Theorem C166_deques : forall (U T : Type) (f : U -> T) eqb eqb' show show',
  (forall a b, eqb (f a) (f b) = eqb' a b) -> (forall a, show (f a) = show' a) ->
  forall prog (t : dstore U) (s : dstore T), renames f t s ->
  same_run f (devent_map f) (drun eqb' show' prog t) (drun eqb show (map (dstmt_map f) prog) s).
Proof. exact @drun_map. Qed.
Print Assumptions C166_deques.

(** Only a total order makes this C70; here any < will do. *)
Theorem C166_sets : forall (U T : Type) (f : U -> T) lt lt', (forall a b, lt (f a) (f b) = lt' a b) ->
  forall eqb eqb' show show', (forall a b, eqb (f a) (f b) = eqb' a b) -> (forall a, show (f a) = show' a) ->
  forall prog (t : tstore U) (s : tstore T), renames f t s ->
  same_run f (tevent_map f) (trun lt' eqb' show' prog t) (trun lt eqb show (map (tstmt_map f) prog) s).
Proof. exact @trun_map. Qed.
Print Assumptions C166_sets.

Theorem C166_dicts : forall (K K' V V' : Type) (f : K -> K') (g : V -> V') ltk ltk', (forall a b, ltk (f a) (f b) = ltk' a b) ->
  forall eqk eqk' ltv eqv ltv' eqv' showk showk' showv showv',
  (forall a b, eqk (f a) (f b) = eqk' a b) -> (forall a b, ltv (g a) (g b) = ltv' a b) -> (forall a b, eqv (g a) (g b) = eqv' a b) ->
  (forall a, showk (f a) = showk' a) -> (forall a, showv (g a) = showv' a) ->
  forall prog (t : mstore K V) (s : mstore K' V'), renames (both_map f g) t s ->
  same_run (both_map f g) (mevent_map f g) (mrun ltk' eqk' ltv' eqv' showk' showv' prog t)
    (mrun ltk eqk ltv eqv showk showv (map (mstmt_map f g) prog) s).
Proof. exact @mrun_map. Qed.
Print Assumptions C166_dicts.

Example C166_case : let f := fun z => 2 * z in
  (forall a b, (f a =? f b) = (a =? b)) /\ (forall a b, (f a <? f b) = (a <? b)) /\
  (forall a, show_int (f a / 2) = show_int a) /\
  exists s t,
  lrun Z.eqb Z.ltb show_int 0 [LInit 1%nat [3; 1; 3; 2]; LUniquify 1%nat; LSort 1%nat; LGet 1%nat 2; LPrint 1%nat] (fun _ => []) =
    Ok (t, [LElem 3; LText (chars "[1, 2, 3]")]) /\
  lrun Z.eqb Z.ltb (fun z => show_int (z / 2)) (f 0) [LInit 1%nat [6; 2; 6; 4]; LUniquify 1%nat; LSort 1%nat; LGet 1%nat 2; LPrint 1%nat] (fun _ => []) =
    Ok (s, [LElem 6; LText (chars "[1, 2, 3]")]) /\ s 1%nat = [2; 4; 6] /\ t 1%nat = [1; 2; 3].
Proof.
  cbv zeta. split; [intros; lia|]. split; [intros; lia|]. split; [intros; f_equal; rewrite Z.mul_comm; apply Z.div_mul; lia|].
  eexists; eexists. split; [vm_compute; reflexivity|]. split; [vm_compute; reflexivity|]. split; vm_compute; reflexivity.
Qed.

(** Every integer has exactly one Int, and the operators a container uses are those of the integers. *)
Theorem C167_names : exists f : Z -> Int,
  (forall z, repr (f z) z) /\ (forall x z, repr x z -> x = f z) /\
  (forall a b, int_lt (f a) (f b) = Ok (a <? b)) /\ (forall a b, int_eqb (f a) (f b) = (a =? b)) /\
  (forall a, int_print (f a) = show_int a).
Proof. exact int_names. Qed.
Print Assumptions C167_names.

Theorem C167_lists : forall f : Z -> Int, (forall z, repr (f z) z) -> forall d prog prog' t s, Forall2 (lrename f) prog prog' -> renames f t s ->
  same_run f (levent_map f) (lrun Z.eqb Z.ltb show_int d prog t)
    (lrun int_eqb (fun x y => said (int_lt x y)) int_print (f d) prog' s).
Proof. exact int_lists. Qed.
Print Assumptions C167_lists.

Theorem C167_deques : forall f : Z -> Int, (forall z, repr (f z) z) -> forall prog t s, renames f t s ->
  same_run f (devent_map f) (drun Z.eqb show_int prog t) (drun int_eqb int_print (map (dstmt_map f) prog) s).
Proof. exact int_deques. Qed.
Print Assumptions C167_deques.

Theorem C167_sets : forall f : Z -> Int, (forall z, repr (f z) z) -> forall prog t s, renames f t s ->
  same_run f (tevent_map f) (trun Z.ltb Z.eqb show_int prog t)
    (trun (fun x y => said (int_lt x y)) int_eqb int_print (map (tstmt_map f) prog) s).
Proof. exact int_sets. Qed.
Print Assumptions C167_sets.

Theorem C167_dicts : forall f : Z -> Int, (forall z, repr (f z) z) -> forall prog t s, renames (both_map f f) t s ->
  same_run (both_map f f) (mevent_map f f) (mrun Z.ltb Z.eqb Z.ltb Z.eqb show_int show_int prog t)
    (mrun (fun x y => said (int_lt x y)) int_eqb (fun x y => said (int_lt x y)) int_eqb int_print int_print (map (mstmt_map f f) prog) s).
Proof. exact int_dicts. Qed.
Print Assumptions C167_dicts.

Example C167_case : let i := fun s : string => match int_of_chars (chars s) with Ok x => x | _ => MkInt 0 [] end in exists s,
  trun (fun x y => said (int_lt x y)) int_eqb int_print
    [TInit 1%nat [i "100000000000000000000"%string; i "-7"%string; i "99999999999999999999"%string; i "-7"%string; i "+007"%string]; TMax 1%nat; TPrint 1%nat] (fun _ => []) =
  Ok (s, [TElem (i "100000000000000000000"%string); TText (chars "{-7, 7, 99999999999999999999, 100000000000000000000}")]).
Proof. cbv zeta. eexists. vm_compute. reflexivity. Qed.

(** Comparing two elements can overflow. *)
Theorem C168_order_refuted : exists x y, valid x /\ valid y /\ (qval x < qval y)%Q /\
  frac_lt x y = UB SignedOverflow /\ frac_lt y x = UB SignedOverflow.
Proof. exact frac_elements_refuted. Qed.
Print Assumptions C168_order_refuted.

(** Two different elements taken for one. *)
Theorem C168_uniquify_refuted : exists x y, valid x /\ valid y /\ ~ (qval x == qval y)%Q /\
  snd (list_uniquify frac_eqb [x; y]) = [x] /\ list_count frac_eqb [x; y] x = 2.
Proof. exact frac_uniquify_refuted. Qed.
Print Assumptions C168_uniquify_refuted.

(** For small parts the comparison is defined and is that of the rationals. *)
Theorem C168_small_order : forall x y, small_fracb x = true -> small_fracb y = true ->
  frac_lt x y = Ok (qltb (qval x) (qval y)).
Proof. exact small_cmp. Qed.
Print Assumptions C168_small_order.

(** So it is a total order, and == is equality: C66, C70 and C74 apply. *)
Theorem C168_small_total : strict_total (fun x y : small_frac => qltb (qval (the_frac x)) (qval (the_frac y))) /\
  decides (fun x y : small_frac => frac_eqb (the_frac x) (the_frac y)).
Proof. exact small_frac_total. Qed.
Print Assumptions C168_small_total.

Theorem C168_small_lists : forall d prog prog' t s, Forall2 (lrename the_frac) prog prog' -> renames the_frac t s ->
  same_run the_frac (levent_map the_frac)
    (lrun (fun x y => frac_eqb (the_frac x) (the_frac y)) (fun x y => qltb (qval (the_frac x)) (qval (the_frac y))) (fun x => frac_print (the_frac x)) d prog t)
    (lrun frac_eqb (fun x y => said (frac_lt x y)) frac_print (the_frac d) prog' s).
Proof. exact frac_lists. Qed.
Print Assumptions C168_small_lists.

Theorem C168_small_sets : forall prog t s, renames the_frac t s ->
  same_run the_frac (tevent_map the_frac)
    (trun (fun x y => qltb (qval (the_frac x)) (qval (the_frac y))) (fun x y => frac_eqb (the_frac x) (the_frac y)) (fun x => frac_print (the_frac x)) prog t)
    (trun (fun x y => said (frac_lt x y)) frac_eqb frac_print (map (tstmt_map the_frac) prog) s).
Proof. exact frac_sets. Qed.
Print Assumptions C168_small_sets.

Theorem C168_small_dicts : forall prog t s, renames (both_map the_frac the_frac) t s ->
  same_run (both_map the_frac the_frac) (mevent_map the_frac the_frac)
    (mrun (fun x y => qltb (qval (the_frac x)) (qval (the_frac y))) (fun x y => frac_eqb (the_frac x) (the_frac y))
          (fun x y => qltb (qval (the_frac x)) (qval (the_frac y))) (fun x y => frac_eqb (the_frac x) (the_frac y))
          (fun x => frac_print (the_frac x)) (fun x => frac_print (the_frac x)) prog t)
    (mrun (fun x y => said (frac_lt x y)) frac_eqb (fun x y => said (frac_lt x y)) frac_eqb frac_print frac_print
          (map (mstmt_map the_frac the_frac) prog) s).
Proof. exact frac_dicts. Qed.
Print Assumptions C168_small_dicts.

Example C168_case : small_fracb (Frac (-32767) 32766) = true /\ small_fracb (Frac 1 2) = true /\ exists s,
  trun (fun x y => said (frac_lt x y)) frac_eqb frac_print
    [TInit 1%nat [Frac 1 2; Frac (-32767) 32766; Frac 1 2; Frac 3 1]; TPrint 1%nat] (fun _ => []) =
  Ok (s, [TText (chars "{-32767/32766, 1/2, 3}")]).
Proof. split; [reflexivity|]. split; [reflexivity|]. eexists. vm_compute. reflexivity. Qed.

(** The order by bytes is total and == is equality, so C66, C70 and C74 apply to Str. *)
Theorem C169_total : strict_total (fun x y => match str_cmp x y with Lt => true | _ => false end) /\ decides str_eqb.
Proof. exact str_total. Qed.
Print Assumptions C169_total.

Example C169_case : let lt := fun x y => match str_cmp x y with Lt => true | _ => false end in exists s,
  trun lt str_eqb (fun x => x) [TInit 1%nat [chars "b"; chars "ab"; chars ""; chars "B"; chars "ab"]; TPrint 1%nat; TContains 1%nat (chars "B")] (fun _ => []) =
  Ok (s, [TText (chars "{, B, ab, b}"); TBool true]).
Proof. cbv zeta. eexists. vm_compute. reflexivity. Qed.

(** == is not transitive, so the number of elements left depends on their order. *)
Theorem C170_uniquify_refuted : exists a b c : Complex,
  Permutation [a; b; c] [b; a; c] /\
  length (snd (list_uniquify cx_eqb [a; b; c])) = 2%nat /\ length (snd (list_uniquify cx_eqb [b; a; c])) = 1%nat.
Proof. exact complex_uniquify_refuted. Qed.
Print Assumptions C170_uniquify_refuted.

(** An element is not found in the list that consists of it, and that list differs from itself. *)
Theorem C170_find_refuted : exists x : Complex, list_count cx_eqb [x] x = 0 /\
  list_index cx_eqb [x] x 0 INT_MAX = Ok (-1) /\ list_eqb cx_eqb [x] [x] = false.
Proof. exact complex_find_refuted. Qed.
Print Assumptions C170_find_refuted.

(** Precondition of std::stable_sort, std::set and std::map. *)
Theorem C171_order_refuted : ~ strict_weak dltb.
Proof. exact double_not_order. Qed.
Print Assumptions C171_order_refuted.

Theorem C171_nan_list_refuted : list_eqb deqb [cnan] [cnan] = false /\ list_index deqb [cnan] cnan 0 INT_MAX = Ok (-1) /\
  list_count deqb [cnan] cnan = 0.
Proof. exact double_nan_list. Qed.
Print Assumptions C171_nan_list_refuted.

(** NaN counts as equal to everything. *)
Theorem C171_nan_set_refuted : forall x,
  set_of dltb [cnan; x] = [cnan] /\ set_of dltb [x; cnan] = [x].
Proof. exact double_nan_set. Qed.
Print Assumptions C171_nan_set_refuted.

(** Which zero is kept, and printed, depends on the order of insertion. *)
Theorem C171_zero_set_refuted : let z := B754_zero false : double in let nz := B754_zero true : double in
  set_of dltb [z; nz] = [z] /\ set_of dltb [nz; z] = [nz] /\ z <> nz.
Proof. exact double_zero_set. Qed.
Print Assumptions C171_zero_set_refuted.

(** Without NaN and negative zero, infinities included. *)
Theorem C171_plain_total : strict_total (fun x y : plain => dltb (the_double x) (the_double y)) /\
  decides (fun x y : plain => deqb (the_double x) (the_double y)).
Proof. exact plain_total. Qed.
Print Assumptions C171_plain_total.

Theorem C171_plain_lists : forall show d prog prog' t s, Forall2 (lrename the_double) prog prog' -> renames the_double t s ->
  same_run the_double (levent_map the_double)
    (lrun (fun x y => deqb (the_double x) (the_double y)) (fun x y => dltb (the_double x) (the_double y)) (fun x => show (the_double x)) d prog t)
    (lrun deqb dltb show (the_double d) prog' s).
Proof. exact double_lists. Qed.
Print Assumptions C171_plain_lists.

Theorem C171_plain_sets : forall show prog t s, renames the_double t s ->
  same_run the_double (tevent_map the_double)
    (trun (fun x y => dltb (the_double x) (the_double y)) (fun x y => deqb (the_double x) (the_double y)) (fun x => show (the_double x)) prog t)
    (trun dltb deqb show (map (tstmt_map the_double) prog) s).
Proof. exact double_sets. Qed.
Print Assumptions C171_plain_sets.

Theorem C171_plain_dicts : forall show prog t s, renames (both_map the_double the_double) t s ->
  same_run (both_map the_double the_double) (mevent_map the_double the_double)
    (mrun (fun x y => dltb (the_double x) (the_double y)) (fun x y => deqb (the_double x) (the_double y))
          (fun x y => dltb (the_double x) (the_double y)) (fun x y => deqb (the_double x) (the_double y))
          (fun x => show (the_double x)) (fun x => show (the_double x)) prog t)
    (mrun dltb deqb dltb deqb show show (map (mstmt_map the_double the_double) prog) s).
Proof. exact double_dicts. Qed.
Print Assumptions C171_plain_dicts.

Example C171_case : plainb (B754_infinity true) = true /\ plainb (double_of_Z (-3)) = true /\ plainb (double_of_Z 0) = true /\
  size (set_of dltb [double_of_Z 0; B754_infinity true; double_of_Z (-3); double_of_Z 0]) = 3.
Proof. repeat split; vm_compute; reflexivity. Qed.
