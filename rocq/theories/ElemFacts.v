(** The element types of the library in containers. *)
From Coq Require Import ZArith QArith List Bool Ascii Lia Reals Lra Eqdep_dec Permutation.
From Flocq Require Import Core BinarySingleNaN.
From Verif Require Import Outcome IntModel IntSpec IntBase IntAddSub IntIO IntMore Show ShowFacts ListModel ListSpec ListProgModel
  DequeModel SetModel SetSpec DictModel DictSpec StrModel StrSpec StrMore NestModel NestFacts FloatModel FloatFacts FracModel FracSpec
  ComplexModel ComplexCases RenameSpec RenameFacts ElemSpec FracDouble.
Import ListNotations.
Open Scope Z_scope.

(** ** Int *)

Lemma int_named : forall z, exists x, repr x z.
Proof. intros z. destruct (int_of_chars_ok (show_int z) z (proj1 (show_int_spec z))) as (x & _ & R). eauto. Qed.

Definition named (z : Z) : Int := match int_of_chars (show_int z) with Ok x => x | _ => MkInt 0 [] end.
Lemma named_repr : forall z, repr (named z) z.
Proof.
  intros z. unfold named. destruct (int_of_chars_ok (show_int z) z (proj1 (show_int_spec z))) as (x & -> & R). exact R.
Qed.

Lemma int_names : exists f : Z -> Int,
  (forall z, repr (f z) z) /\ (forall x z, repr x z -> x = f z) /\
  (forall a b, int_lt (f a) (f b) = Ok (a <? b)) /\ (forall a b, int_eqb (f a) (f b) = (a =? b)) /\
  (forall a, int_print (f a) = show_int a).
Proof.
  exists named. split; [apply named_repr|]. split; [intros x z R; eapply repr_unique; eauto using named_repr|].
  split; [intros; apply int_lt_spec; apply named_repr|]. split; [intros; apply int_eqb_spec; apply named_repr|].
  intros; apply int_print_show; apply named_repr.
Qed.

Section IntNames.
Variable f : Z -> Int.
Hypothesis R : forall z, repr (f z) z.
Let lt (x y : Int) : bool := said (int_lt x y).

Lemma int_LT : forall a b, lt (f a) (f b) = (a <? b).
Proof. intros. unfold lt. rewrite (int_lt_spec _ _ a b) by auto. reflexivity. Qed.
Lemma int_EQ : forall a b, int_eqb (f a) (f b) = (a =? b).
Proof. intros. apply int_eqb_spec; auto. Qed.
Lemma int_SH : forall a, int_print (f a) = show_int a.
Proof. intros. apply int_print_show; auto. Qed.

Lemma int_lists : forall d prog prog' t s, Forall2 (lrename f) prog prog' -> renames f t s ->
  same_run f (levent_map f) (lrun Z.eqb Z.ltb show_int d prog t) (lrun int_eqb lt int_print (f d) prog' s).
Proof. intros. apply (lrun_map f int_eqb lt Z.eqb Z.ltb int_print show_int d int_EQ int_LT int_SH); auto. Qed.
Lemma int_deques : forall prog t s, renames f t s ->
  same_run f (devent_map f) (drun Z.eqb show_int prog t) (drun int_eqb int_print (map (dstmt_map f) prog) s).
Proof. intros. apply (drun_map f int_eqb Z.eqb int_print show_int int_EQ int_SH); auto. Qed.
Lemma int_sets : forall prog t s, renames f t s ->
  same_run f (tevent_map f) (trun Z.ltb Z.eqb show_int prog t) (trun lt int_eqb int_print (map (tstmt_map f) prog) s).
Proof. intros. apply (trun_map f lt Z.ltb int_LT int_eqb Z.eqb int_print show_int int_EQ int_SH); auto. Qed.
Lemma int_dicts : forall prog t s, renames (both_map f f) t s ->
  same_run (both_map f f) (mevent_map f f) (mrun Z.ltb Z.eqb Z.ltb Z.eqb show_int show_int prog t)
    (mrun lt int_eqb lt int_eqb int_print int_print (map (mstmt_map f f) prog) s).
Proof.
  intros. apply (mrun_map f f lt Z.ltb int_LT int_eqb Z.eqb lt int_eqb Z.ltb Z.eqb int_print show_int int_print show_int
    int_EQ int_LT int_EQ int_SH int_SH); auto.
Qed.
End IntNames.

(** ** Fraction *)

Lemma small_parts : forall x, small_fracb x = true -> valid x /\ Z.abs (num x) <= 32767 /\ 0 < den x <= 32767.
Proof.
  intros x. unfold small_fracb. rewrite !andb_true_iff, Z.ltb_lt, !Z.leb_le, Z.eqb_eq. intros (((A & B) & C) & D).
  split; [|lia]. repeat split; auto; unfold INT_MAX; lia.
Qed.

Lemma small_cmp : forall x y, small_fracb x = true -> small_fracb y = true ->
  frac_lt x y = Ok (qltb (qval x) (qval y)).
Proof.
  intros x y Hx Hy. destruct (small_parts x Hx) as (_ & A & B). destruct (small_parts y Hy) as (_ & C & D).
  assert (Z.abs (num x * den y) <= 32767 * 32767) by nia. assert (Z.abs (den x * num y) <= 32767 * 32767) by nia.
  unfold frac_lt, frac_cmp, chk32, in_int, bind, INT_MIN, INT_MAX.
  repeat match goal with |- context [if ?b then _ else _] => replace b with true by lia end.
  f_equal. unfold qltb, qval, Qle_bool. cbn [Qnum Qden]. rewrite !Z2Pos.id by lia.
  destruct (Z.ltb_spec (num x * den y - den x * num y) 0), (Z.leb_spec (num y * den x) (num x * den y)); auto; lia.
Qed.

Lemma small_same : forall x y, small_fracb x = true -> small_fracb y = true -> (qval x == qval y)%Q -> x = y.
Proof.
  intros x y Hx Hy E. destruct (small_parts x Hx) as (Vx & A & B). destruct (small_parts y Hy) as (Vy & C & D).
  destruct x as [a b], y as [c d]. cbn [num den] in *. unfold qval, Qeq in E. cbn [Qnum Qden num den] in E. rewrite !Z2Pos.id in E by lia.
  destruct Vx as (_ & _ & G1), Vy as (_ & _ & G2). cbn [num den] in *.
  assert (b | d) by (apply (Z.gauss b a d); [exists c; lia|rewrite Z.gcd_comm; auto]).
  assert (d | b) by (apply (Z.gauss d c b); [exists a; lia|rewrite Z.gcd_comm; auto]).
  assert (b = d) by (apply Z.divide_antisym_nonneg; auto; lia). subst d. f_equal. nia.
Qed.

Lemma small_eqb : forall x y, small_fracb x = true -> small_fracb y = true -> (frac_eqb x y = true <-> x = y).
Proof.
  intros x y Hx Hy. destruct (small_parts x Hx) as (Vx & A & B). destruct (small_parts y Hy) as (Vy & C & D).
  rewrite (cmp_eqb x y (num x * den y - den x * num y)); auto.
  - split; [|intros ->; lia]. intros E. apply small_same; auto. unfold qval, Qeq. cbn [Qnum Qden]. rewrite !Z2Pos.id by lia. lia.
  - assert (Z.abs (num x * den y) <= 32767 * 32767) by nia. assert (Z.abs (den x * num y) <= 32767 * 32767) by nia.
    unfold frac_cmp, chk32, in_int, bind, INT_MIN, INT_MAX.
    repeat match goal with |- context [if ?b then _ else _] => replace b with true by lia end. reflexivity.
Qed.

Lemma sub_inj : forall T (p : T -> bool) (x y : {a : T | p a = true}), proj1_sig x = proj1_sig y -> x = y.
Proof.
  intros T p (x & Hx) (y & Hy). cbn. intros ->. f_equal. apply UIP_dec. apply bool_dec.
Qed.

Lemma qltb_lt : forall a b, qltb a b = true <-> (a < b)%Q.
Proof.
  intros. unfold qltb. rewrite negb_true_iff. rewrite <- not_true_iff_false, Qle_bool_iff. split; [apply Qnot_le_lt|apply Qlt_not_le].
Qed.

Lemma small_in : forall x : small_frac, small_fracb (the_frac x) = true.
Proof. intros x. exact (proj2_sig x). Qed.

Lemma small_frac_total :
  strict_total (fun x y : small_frac => qltb (qval (the_frac x)) (qval (the_frac y))) /\
  decides (fun x y : small_frac => frac_eqb (the_frac x) (the_frac y)).
Proof.
  split; [split; [|split]|].
  - intros x. apply not_true_iff_false. rewrite qltb_lt. apply Qlt_irrefl.
  - intros x y z. rewrite !qltb_lt. apply Qlt_trans.
  - intros x y. rewrite !qltb_lt. destruct (Q_dec (qval (the_frac x)) (qval (the_frac y))) as [[A|A]|A]; auto.
    right; left. apply sub_inj. apply small_same; auto; apply small_in.
  - intros x y. rewrite small_eqb by apply small_in. split; [apply sub_inj|intros ->; auto].
Qed.

Section FracNames.
Let lt (x y : Fraction) : bool := said (frac_lt x y).
Let lt' (x y : small_frac) : bool := qltb (qval (the_frac x)) (qval (the_frac y)).
Let eqb' (x y : small_frac) : bool := frac_eqb (the_frac x) (the_frac y).
Let show' (x : small_frac) := frac_print (the_frac x).

Lemma frac_LT : forall a b, lt (the_frac a) (the_frac b) = lt' a b.
Proof. intros. unfold lt. rewrite small_cmp by apply small_in. reflexivity. Qed.

Lemma frac_lists : forall d prog prog' t s, Forall2 (lrename the_frac) prog prog' -> renames the_frac t s ->
  same_run the_frac (levent_map the_frac) (lrun eqb' lt' show' d prog t) (lrun frac_eqb lt frac_print (the_frac d) prog' s).
Proof. intros. apply (lrun_map the_frac frac_eqb lt eqb' lt' frac_print show' d (fun _ _ => eq_refl) frac_LT (fun _ => eq_refl)); auto. Qed.
Lemma frac_sets : forall prog t s, renames the_frac t s ->
  same_run the_frac (tevent_map the_frac) (trun lt' eqb' show' prog t) (trun lt frac_eqb frac_print (map (tstmt_map the_frac) prog) s).
Proof. intros. apply (trun_map the_frac lt lt' frac_LT frac_eqb eqb' frac_print show' (fun _ _ => eq_refl) (fun _ => eq_refl)); auto. Qed.
Lemma frac_dicts : forall prog t s, renames (both_map the_frac the_frac) t s ->
  same_run (both_map the_frac the_frac) (mevent_map the_frac the_frac) (mrun lt' eqb' lt' eqb' show' show' prog t)
    (mrun lt frac_eqb lt frac_eqb frac_print frac_print (map (mstmt_map the_frac the_frac) prog) s).
Proof.
  intros. apply (mrun_map the_frac the_frac lt lt' frac_LT frac_eqb eqb' lt frac_eqb lt' eqb' frac_print show' frac_print show'
    (fun _ _ => eq_refl) frac_LT (fun _ _ => eq_refl) (fun _ => eq_refl) (fun _ => eq_refl)); auto.
Qed.
End FracNames.

(** Comparing two elements is undefined though both are in lowest terms. *)
Lemma frac_elements_refuted : exists x y, valid x /\ valid y /\ (qval x < qval y)%Q /\
  frac_lt x y = UB SignedOverflow /\ frac_lt y x = UB SignedOverflow.
Proof.
  exists (Frac 1 2147483647), (Frac 2 2147483647). repeat split; try (vm_compute; congruence).
Qed.
(** Two different elements that a list takes for one. *)
Lemma frac_uniquify_refuted : exists x y, valid x /\ valid y /\ ~ (qval x == qval y)%Q /\
  snd (list_uniquify frac_eqb [x; y]) = [x] /\ list_count frac_eqb [x; y] x = 2.
Proof.
  exists (Frac 2147483647 2147483646), (Frac 2147483646 2147483645). repeat split; try (vm_compute; congruence).
Qed.

(** ** Str *)

Definition str_ltb (x y : list ascii) : bool := match str_cmp x y with Lt => true | _ => false end.
Lemma str_total : strict_total str_ltb /\ decides str_eqb.
Proof.
  destruct str_order as (C & I & Tr). split; [|exact str_eqb_spec]. unfold str_ltb.
  assert (L: forall x y, (match str_cmp x y with Lt => true | _ => false end) = true <-> lex_lt byte_lt x y).
  { intros x y. pose proof (C x y) as K. destruct K as [E|E|E]; split; auto; try discriminate; intros H; exfalso.
    - subst. apply (I y H). - apply (I x). eauto. }
  split; [|split].
  - intros x. apply not_true_iff_false. rewrite L. auto.
  - intros x y z. rewrite !L. apply Tr.
  - intros x y. rewrite !L. destruct (C x y); auto.
Qed.

(** ** Complex *)

Lemma complex_uniquify_refuted : exists a b c : Complex,
  Permutation [a; b; c] [b; a; c] /\
  length (snd (list_uniquify cx_eqb [a; b; c])) = 2%nat /\ length (snd (list_uniquify cx_eqb [b; a; c])) = 1%nat.
Proof.
  exists (cx_of d0), (cx_of half_eps), (cx_of one_eps). split; [constructor|]. split; vm_compute; reflexivity.
Qed.
Lemma complex_find_refuted : exists x : Complex, list_count cx_eqb [x] x = 0 /\
  list_index cx_eqb [x] x 0 INT_MAX = Ok (-1) /\ list_eqb cx_eqb [x] [x] = false.
Proof. exists (cx_of cinf). repeat split; vm_compute; reflexivity. Qed.

(** ** double *)

Lemma double_not_order : ~ strict_weak dltb.
Proof.
  intros (_ & _ & W). destruct (W (double_of_Z 0) (double_of_Z 1) cnan) as [H|H]; [vm_compute; reflexivity|..]; vm_compute in H; discriminate.
Qed.
Lemma double_nan_list : list_eqb deqb [cnan] [cnan] = false /\ list_index deqb [cnan] cnan 0 INT_MAX = Ok (-1) /\
  list_count deqb [cnan] cnan = 0.
Proof. repeat split; vm_compute; reflexivity. Qed.
Lemma double_nan_set : forall x, set_of dltb [cnan; x] = [cnan] /\ set_of dltb [x; cnan] = [x].
Proof.
  intros x. assert (A: dltb cnan x = false) by reflexivity. assert (B: dltb x cnan = false) by (destruct x as [[]|[]| |[]]; reflexivity).
  unfold set_of. unfold std_insert_range. cbn [fold_left]. unfold std_insert. cbn [lower_bound snd app]. rewrite A. cbn [snd]. rewrite ?B, ?A. auto.
Qed.
(** Which zero a set keeps depends on the order of the insertions. *)
Lemma double_zero_set : let z := B754_zero false : double in let nz := B754_zero true : double in
  set_of dltb [z; nz] = [z] /\ set_of dltb [nz; z] = [nz] /\ z <> nz.
Proof. cbv zeta. repeat split; discriminate. Qed.

(** Negative infinity, finite, positive infinity; the value inside the middle class. *)
Definition class (x : double) : Z := match x with B754_infinity true => -1 | B754_infinity false => 1 | _ => 0 end.
Lemma plain_lt : forall x y, plainb x = true -> plainb y = true ->
  (dltb x y = true <-> class x < class y \/ class x = 0 /\ class y = 0 /\ (B2R x < B2R y)%R).
Proof.
  intros x y Hx Hy. assert (E: forall a, is_finite a = true -> class a = 0) by (intros [[]|[]| |[]]; cbn; auto; discriminate).
  destruct (is_finite x) eqn:Fx; [destruct (is_finite y) eqn:Fy|].
  - unfold dltb. rewrite Bltb_correct, !E by auto. destruct (Rlt_bool_spec (B2R x) (B2R y)) as [L|L]; split; auto.
    + discriminate.
    + intros [K|(_ & _ & K)]; [lia|lra].
  - destruct x as [sx|sx| |sx mx ex bx], y as [sy|sy| |sy my ey by_]; try discriminate; destruct sx, sy; cbn;
      (split; [first [discriminate|intros _; left; reflexivity]|first [reflexivity|intros [K|(K1 & K2 & K)]; lia]]).
  - destruct x as [sx|sx| |sx mx ex bx], y as [sy|sy| |sy my ey by_]; try discriminate; destruct sx; try destruct sy; cbn;
      (split; [first [discriminate|intros _; left; reflexivity]|first [reflexivity|intros [K|(K1 & K2 & K)]; lia]]).
Qed.
Lemma plain_same : forall x y, plainb x = true -> plainb y = true -> class x = class y -> B2R x = B2R y -> x = y.
Proof.
  assert (N: forall s m e b, B2R (B754_finite s m e b : double) <> 0%R).
  { intros s m e b H. pose proof (abs_B2R_ge_emin 53 1024 (B754_finite s m e b) eq_refl) as K. cbn [B2R] in *.
    rewrite H, Rabs_R0 in K. pose proof (bpow_gt_0 radix2 (SpecFloat.emin 53 1024)). lra. }
  intros x y Hx Hy C R.
  destruct x as [[]|[]| |sx mx ex bx], y as [[]|[]| |sy my ey by_]; try discriminate; try (destruct sx; discriminate); try (destruct sy; discriminate); auto.
  - exfalso. symmetry in R. exact (N _ _ _ _ R).
  - exfalso. exact (N _ _ _ _ R).
  - apply B2R_inj; auto.
Qed.

Lemma plain_in : forall x : plain, plainb (the_double x) = true.
Proof. intros x. exact (proj2_sig x). Qed.
Lemma class_range : forall x, class x = -1 \/ class x = 0 \/ class x = 1.
Proof. intros [|[]| |]; cbn; auto. Qed.
Lemma class_inf : forall x, class x <> 0 -> B2R x = 0%R.
Proof. intros [|[]| |]; cbn; intros; auto; lia. Qed.

Lemma plain_eq : forall x y, plainb x = true -> plainb y = true -> (deqb x y = true <-> x = y).
Proof.
  intros x y Hx Hy. split.
  - intros E. destruct (is_finite x) eqn:Fx; [destruct (is_finite y) eqn:Fy|].
    + unfold deqb in E. rewrite Beqb_correct in E by auto. destruct (Req_bool_spec (B2R x) (B2R y)); [|discriminate].
      apply plain_same; auto. destruct x as [[]|[]| |[]], y as [[]|[]| |[]]; auto; discriminate.
    + destruct x as [[]|[]| |[]], y as [[]|[]| |[]]; discriminate.
    + destruct x as [[]|[]| |[]], y as [[]|[]| |[]]; auto; discriminate.
  - intros <-. unfold deqb. rewrite Beqb_refl. destruct x; auto; discriminate.
Qed.

Lemma plain_total :
  strict_total (fun x y : plain => dltb (the_double x) (the_double y)) /\
  decides (fun x y : plain => deqb (the_double x) (the_double y)).
Proof.
  split; [split; [|split]|].
  - intros x. apply not_true_iff_false. rewrite plain_lt by apply plain_in. intros [|(_ & _ & ?)]; [lia|lra].
  - intros x y z. rewrite !plain_lt by apply plain_in. intros [A|(A & A1 & A2)] [B|(B & B1 & B2)]; [left|left|left|right]; try lia.
    repeat split; auto. lra.
  - intros x y. rewrite !plain_lt by apply plain_in.
    destruct (Z.lt_trichotomy (class (the_double x)) (class (the_double y))) as [|[E|]]; auto.
    destruct (Z.eq_dec (class (the_double x)) 0) as [Z0|Z0].
    + destruct (Rtotal_order (B2R (the_double x)) (B2R (the_double y))) as [|[|]].
      * left. right. repeat split; auto. congruence.
      * right; left. apply sub_inj. apply plain_same; auto; apply plain_in.
      * right; right. right. repeat split; auto. congruence.
    + right; left. apply sub_inj. apply plain_same; auto; try apply plain_in.
      change (proj1_sig x) with (the_double x). change (proj1_sig y) with (the_double y). rewrite !class_inf by congruence. auto.
  - intros x y. rewrite plain_eq by apply plain_in. split; [apply sub_inj|intros ->; auto].
Qed.

Section DoubleNames.
Variable show : double -> list ascii.
Let lt' (x y : plain) : bool := dltb (the_double x) (the_double y).
Let eqb' (x y : plain) : bool := deqb (the_double x) (the_double y).
Let show' (x : plain) := show (the_double x).

Lemma double_lists : forall d prog prog' t s, Forall2 (lrename the_double) prog prog' -> renames the_double t s ->
  same_run the_double (levent_map the_double) (lrun eqb' lt' show' d prog t) (lrun deqb dltb show (the_double d) prog' s).
Proof. intros. apply (lrun_map the_double deqb dltb eqb' lt' show show' d (fun _ _ => eq_refl) (fun _ _ => eq_refl) (fun _ => eq_refl)); auto. Qed.
Lemma double_sets : forall prog t s, renames the_double t s ->
  same_run the_double (tevent_map the_double) (trun lt' eqb' show' prog t) (trun dltb deqb show (map (tstmt_map the_double) prog) s).
Proof. intros. apply (trun_map the_double dltb lt' (fun _ _ => eq_refl) deqb eqb' show show' (fun _ _ => eq_refl) (fun _ => eq_refl)); auto. Qed.
Lemma double_dicts : forall prog t s, renames (both_map the_double the_double) t s ->
  same_run (both_map the_double the_double) (mevent_map the_double the_double) (mrun lt' eqb' lt' eqb' show' show' prog t)
    (mrun dltb deqb dltb deqb show show (map (mstmt_map the_double the_double) prog) s).
Proof.
  intros. apply (mrun_map the_double the_double dltb lt' (fun _ _ => eq_refl) deqb eqb' dltb deqb lt' eqb' show show' show show'
    (fun _ _ => eq_refl) (fun _ _ => eq_refl) (fun _ _ => eq_refl) (fun _ => eq_refl) (fun _ => eq_refl)); auto.
Qed.
End DoubleNames.
