(** Searching a sorted List by halving: C287. *)
From Coq Require Import ZArith List Bool Lia Sorted.
From Verif Require Import Outcome IntModel ListModel ListSpec ListFacts SetSpec BisectModel.
Import ListNotations.
Open Scope Z_scope.

Section Bisect.
Context {T : Type} (lt : T -> T -> bool) (x : T).

Lemma at_split : forall (l : list T) i, len l <= INT_MAX -> 0 <= i < len l -> exists a e b, l = a ++ e :: b /\ len a = i /\ list_at l i = Ok e.
Proof.
  intros l i L I. destruct (nth_error l (Z.to_nat i)) as [e|] eqn:E.
  - apply nth_error_split in E as (a & b & -> & La). assert (Ha: len a = i) by (unfold len; lia). exists a, e, b. split; auto. split; auto.
    unfold list_at. rewrite neg_size, size_ok by lia. cbn [bind]. rewrite check_bounds_ok by lia. cbn [bind].
    rewrite from_end_ok by lia. unfold from_back. destruct (Z.ltb_spec i 0); [lia|]. cbn [bind]. rewrite <- Ha. apply vat_ok.
  - apply nth_error_None in E. unfold len in *. lia.
Qed.

(** Where the elements before and after a place differ. *)
Lemma side : forall (a b : list T) a' e b', Forall (fun y => lt y x = true) a -> Forall (fun y => lt y x = false) b -> a ++ b = a' ++ e :: b' ->
  if lt e x then len a' < len a else len a <= len a'.
Proof.
  intros a b a' e b' A B E. apply app_eq_app in E as (m & [(-> & E)|(-> & E)]).
  - destruct m as [|y m]; cbn [app] in E.
    + subst b. rewrite app_nil_r. inversion B as [|? ? He]; subst. rewrite He. lia.
    + injection E as <- E. rewrite Forall_app in A. destruct A as (_ & A). inversion A as [|? ? He]; subst. rewrite He. unfold len. rewrite app_length. cbn [length]. lia.
  - subst b. rewrite Forall_app in B. destruct B as (_ & B). inversion B as [|? ? He]; subst. rewrite He. unfold len. rewrite app_length. lia.
Qed.

Lemma bisect_run : forall a b, Forall (fun y => lt y x = true) a -> Forall (fun y => lt y x = false) b -> len (a ++ b) <= INT_MAX ->
  forall f lo hi, 0 <= lo <= len a -> len a <= hi <= len (a ++ b) -> hi - lo < 2 ^ Z.of_nat f -> bisect lt f (a ++ b) x lo hi = Ok (len a).
Proof.
  intros a b A B L. induction f as [|f IH]; intros lo hi Lo Hi W.
  - change (2 ^ Z.of_nat 0) with 1 in W. cbn [bisect]. destruct (Z.ltb_spec lo hi); [lia|]. f_equal. lia.
  - cbn [bisect]. destruct (Z.ltb_spec lo hi) as [H|H]; [|f_equal; lia].
    replace (2 ^ Z.of_nat (S f)) with (2 * 2 ^ Z.of_nat f) in W by (rewrite Nat2Z.inj_succ, Z.pow_succ_r; lia).
    assert (Q: Z.quot (hi - lo) 2 = (hi - lo) / 2) by (apply Z.quot_div_nonneg; lia).
    pose proof (Z.div_mod (hi - lo) 2 ltac:(lia)). pose proof (Z.mod_pos_bound (hi - lo) 2 ltac:(lia)).
    rewrite chk32_ok by (unfold INT_MIN, INT_MAX in *; lia). cbn [bind]. rewrite Q. set (h := (hi - lo) / 2) in *.
    rewrite chk32_ok by (unfold INT_MIN, INT_MAX in *; lia). cbn [bind].
    destruct (at_split (a ++ b) (lo + h) L ltac:(lia)) as (a' & e & b' & E & La & ->). cbn [bind].
    pose proof (side a b a' e b' A B E) as S. destruct (lt e x).
    + rewrite chk32_ok by (unfold INT_MIN, INT_MAX in *; lia). cbn [bind]. apply IH; lia.
    + apply IH; lia.
Qed.
Lemma bisect_sum_run : forall a b, Forall (fun y => lt y x = true) a -> Forall (fun y => lt y x = false) b -> 2 * len (a ++ b) - 1 <= INT_MAX ->
  forall f lo hi, 0 <= lo <= len a -> len a <= hi <= len (a ++ b) -> hi - lo < 2 ^ Z.of_nat f -> bisect_sum lt f (a ++ b) x lo hi = Ok (len a).
Proof.
  intros a b A B L. induction f as [|f IH]; intros lo hi Lo Hi W.
  - change (2 ^ Z.of_nat 0) with 1 in W. cbn [bisect_sum]. destruct (Z.ltb_spec lo hi); [lia|]. f_equal. lia.
  - cbn [bisect_sum]. destruct (Z.ltb_spec lo hi) as [H|H]; [|f_equal; lia].
    replace (2 ^ Z.of_nat (S f)) with (2 * 2 ^ Z.of_nat f) in W by (rewrite Nat2Z.inj_succ, Z.pow_succ_r; lia).
    assert (Q: Z.quot (lo + hi) 2 = (lo + hi) / 2) by (apply Z.quot_div_nonneg; lia).
    pose proof (Z.div_mod (lo + hi) 2 ltac:(lia)). pose proof (Z.mod_pos_bound (lo + hi) 2 ltac:(lia)).
    rewrite chk32_ok by (unfold INT_MIN, INT_MAX in *; lia). cbn [bind]. rewrite Q. set (h := (lo + hi) / 2) in *.
    destruct (at_split (a ++ b) h ltac:(unfold INT_MAX in *; lia) ltac:(lia)) as (a' & e & b' & E & La & ->). cbn [bind].
    pose proof (side a b a' e b' A B E) as S. destruct (lt e x).
    + rewrite chk32_ok by (unfold INT_MIN, INT_MAX in *; lia). cbn [bind]. apply IH; lia.
    + apply IH; lia.
Qed.
End Bisect.

(** At most 31 rounds. *)
Theorem lower_bound_place : forall (T : Type) (lt : T -> T -> bool) x a b f, Forall (fun y => lt y x = true) a -> Forall (fun y => lt y x = false) b ->
  len (a ++ b) <= INT_MAX -> (31 <= f)%nat -> lower_bound lt f (a ++ b) x = Ok (len a).
Proof.
  intros T lt x a b f A B L F. unfold lower_bound. rewrite size_ok by lia.
  assert (P: 2 ^ 31 <= 2 ^ Z.of_nat f) by (apply Z.pow_le_mono_r; lia). change (2 ^ 31) with 2147483648 in P.
  assert (len (a ++ b) = len a + len b) by (unfold len; rewrite app_length; lia). pose proof (len_nonneg _ a). pose proof (len_nonneg _ b).
  apply bisect_run; auto; unfold INT_MAX in *; lia.
Qed.
Theorem lower_bound_sum_place : forall (T : Type) (lt : T -> T -> bool) x a b f, Forall (fun y => lt y x = true) a -> Forall (fun y => lt y x = false) b ->
  len (a ++ b) <= 2 ^ 30 -> (31 <= f)%nat -> lower_bound_sum lt f (a ++ b) x = Ok (len a).
Proof.
  intros T lt x a b f A B L F. change (2 ^ 30) with 1073741824 in L. unfold lower_bound_sum. rewrite size_ok by (unfold INT_MAX; lia).
  assert (P: 2 ^ 31 <= 2 ^ Z.of_nat f) by (apply Z.pow_le_mono_r; lia). change (2 ^ 31) with 2147483648 in P.
  assert (len (a ++ b) = len a + len b) by (unfold len; rewrite app_length; lia). pose proof (len_nonneg _ a). pose proof (len_nonneg _ b).
  apply bisect_sum_run; auto; unfold INT_MAX in *; lia.
Qed.

(** The sum overflows in Lists of more than 2^30 elements. *)
Lemma bisect_sum_over : forall (T : Type) (lt : T -> T -> bool) x l, Forall (fun y => lt y x = true) l -> 2 ^ 30 < len l <= INT_MAX ->
  forall f lo, 0 <= lo < len l -> len l - lo < 2 ^ Z.of_nat f -> bisect_sum lt f l x lo (len l) = UB SignedOverflow.
Proof.
  intros T lt x l A L. change (2 ^ 30) with 1073741824 in L. induction f as [|f IH]; intros lo Lo W.
  - change (2 ^ Z.of_nat 0) with 1 in W. lia.
  - cbn [bisect_sum]. destruct (Z.ltb_spec lo (len l)) as [H|H]; [|lia].
    destruct (Z_le_gt_dec (lo + len l) INT_MAX) as [G|G]; [|unfold chk32, in_int, INT_MIN, INT_MAX in *; destruct (Z.leb_spec (lo + len l) 2147483647); [lia|]; rewrite andb_false_r; reflexivity].
    replace (2 ^ Z.of_nat (S f)) with (2 * 2 ^ Z.of_nat f) in W by (rewrite Nat2Z.inj_succ, Z.pow_succ_r; lia).
    assert (Q: Z.quot (lo + len l) 2 = (lo + len l) / 2) by (apply Z.quot_div_nonneg; lia).
    pose proof (Z.div_mod (lo + len l) 2 ltac:(lia)). pose proof (Z.mod_pos_bound (lo + len l) 2 ltac:(lia)).
    rewrite chk32_ok by (unfold INT_MIN, INT_MAX in *; lia). cbn [bind]. rewrite Q. set (h := (lo + len l) / 2) in *.
    destruct (at_split l h ltac:(lia) ltac:(lia)) as (a' & e & b' & E & La & ->). cbn [bind].
    assert (He: lt e x = true). { rewrite Forall_forall in A. apply A. rewrite E. apply in_or_app. right. left. auto. }
    rewrite He. rewrite chk32_ok by (unfold INT_MIN, INT_MAX in *; lia). cbn [bind]. apply IH; unfold INT_MAX in *; lia.
Qed.
Theorem lower_bound_sum_over : forall (T : Type) (lt : T -> T -> bool) x l f, Forall (fun y => lt y x = true) l -> 2 ^ 30 < len l <= INT_MAX -> (31 <= f)%nat ->
  lower_bound_sum lt f l x = UB SignedOverflow.
Proof.
  intros T lt x l f A L F. unfold lower_bound_sum. rewrite size_ok by lia.
  assert (P: 2 ^ 31 <= 2 ^ Z.of_nat f) by (apply Z.pow_le_mono_r; lia). change (2 ^ 31) with 2147483648 in P. change (2 ^ 30) with 1073741824 in *.
  apply bisect_sum_over; auto; change (2 ^ 30) with 1073741824; unfold INT_MAX in *; lia.
Qed.

(** In a sorted List the place is that of the first element that is not less, and tells whether the element is there. *)
Theorem lower_bound_sorted : forall (T : Type) (lt : T -> T -> bool), strict_total lt -> forall x l f,
  StronglySorted (fun y z => lt z y = false) l -> len l <= INT_MAX -> (31 <= f)%nat ->
  exists a b, l = a ++ b /\ lower_bound lt f l x = Ok (len a) /\ Forall (fun y => lt y x = true) a /\ Forall (fun y => lt y x = false) b /\
    (In x l <-> exists b', b = x :: b').
Proof.
  intros T lt (Irr & Tr & To) x l f S L F.
  assert (P: exists a b, l = a ++ b /\ Forall (fun y => lt y x = true) a /\ Forall (fun y => lt y x = false) b).
  { clear L. induction S as [|y l S IH H].
    - exists [], []. auto.
    - destruct (lt y x) eqn:E.
      + destruct IH as (a & b & -> & A & B). exists (y :: a), b. split; auto.
      + exists [], (y :: l). split; auto. split; auto. constructor; auto.
        eapply Forall_impl; [|exact H]. intros z Hz. cbn in Hz. destruct (lt z x) eqn:Ez; auto. exfalso.
        destruct (To y x) as [C|[->|C]]; [congruence|congruence|]. rewrite (Tr z x y Ez C) in Hz. discriminate. }
  destruct P as (a & b & -> & A & B). exists a, b. split; auto. split; [apply lower_bound_place; auto|]. split; auto. split; auto. split.
  - intros I. apply in_app_or in I as [I|I]; [rewrite Forall_forall in A; apply A in I; rewrite Irr in I; discriminate|].
    assert (SB: StronglySorted (fun y z => lt z y = false) b). { clear - S. induction a as [|y a IH]; auto. inversion S; auto. }
    destruct b as [|y b]; [destruct I|]. exists b. f_equal. destruct I as [I|I]; auto.
    inversion SB as [|? ? _ H]; subst. rewrite Forall_forall in H. specialize (H x I). inversion B; subst.
    destruct (To y x) as [C|[C|C]]; congruence.
  - intros (b' & ->). apply in_or_app. right. left. auto.
Qed.
