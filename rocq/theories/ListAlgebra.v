(** Laws relating the operations of List to each other. *)
From Coq Require Import ZArith List Bool Lia Arith Permutation Sorted.
From Verif Require Import Outcome ListModel ListSpec ListFacts ListMore.
Import ListNotations.
Open Scope Z_scope.

Lemma plus_small : forall T (a b : list T), len a + len b <= INT_MAX - 3 -> list_plus_list a b = Ok (a ++ b).
Proof. intros T a b H. unfold list_plus_list, on_copy. rewrite append_small by auto. auto. Qed.

(** ** + *)
Lemma plus_assoc : forall T (a b c : list T), len a + len b + len c <= INT_MAX - 3 ->
  (ab <- list_plus_list a b ;; list_plus_list ab c) = (bc <- list_plus_list b c ;; list_plus_list a bc) /\
  (exists r, (ab <- list_plus_list a b ;; list_plus_list ab c) = Ok r) /\
  list_plus_list a [] = Ok a /\ list_plus_list [] a = Ok a.
Proof.
  intros T a b c H. pose proof (len_nonneg _ a). pose proof (len_nonneg _ b). pose proof (len_nonneg _ c).
  rewrite !plus_small by (rewrite ?len_nil; lia). cbn [bind]. rewrite !plus_small by (rewrite len_app; lia).
  rewrite app_assoc, app_nil_r. repeat split; eauto.
Qed.

(** ** * *)
Lemma times_small : forall T (d : T) l n, 0 <= n -> len l * n < INT_MAX -> len l <= INT_MAX ->
  list_times d l n = Ok (concat (repeat l (Z.to_nat n))).
Proof. intros. apply times_spec; auto. Qed.
Lemma repeat_mul : forall T (l : list T) m n, concat (repeat (concat (repeat l m)) n) = concat (repeat l (m * n)).
Proof.
  intros T l m n. induction n; cbn [repeat concat]; [rewrite Nat.mul_0_r; auto|].
  rewrite IHn, Nat.mul_succ_r, Nat.add_comm, repeat_app, concat_app. auto.
Qed.

Lemma times_laws : forall T (d : T) l m n, len l < INT_MAX -> 0 <= m -> 0 <= n -> len l * m < INT_MAX -> len l * (m * n) < INT_MAX ->
  list_times d l 0 = Ok [] /\ list_times d l 1 = Ok l /\ 
  (lm <- list_times d l m ;; list_times d lm n) = list_times d l (m * n) /\
  (len l * (m + n) <= INT_MAX - 3 ->
     (lm <- list_times d l m ;; ln <- list_times d l n ;; list_plus_list lm ln) = list_times d l (m + n)) /\
  exists r, list_times d l (m * n) = Ok r.
Proof.
  intros T d l m n H M N A B. pose proof (len_nonneg _ l).
  rewrite (times_small _ d l 0), (times_small _ d l 1), (times_small _ d l m), (times_small _ d l (m * n)) by nia.
  cbn [Z.to_nat repeat concat bind]. change (Pos.to_nat 1) with 1%nat. cbn [repeat concat]. rewrite app_nil_r.
  split; auto. split; auto. split; [|split; [|eauto]].
  - assert (L: len (concat (repeat l (Z.to_nat m))) = len l * m).
    { rewrite concat_repeat_len. rewrite Z2Nat.id by lia. auto. }
    rewrite times_small; try (rewrite L; nia); auto. f_equal. rewrite repeat_mul. f_equal. f_equal. nia.
  - intros C. rewrite (times_small _ d l n), (times_small _ d l (m + n)) by (unfold INT_MAX in *; nia). cbn [bind].
    rewrite plus_small by (rewrite !concat_repeat_len, !Z2Nat.id by lia; nia).
    rewrite <- concat_app, <- repeat_app. do 3 f_equal. lia.
Qed.

(** ** count *)
Lemma count_laws : forall T (eqb : T -> T -> bool) (d : T) a b x n, len a + len b <= INT_MAX - 3 -> 0 <= n -> len a * n < INT_MAX ->
  (exists ab, list_plus_list a b = Ok ab /\ list_count eqb ab x = list_count eqb a x + list_count eqb b x) /\
  (exists an, list_times d a n = Ok an /\ list_count eqb an x = list_count eqb a x * n) /\
  (exists r, list_reverse a = (Ok tt, r) /\ list_count eqb r x = list_count eqb a x).
Proof.
  intros T eqb d a b x n H N A. pose proof (len_nonneg _ a). pose proof (len_nonneg _ b). split; [|split].
  - exists (a ++ b). rewrite plus_small by auto. split; auto. rewrite !count_spec by (rewrite ?len_app; lia).
    rewrite filter_app, len_app. auto.
  - rewrite times_small by lia. eexists. split; [reflexivity|].
    rewrite !count_spec; [|lia|rewrite concat_repeat_len, Z2Nat.id by lia; lia].
    rewrite <- (Z2Nat.id n) at 2 by lia. clear. induction (Z.to_nat n) as [|k IH].
    + cbn. lia.
    + cbn [repeat concat]. rewrite filter_app, len_app, IH. lia.
  - exists (rev a). split; [reflexivity|]. rewrite !count_spec by (unfold len in *; rewrite ?rev_length; lia).
    clear. induction a as [|y a IH]; auto. cbn [rev]. rewrite filter_app, len_app, IH. cbn [filter].
    destruct (eqb y x); rewrite ?len_cons, ?len_nil; lia.
Qed.

Lemma subtract_count : forall T (eqb : T -> T -> bool) l x, len l <= INT_MAX ->
  exists l' l'', list_subtract eqb x l = (Ok tt, l') /\ list_divide eqb (Val x) l = (Ok tt, l'') /\
  list_count eqb l' x = Z.max 0 (list_count eqb l x - 1) /\ list_count eqb l'' x = 0 /\
  (forall y, (forall z, eqb z x = true -> eqb z y = false) ->
     list_count eqb l' y = list_count eqb l y /\ list_count eqb l'' y = list_count eqb l y) /\
  (list_count eqb l x = 0 -> l' = l /\ l'' = l).
Proof.
  intros T eqb l x H. pose proof (divide_spec _ eqb l x) as D.
  assert (FL: forall p : T -> bool, len (filter p l) <= len l).
  { intros p. clear. unfold len. induction l; cbn [filter length]; try lia. destruct (p a); cbn [length]; lia. }
  assert (F0: forall (p q : T -> bool) (w : list T), (forall z, In z w -> q z = false) -> len (filter q w) = 0).
  { intros p q w N. clear -N. induction w as [|z w]; auto. cbn [filter]. rewrite N by (left; auto). apply IHw. intros; apply N; right; auto. }
  destruct (find_split _ eqb l x) as [(F & N)|(a & y & b & -> & F & Y & N)].
  - destruct (subtract_spec _ eqb l x) as (S & _). exists l. eexists. split; [apply S; auto|]. split; [apply D|].
    assert (K: filter (fun y => negb (eqb y x)) l = l).
    { clear -N. induction l as [|z l]; auto. cbn [filter]. rewrite (N z) by (left; auto). cbn [negb]. f_equal. apply IHl. intros; apply N; right; auto. }
    rewrite K. rewrite count_spec, F0 by auto. repeat split; auto.
  - destruct (subtract_spec _ eqb (a ++ y :: b) x) as (_ & S). eexists. eexists. split; [apply (S a y b); auto|]. split; [apply D|].
    rewrite len_app, len_cons in H. pose proof (len_nonneg _ a). pose proof (len_nonneg _ b).
    specialize (FL (fun y => negb (eqb y x))) as FD. rewrite len_app, len_cons in FD.
    rewrite !count_spec; rewrite ?len_app, ?len_cons; try lia.
    rewrite !filter_app. cbn [filter]. rewrite Y. cbn [negb]. rewrite !len_app, !len_cons.
    rewrite (F0 (fun y => true) (fun y => eqb y x) a N).
    split; [pose proof (len_nonneg _ (filter (fun y => eqb y x) b)); lia|]. split; [|split].
    + rewrite <- len_app, <- filter_app. apply (F0 (fun y => true)). intros z I.
      apply in_app_or in I. destruct I as [I|I]; apply filter_In in I; destruct I as (_ & I); destruct (eqb z x); auto; discriminate.
    + intros z Z. assert (Q: forall w, len (filter (fun y => eqb y z) (filter (fun y => negb (eqb y x)) w)) = len (filter (fun y => eqb y z) w)).
      { clear -Z. induction w as [|v w]; auto. cbn [filter]. destruct (eqb v x) eqn:V; cbn [negb].
        - rewrite (Z v V). auto.
        - cbn [filter]. destruct (eqb v z); rewrite ?len_cons, ?IHw; auto. }
      rewrite !count_spec; rewrite ?len_app, ?len_cons; try lia.
      2: { rewrite !filter_app in FD. cbn [filter] in FD. rewrite Y in FD. cbn [negb] in FD. rewrite len_app in FD. lia. }
      rewrite !filter_app. cbn [filter]. rewrite (Z y Y). rewrite !len_app, !Q. auto.
    + pose proof (len_nonneg _ (filter (fun y => eqb y x) b)). lia.
Qed.

(** count, index and contains tell the same story. *)
Lemma found : forall T (eqb : T -> T -> bool) (l : list T) x, len l <= INT_MAX -> exists i b,
  list_index eqb l x 0 INT_MAX = Ok i /\ list_contains eqb l x 0 INT_MAX = Ok b /\
  (b = true <-> 0 < list_count eqb l x) /\ (i = -1 <-> list_count eqb l x = 0) /\ (b = true <-> 0 <= i < len l).
Proof.
  intros T eqb l x H. pose proof (len_nonneg _ l). destruct (index_spec _ eqb l x 0 INT_MAX H) as (I & _).
  destruct I as (r & R & A & B); [lia|]. rewrite Z.min_r in A, B by lia.
  exists r, (negb (r =? -1)). split; auto. unfold list_contains. rewrite R. cbn [bind]. split; auto.
  rewrite count_spec by auto.
  assert (C: r = -1 <-> len (filter (fun y => eqb y x) l) = 0).
  { split.
    - intros ->. cbn [Z.eqb] in B. clear A R.
      assert (N: forall z, In z l -> eqb z x = false).
      { intros z I. apply In_nth_error in I. destruct I as (k & K). apply (B (Z.of_nat k) z); [|rewrite Nat2Z.id; auto].
        assert (k < length l)%nat by (apply nth_error_Some; rewrite K; discriminate). unfold len. cbn. lia. }
      clear -N. induction l as [|z w]; auto. cbn [filter]. rewrite N by (left; auto). apply IHw. intros; apply N; right; auto.
    - intros Z. destruct A as [A|(A & y & Y & E)]; auto. exfalso. apply nth_error_In in Y.
      assert (IN: In y (filter (fun y => eqb y x) l)) by (apply filter_In; auto).
      destruct (filter (fun y => eqb y x) l); [destruct IN|]. rewrite len_cons in Z. pose proof (len_nonneg _ l0). lia. }
  pose proof (len_nonneg _ (filter (fun y => eqb y x) l)).
  destruct (Z.eqb_spec r (-1)) as [E|E]; cbn [negb].
  - assert (len (filter (fun y => eqb y x) l) = 0) by (apply C; auto). split; [|split; [auto|]]; split; intros; try discriminate; lia.
  - destruct A as [A|(A & _)]; [contradiction|]. split; [|split; [auto|]]; split; auto; intros _; try lia.
Qed.

(** ** reverse *)
Lemma reverse_laws : forall T (d : T) a b n, len a + len b <= INT_MAX - 3 -> 0 <= n -> len a * n < INT_MAX ->
  on_copy (list_reverse) a = Ok (rev a) /\ (a' <- on_copy list_reverse a ;; on_copy list_reverse a') = Ok a /\
  (ab <- list_plus_list a b ;; on_copy list_reverse ab) =
    (a' <- on_copy list_reverse a ;; b' <- on_copy list_reverse b ;; list_plus_list b' a') /\
  (an <- list_times d a n ;; on_copy list_reverse an) = (a' <- on_copy list_reverse a ;; list_times d a' n).
Proof.
  intros T d a b n H N A. assert (LR: forall v : list T, len (rev v) = len v) by (intros; unfold len; rewrite rev_length; auto).
  split; [reflexivity|]. split; [cbn; rewrite rev_involutive; auto|]. split.
  - rewrite plus_small by auto. cbn [bind on_copy list_reverse update]. rewrite plus_small by (rewrite !LR; lia). rewrite rev_app_distr. auto.
  - pose proof (len_nonneg _ a). pose proof (len_nonneg _ b).
    rewrite times_small by lia. cbn [bind on_copy list_reverse update]. rewrite times_small by (rewrite ?LR; lia). f_equal.
    induction (Z.to_nat n) as [|k IH]; auto. rewrite concat_repeat_snoc. rewrite rev_app_distr, IH. auto.
Qed.

(** ** slice *)
Lemma slice_1 : forall T (l : list T) a b, len l <= INT_MAX - 1 -> 0 <= a < len l -> 0 <= b <= len l ->
  list_slice l a b 1 = Ok (firstn (Z.to_nat (b - a)) (skipn (Z.to_nat a) l)).
Proof.
  intros T l a b H A B. destruct (slice_spec _ l a b 1) as (_ & _ & S); [lia|]. cbv zeta in S.
  destruct S as [(F & r & -> & R)|(F & _)]; try lia.
  - f_equal. unfold from_back in R. destruct (Z.ltb_spec a 0); [lia|]. destruct (Z.ltb_spec b 0); [lia|].
    apply nth_error_ext. intros k. rewrite R. unfold beforeb. cbn [Z.ltb Z.compare]. rewrite Z.mul_1_r.
    destruct (Z.ltb_spec (a + Z.of_nat k) b).
    + rewrite nth_firstn by lia. rewrite nth_skipn. f_equal. lia.
    + symmetry. apply nth_error_None. rewrite firstn_length. lia.
  - exfalso. apply F. unfold from_back. destruct (Z.ltb_spec a 0); [lia|]. destruct (Z.ltb_spec b 0); [lia|].
    apply (slice_fits_small (len l)); try lia; unfold INT_MIN, INT_MAX in *; lia.
Qed.

Lemma slice_split : forall T (l : list T) k, len l <= INT_MAX - 3 -> 0 <= k < len l ->
  (a <- list_slice l 0 k 1 ;; b <- list_slice l k (len l) 1 ;; list_plus_list a b) = Ok l /\
  (b <- list_slice l k (len l) 1 ;; a <- list_slice l 0 k 1 ;; list_plus_list b a) = on_copy (list_shl k) l /\
  list_slice l 0 (len l) 1 = Ok l.
Proof.
  intros T l k H K. rewrite !slice_1 by lia. cbn [bind]. rewrite !Z.sub_0_r. cbn [Z.to_nat skipn].
  assert (FA: firstn (Z.to_nat (len l - k)) (skipn (Z.to_nat k) l) = skipn (Z.to_nat k) l).
  { apply firstn_all2. rewrite skipn_length. unfold len. lia. }
  rewrite FA.
  assert (L1: len (firstn (Z.to_nat k) l) = k) by (unfold len in *; rewrite firstn_length; lia).
  assert (L2: len (skipn (Z.to_nat k) l) = len l - k) by (unfold len in *; rewrite skipn_length; lia).
  split; [|split].
  - rewrite plus_small by lia. rewrite firstn_skipn. auto.
  - rewrite plus_small by lia. unfold list_shl, on_copy, update. rewrite size_ok by lia.
    destruct (Z.leb_spec (len l) 1); cbn [orb].
    + assert (k = 0) by lia. subst k. cbn [Z.to_nat firstn skipn]. rewrite app_nil_r. auto.
    + destruct (Z.eqb_spec k 0); [subst k; cbn [Z.to_nat firstn skipn]; rewrite app_nil_r; auto|].
      rewrite Z.rem_small by lia. destruct (Z.ltb_spec k 0); [lia|]. cbn [bind]. 
      unfold std_rotate. destruct (Z.ltb_spec k 0); [lia|]. destruct (Z.ltb_spec (len l) k); [lia|]. auto.
  - f_equal. apply firstn_all2. unfold len. lia.
Qed.

(** The end of the list is no valid start. *)
Lemma slice_end : forall T (l : list T), len l < INT_MAX -> list_slice l (len l) (len l) 1 = Throw IndexOutOfRange.
Proof. intros T l H. apply slice_spec; auto; lia. Qed.

Lemma slice_backward : forall T (l : list T), 0 < len l <= INT_MAX - 1 -> list_slice l (-1) (- len l - 1) (-1) = on_copy list_reverse l.
Proof.
  intros T l H. destruct (slice_spec _ l (-1) (- len l - 1) (-1)) as (_ & _ & S); [lia|]. cbv zeta in S.
  assert (FB: from_back (len l) (-1) = len l - 1) by (unfold from_back; cbn [Z.ltb Z.compare]; lia).
  assert (FE: from_back (len l) (- len l - 1) = -1) by (unfold from_back; destruct (Z.ltb_spec (- len l - 1) 0); lia).
  rewrite FB, FE in S. destruct S as [(F & r & -> & R)|(F & _)]; try lia.
  - cbn [on_copy list_reverse update]. f_equal. apply nth_error_ext. intros k. rewrite R. unfold beforeb. cbn [Z.ltb Z.compare].
    destruct (Z.ltb_spec (-1) (len l - 1 + Z.of_nat k * -1)).
    + assert (k < length l)%nat by (unfold len in *; lia). destruct (nth_error (rev l) k) eqn:E.
      * destruct l as [|d l0]; [cbn in *; lia|]. remember (d :: l0) as l.
        apply nth_error_nth with (d := d) in E. rewrite rev_nth in E by auto. rewrite <- E.
        rewrite (nth_error_nth' l d) by (unfold len in *; lia). do 2 f_equal. unfold len in *. lia.
      * apply nth_error_None in E. rewrite rev_length in E. lia.
    + symmetry. apply nth_error_None. rewrite rev_length. unfold len in *. lia.
  - exfalso. apply F. apply (slice_fits_small (len l)); unfold INT_MIN, INT_MAX in *; lia.
Qed.

(** ** rotation *)
Lemma shl_compose : forall T (l : list T) m n, len l <= INT_MAX ->
  (l' <- on_copy (list_shl m) l ;; on_copy (list_shl n) l') = on_copy (list_shl (m + n)) l /\ exists r, on_copy (list_shl (m + n)) l = Ok r.
Proof.
  intros T l m n H. unfold on_copy. destruct (shl_spec _ l m H) as (r & -> & R). cbn [bind].
  assert (L: len r = len l) by (destruct R as (R & _); unfold len; rewrite R; auto).
  destruct (shl_spec _ r n) as (q & -> & Q); [lia|]. destruct (shl_spec _ l (m + n) H) as (t & -> & TT). split; [|eauto]. f_equal.
  apply (rotated_unique _ l q t (m + n) (m + n)); auto. eapply rotated_trans; eauto.
Qed.

(** ** sort and uniquify *)
Lemma sort_idempotent : forall T (lt : T -> T -> bool) l, strict_weak lt ->
  (l' <- on_copy (list_sort lt) l ;; on_copy (list_sort lt) l') = on_copy (list_sort lt) l.
Proof.
  intros T lt l W. cbn [on_copy list_sort update bind]. f_equal. destruct (sort_spec lt W l) as (P & S & F).
  apply (stable_unique lt W (std_stable_sort lt l)); [apply sort_spec; auto|]. split; [auto|split; auto].
Qed.

Lemma all_same : forall T (x : T) v w, (forall y, In y v -> y = x) -> Permutation v w -> v = w.
Proof.
  intros T x v w A P. assert (B: forall y, In y w -> y = x) by (intros; apply A; eapply Permutation_in; [apply Permutation_sym|]; eauto).
  apply Permutation_length in P. revert w B P. induction v as [|a v]; intros [|b w] B P; try discriminate; auto.
  rewrite (A a), (B b) by (left; auto). f_equal. apply IHv; auto; intros; [apply A|apply B]; right; auto.
Qed.
Lemma filter_perm : forall T (p : T -> bool) v w, Permutation v w -> Permutation (filter p v) (filter p w).
Proof.
  intros T p v w P. induction P; cbn [filter]; auto.
  - destruct (p x); auto.
  - destruct (p x), (p y); auto. apply perm_swap.
  - eapply Permutation_trans; eauto.
Qed.

(** When only an element itself has its rank, the sorted list depends on the elements only. *)
Lemma sort_perm_eq : forall T (lt : T -> T -> bool) l l', strict_weak lt -> (forall x y, lt x y = false -> lt y x = false -> x = y) ->
  Permutation l l' -> on_copy (list_sort lt) l = on_copy (list_sort lt) l'.
Proof.
  intros T lt l l' W E P. cbn [on_copy list_sort update]. f_equal. apply (stable_unique lt W l'); [|apply sort_spec; auto].
  destruct (sort_spec lt W l) as (P' & S & F). split; [|split; auto].
  - eapply Permutation_trans; [apply Permutation_sym|]; eauto.
  - intros x. rewrite F. apply (all_same _ x); [|apply filter_perm; auto]. intros y I. apply filter_In in I. destruct I as (_ & I).
    unfold same_rank in I. apply andb_prop in I. destruct I as (A & B). symmetry. apply E; [destruct (lt x y)|destruct (lt y x)]; auto; discriminate.
Qed.

Lemma sort_laws : forall T (lt : T -> T -> bool) a b n, strict_weak lt -> len a + len b <= INT_MAX - 3 ->
  (l' <- on_copy (list_sort lt) a ;; on_copy (list_sort lt) l') = on_copy (list_sort lt) a /\
  ((forall x y, lt x y = false -> lt y x = false -> x = y) ->
     (ab <- list_plus_list a b ;; on_copy (list_sort lt) ab) = (ba <- list_plus_list b a ;; on_copy (list_sort lt) ba) /\
     (a' <- on_copy list_reverse a ;; on_copy (list_sort lt) a') = on_copy (list_sort lt) a /\
     (a' <- on_copy (list_shl n) a ;; on_copy (list_sort lt) a') = on_copy (list_sort lt) a) /\
  exists r, on_copy (list_sort lt) a = Ok r.
Proof.
  intros T lt a b n W H. split; [apply sort_idempotent; auto|]. split; [|eexists; reflexivity]. intros E.
  pose proof (len_nonneg _ a). pose proof (len_nonneg _ b). rewrite !plus_small by lia. split; [|split].
  - cbn [bind]. apply sort_perm_eq; auto. apply Permutation_app_comm.
  - cbn [bind on_copy list_reverse update]. apply (sort_perm_eq _ lt); auto. apply Permutation_sym, Permutation_rev.
  - unfold list_shl at 1, on_copy at 1, update at 1. rewrite size_ok by lia.
    destruct ((len a <=? 1) || (n =? 0)) eqn:C; [reflexivity|]. apply orb_false_elim in C. destruct C as (C & _). apply Z.leb_gt in C.
    pose proof (Z.rem_bound_abs n (len a) ltac:(lia)).
    assert (exists k, 0 <= k <= len a /\ (if Z.rem n (len a) <? 0 then chk32 (Z.rem n (len a) + len a) else Ok (Z.rem n (len a))) = Ok k) as (k & K & ->).
    { destruct (Z.ltb_spec (Z.rem n (len a)) 0).
      - exists (Z.rem n (len a) + len a). split; [lia|]. apply chk32_ok. unfold INT_MIN, INT_MAX in *. lia.
      - exists (Z.rem n (len a)). split; auto. lia. }
    cbn [bind]. unfold std_rotate. destruct (Z.ltb_spec k 0); [lia|]. destruct (Z.ltb_spec (len a) k); [lia|]. cbn [orb bind].
    apply (sort_perm_eq _ lt); auto. eapply Permutation_trans; [apply Permutation_app_comm|]. rewrite firstn_skipn. auto.
Qed.

Lemma firsts_id : forall T (eqb : T -> T -> bool) l, decides eqb -> NoDup l -> firsts eqb l = l.
Proof.
  intros T eqb l D N. induction N as [|x l I N IH]; auto. cbn [firsts]. f_equal. rewrite IH. clear -D I.
  induction l as [|y l]; auto. cbn [filter]. destruct (eqb x y) eqn:E.
  - apply D in E. subst y. exfalso. apply I. left. auto.
  - cbn [negb]. f_equal. apply IHl. intros X. apply I. right. auto.
Qed.
Lemma firsts_repeat : forall T (eqb : T -> T -> bool) l n, decides eqb -> (0 < n)%nat -> firsts eqb (concat (repeat l n)) = firsts eqb l.
Proof.
  intros T eqb l n D N. destruct n; [lia|]. clear N. cbn [repeat concat]. rewrite firsts_app by auto.
  match goal with |- _ ++ ?f = _ => assert (f = []) as -> end; [|apply app_nil_r].
  match goal with |- filter ?p _ = _ => set (q := p) end.
  assert (A: forall x, In x (firsts eqb (concat (repeat l n))) -> q x = false).
  { intros x I. apply firsts_in in I; auto. apply in_concat in I. destruct I as (w & I1 & I2). apply repeat_spec in I1. subst w.
    unfold q. apply negb_false_iff. apply existsb_exists. exists x. split; auto. apply D. auto. }
  induction (firsts eqb (concat (repeat l n))) as [|y w]; auto. cbn [filter]. rewrite A by (left; auto). apply IHw. intros; apply A; right; auto.
Qed.

Lemma uniquify_laws : forall T (eqb : T -> T -> bool) (d : T) l n, decides eqb -> 0 < n -> len l * n < INT_MAX ->
  exists u, on_copy (list_uniquify eqb) l = Ok u /\ on_copy (list_uniquify eqb) u = Ok u /\
  (ln <- list_times d l n ;; on_copy (list_uniquify eqb) ln) = Ok u /\
  (forall x, list_count eqb u x = Z.min 1 (list_count eqb l x)).
Proof.
  intros T eqb d l n D N H. pose proof (len_nonneg _ l). exists (firsts eqb l). unfold on_copy. rewrite uniquify_spec by auto. split; auto.
  assert (ND: NoDup (firsts eqb l)) by (apply firsts_nodup; auto).
  split; [rewrite uniquify_spec, firsts_id by auto; auto|]. split.
  - rewrite times_small by nia. cbn [bind]. rewrite uniquify_spec, firsts_repeat by (auto; lia). auto.
  - intros x. assert (LF: len (firsts eqb l) <= len l).
    { unfold len. apply inj_le. apply NoDup_incl_length; auto. intros y I. apply firsts_in in I; auto. }
    rewrite !count_spec by nia. 
    assert (C: forall v, In x v -> 0 < len (filter (fun y => eqb y x) v)).
    { intros v I. assert (J: In x (filter (fun y => eqb y x) v)) by (apply filter_In; split; auto; apply D; auto).
      destruct (filter (fun y => eqb y x) v) as [|z w]; [destruct J|]. rewrite len_cons. pose proof (len_nonneg _ w). lia. }
    assert (Z: forall v, ~ In x v -> len (filter (fun y => eqb y x) v) = 0).
    { intros v I. clear -D I. induction v as [|z v]; auto. cbn [filter]. destruct (eqb z x) eqn:E.
      - apply D in E. exfalso. apply I. left. auto.
      - apply IHv. intros J. apply I. right. auto. }
    assert (U: forall v, NoDup v -> len (filter (fun y => eqb y x) v) <= 1).
    { intros v V. induction V as [|z v I V IH]; [cbn; lia|]. cbn [filter]. destruct (eqb z x) eqn:E; auto.
      apply D in E. subst z. rewrite len_cons, Z by auto. lia. }
    destruct (in_dec (fun x y => match bool_dec (eqb x y) true with left e => left (proj1 (D x y) e) | right e => right (fun h => e (proj2 (D x y) h)) end) x l) as [I|I].
    + pose proof (C l I). pose proof (U _ ND). pose proof (C (firsts eqb l) (proj2 (firsts_in _ eqb D l x) I)). lia.
    + rewrite !Z; auto. intros J. apply firsts_in in J; auto.
Qed.
