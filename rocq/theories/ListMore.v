(** Proofs about the List model: rotation, order, slices, search, comparison, printing. *)
From Coq Require Import ZArith List Bool Ascii Lia Permutation Sorted.
From Verif Require Import Outcome ListModel ListSpec ListFacts.
Import ListNotations.
Open Scope Z_scope.

(** ** Rotation *)
Lemma nth_error_ext : forall T (l r : list T), (forall k, nth_error l k = nth_error r k) -> l = r.
Proof.
  induction l; destruct r; intros H; auto; try (specialize (H O); discriminate).
  f_equal. { specialize (H O). inversion H. auto. } apply IHl. intros k. apply (H (S k)).
Qed.

Lemma rotated_unique : forall T (l r r' : list T) n n', n mod len l = n' mod len l -> rotated l r n -> rotated l r' n' -> r = r'.
Proof.
  intros T l r r' n n' E (L & R) (L' & R'). apply nth_error_ext. intros k.
  destruct (Nat.lt_ge_cases k (length l)) as [H|H].
  - specialize (R (Z.of_nat k) ltac:(lia)). specialize (R' (Z.of_nat k) ltac:(lia)). rewrite Nat2Z.id in *.
    rewrite R, R'. f_equal. f_equal. unfold len in E. rewrite Zplus_mod, E, <- Zplus_mod. auto.
  - rewrite (proj2 (nth_error_None r k)), (proj2 (nth_error_None r' k)) by lia. auto.
Qed.

Lemma rotated_0 : forall T (l : list T), rotated l l 0.
Proof. intros T l. split; auto. intros j H. rewrite Z.add_0_r, Z.mod_small by auto. auto. Qed.

Lemma rotated_trans : forall T (l r q : list T) m n, rotated l r m -> rotated r q n -> rotated l q (m + n).
Proof.
  intros T l r q m n (L & R) (L' & R'). split; [congruence|]. intros j H. rewrite R' by lia. rewrite L.
  rewrite R by (apply Z.mod_pos_bound; lia). f_equal. f_equal. rewrite Zplus_mod_idemp_l. f_equal. lia.
Qed.

Lemma rotated_mod : forall T (l r : list T) m n, m mod len l = n mod len l -> rotated l r m -> rotated l r n.
Proof.
  intros T l r m n E (L & R). split; auto. intros j H. rewrite R by auto. f_equal. f_equal.
  fold (len l). rewrite Zplus_mod, E, <- Zplus_mod. auto.
Qed.

Lemma rotate_ok : forall T (l : list T) k, 0 <= k <= len l -> exists r, std_rotate l k = Ok r /\ rotated l r k.
Proof.
  intros T l k H. destruct (cut_at _ l k H) as (a & b & C). pose proof (cut_len _ _ _ _ _ C) as (E1 & E2). destruct C as (-> & _).
  unfold std_rotate. destruct (Z.ltb_spec k 0); [lia|]. destruct (Z.ltb_spec (len (a ++ b)) k); [lia|]. cbn [orb].
  subst k. rewrite firstn_len, skipn_len. eexists; split; [reflexivity|]. split; [rewrite !app_length; lia|].
  intros j J. fold (len (a ++ b)) in *. pose proof (len_nonneg _ a). pose proof (len_nonneg _ b). rewrite len_app in *.
  destruct (Z_lt_ge_dec j (len b)) as [A|A].
  - rewrite Z.mod_small by lia. unfold len in *. rewrite nth_error_app1 by lia. rewrite nth_error_app2 by lia. f_equal. lia.
  - replace ((j + len a) mod (len a + len b)) with (j - len b).
    2: { apply Zmod_unique with 1; lia. }
    unfold len in *. rewrite nth_error_app2 by lia. rewrite nth_error_app1 by lia. f_equal. lia.
Qed.

Lemma rotated_short : forall T (l : list T) n, len l <= 1 -> rotated l l n.
Proof.
  intros T l n H. split; auto. intros j J. fold (len l) in *. assert (len l = 1) as -> by lia. rewrite Z.mod_1_r. f_equal. lia.
Qed.

Lemma shl_spec : forall T (l : list T) n, len l <= INT_MAX -> exists r, list_shl n l = (Ok tt, r) /\ rotated l r n.
Proof.
  intros T l n H. unfold list_shl. rewrite update_eq, size_ok by auto. pose proof (len_nonneg _ l).
  destruct (Z.leb_spec (len l) 1) as [A|A]; cbn [orb].
  { exists l. split; auto. apply rotated_short; auto. }
  destruct (Z.eqb_spec n 0) as [->|N]. { exists l. split; auto. apply rotated_0. }
  pose proof (Z.rem_bound_abs n (len l) ltac:(lia)) as B. pose proof (Z.quot_rem n (len l) ltac:(lia)) as D.
  set (q := n ÷ len l) in *. set (m := Z.rem n (len l)) in *. clearbody q m.
  assert (exists k, (if m <? 0 then chk32 (m + len l) else Ok m) = Ok k /\ 0 <= k < len l /\ k mod len l = n mod len l) as (k & -> & K & E).
  { destruct (Z.ltb_spec m 0).
    - exists (m + len l). split; [apply chk32_ok; unfold INT_MIN, INT_MAX in *; lia|]. split; [lia|]. subst n.
      rewrite (Z.mul_comm (len l)), Z.add_comm, (Z.add_comm (q * len l)), Z_mod_plus_full.
      replace (len l + m) with (m + 1 * len l) by lia. apply Z_mod_plus_full.
    - exists m. split; auto. split; [lia|]. subst n. rewrite (Z.mul_comm (len l)), (Z.add_comm (q * len l)), Z_mod_plus_full. auto. }
  cbn [bind]. destruct (rotate_ok _ l k ltac:(lia)) as (r & -> & R). exists r. split; auto. apply rotated_mod with k; auto.
Qed.

Lemma shr_spec : forall T (l : list T) n, len l <= INT_MAX -> INT_MIN < n <= INT_MAX -> exists r, list_shr n l = (Ok tt, r) /\ rotated l r (- n).
Proof.
  intros T l n H N. unfold list_shr. rewrite size_ok by auto. pose proof (len_nonneg _ l).
  destruct (Z.leb_spec (len l) 1) as [A|A]; cbn [orb].
  { exists l. split; auto. apply rotated_short; auto. }
  destruct (Z.eqb_spec n 0) as [->|Z]. { exists l. split; auto. apply rotated_0. }
  destruct (Z.ltb_spec n 0).
  - rewrite chk32_ok by (unfold INT_MIN, INT_MAX in *; lia). apply shl_spec; auto.
  - rewrite chk32_ok by (unfold INT_MIN, INT_MAX in *; lia). destruct (shl_spec _ l (len l - n) H) as (r & E & R).
    exists r. split; auto. apply rotated_mod with (len l - n); auto.
    replace (len l - n) with (- n + 1 * len l) by lia. apply Z_mod_plus_full.
Qed.

Lemma shr_min : forall T (l : list T), len l <= INT_MAX -> 
  list_shr INT_MIN l = if len l <=? 1 then (Ok tt, l) else (UB SignedOverflow, l).
Proof.
  intros T l H. unfold list_shr. rewrite size_ok by auto. destruct (Z.leb_spec (len l) 1); cbn [orb]; auto.
Qed.

Lemma shl_shr : forall T (l r : list T) n, len l <= INT_MAX -> INT_MIN < n <= INT_MAX ->
  list_shl n l = (Ok tt, r) -> list_shr n r = (Ok tt, l).
Proof.
  intros T l r n H N E. destruct (shl_spec _ l n H) as (r' & E' & R). rewrite E in E'. inversion E'; subst r'.
  assert (LR: len r = len l) by (destruct R; unfold len; lia).
  destruct (shr_spec _ r n ltac:(lia) N) as (q & -> & Q). f_equal.
  apply (rotated_unique _ l q l (n + - n) 0); [f_equal; lia|eapply rotated_trans; eauto|apply rotated_0].
Qed.

Lemma shr_shl : forall T (l r : list T) n, len l <= INT_MAX -> INT_MIN < n <= INT_MAX ->
  list_shr n l = (Ok tt, r) -> list_shl n r = (Ok tt, l).
Proof.
  intros T l r n H N E. destruct (shr_spec _ l n H N) as (r' & E' & R). rewrite E in E'. inversion E'; subst r'.
  assert (LR: len r = len l) by (destruct R; unfold len; lia).
  destruct (shl_spec _ r n ltac:(lia)) as (q & -> & Q). f_equal.
  apply (rotated_unique _ l q l (- n + n) 0); [f_equal; lia|eapply rotated_trans; eauto|apply rotated_0].
Qed.

Lemma shl_full_turns : forall T (l : list T) k, len l <= INT_MAX -> list_shl (k * len l) l = (Ok tt, l).
Proof.
  intros T l k H. destruct (shl_spec _ l (k * len l) H) as (r & -> & R). f_equal.
  apply (rotated_unique _ l r l (k * len l) 0); auto; [|apply rotated_0].
  destruct (Z.eq_dec (len l) 0) as [E|E]; [rewrite E, Z.mul_0_r; auto|]. rewrite Z.mod_mul, Z.mod_0_l by auto. auto.
Qed.

(** ** uniquify *)
Lemma find_existsb : forall T (eqb : T -> T -> bool) l x, Nat.eqb (std_find eqb l x) (length l) = negb (existsb (fun y => eqb y x) l).
Proof.
  induction l; intros x; cbn [std_find length existsb]; auto. destruct (eqb a x); cbn [orb negb Nat.eqb]; auto.
Qed.

Lemma filter_filter : forall T (p q : T -> bool) l, filter p (filter q l) = filter (fun x => q x && p x) l.
Proof.
  induction l; cbn [filter]; auto. destruct (q a); cbn [andb filter]; [destruct (p a)|]; congruence.
Qed.

Lemma uniq_ok : forall T (eqb : T -> T -> bool), decides eqb -> forall v buf,
  uniq_loop eqb v buf = buf ++ filter (fun y => negb (existsb (fun b => eqb b y) buf)) (firsts eqb v).
Proof.
  intros T eqb D. induction v as [|x v]; intros buf; cbn [uniq_loop firsts filter]; [rewrite app_nil_r; auto|].
  rewrite find_existsb. destruct (existsb (fun y => eqb y x) buf) eqn:E; cbn [negb].
  - rewrite IHv, filter_filter. f_equal. apply filter_ext. intros y.
    destruct (eqb x y) eqn:X; cbn [negb andb]; auto. apply D in X. subst y. rewrite E. auto.
  - rewrite IHv, filter_filter, <- app_assoc. cbn [app]. f_equal. f_equal. apply filter_ext. intros y.
    rewrite existsb_app. cbn [existsb]. rewrite orb_false_r. destruct (eqb x y); cbn [negb andb]; [rewrite orb_true_r|rewrite orb_false_r]; auto.
Qed.

Lemma filter_all : forall T (p : T -> bool) l, (forall x, p x = true) -> filter p l = l.
Proof. induction l; intros H; cbn [filter]; auto. rewrite H, IHl; auto. Qed.

Lemma uniquify_spec : forall T (eqb : T -> T -> bool) l, decides eqb -> list_uniquify eqb l = (Ok tt, firsts eqb l).
Proof.
  intros. unfold list_uniquify. rewrite update_eq, uniq_ok by auto. cbn [existsb negb app]. rewrite filter_all; auto.
Qed.

Lemma firsts_in : forall T (eqb : T -> T -> bool), decides eqb -> forall l x, In x (firsts eqb l) <-> In x l.
Proof.
  intros T eqb D. induction l as [|y l]; intros x; cbn [firsts In]; [tauto|]. rewrite filter_In, IHl.
  destruct (eqb y x) eqn:E; [apply D in E; tauto|]. cbn [negb]. tauto.
Qed.

Lemma firsts_nodup : forall T (eqb : T -> T -> bool), decides eqb -> forall l, NoDup (firsts eqb l).
Proof.
  intros T eqb D. induction l as [|y l]; cbn [firsts]; constructor.
  - rewrite filter_In. intros (_ & E). assert (eqb y y = true) as X by (apply D; auto). rewrite X in E. discriminate.
  - apply NoDup_filter. auto.
Qed.

Lemma filter_comm : forall T (p q : T -> bool) l, filter p (filter q l) = filter q (filter p l).
Proof. intros. rewrite !filter_filter. apply filter_ext. intros. apply andb_comm. Qed.

Lemma firsts_app : forall T (eqb : T -> T -> bool), decides eqb -> forall a b,
  firsts eqb (a ++ b) = firsts eqb a ++ filter (fun y => negb (existsb (eqb y) a)) (firsts eqb b).
Proof.
  intros T eqb D. induction a as [|x a]; intros b; cbn [app firsts existsb].
  - cbn [negb]. rewrite filter_all; auto.
  - rewrite IHa, filter_app, filter_filter. cbn [app]. f_equal. f_equal. apply filter_ext. intros y.
    assert (eqb x y = eqb y x) as ->.
    { destruct (eqb x y) eqn:E; destruct (eqb y x) eqn:F; auto.
      - apply D in E. subst. rewrite (proj2 (D y y) eq_refl) in F. congruence.
      - apply D in F. subst. rewrite (proj2 (D x x) eq_refl) in E. congruence. }
    destruct (eqb y x); cbn [orb negb andb]; rewrite ?andb_false_r, ?andb_true_r; auto.
Qed.

(** ** sort *)
Section Sorting.
Context {T : Type} (lt : T -> T -> bool) (W : strict_weak lt).

Lemma lt_asym : forall x y, lt x y = true -> lt y x = false.
Proof. destruct W as (I & Tr & _). intros x y A. destruct (lt y x) eqn:B; auto. specialize (Tr _ _ _ A B). rewrite I in Tr. discriminate. Qed.

Lemma insert_perm : forall x v, Permutation (x :: v) (sort_insert lt x v).
Proof.
  induction v as [|y v]; cbn [sort_insert]; auto. destruct (lt y x); auto.
  eapply Permutation_trans; [apply perm_swap|]. apply perm_skip. auto.
Qed.
Lemma sort_perm : forall v, Permutation v (std_stable_sort lt v).
Proof.
  induction v; cbn [std_stable_sort]; auto. eapply Permutation_trans; [apply perm_skip; eauto|apply insert_perm].
Qed.

Let R x y := lt y x = false.
Lemma insert_sorted : forall x v, StronglySorted R v -> StronglySorted R (sort_insert lt x v).
Proof.
  destruct W as (I & Tr & N). induction v as [|y v]; intros S; cbn [sort_insert]; [constructor; auto|].
  inversion S as [|y' v' S' F]; subst. destruct (lt y x) eqn:E.
  - constructor; auto. apply (Permutation_Forall (insert_perm x v)). constructor; auto. apply lt_asym; auto.
  - constructor; auto. constructor; auto. eapply Forall_impl; [|exact F]. intros w A. unfold R in *.
    destruct (lt w x) eqn:B; auto. destruct (N _ _ y B); congruence.
Qed.
Lemma sort_sorted : forall v, StronglySorted R (std_stable_sort lt v).
Proof. induction v; cbn [std_stable_sort]; [constructor|apply insert_sorted; auto]. Qed.

Lemma sorted_split : forall r, StronglySorted R r <-> (forall a x b y c, r = a ++ x :: b ++ y :: c -> lt y x = false).
Proof.
  intros r. split.
  - intros S. induction S as [|z r S IH F]; intros a x b y c E.
    + destruct a; discriminate.
    + destruct a as [|w a]; cbn [app] in E; inversion E; subst.
      * rewrite Forall_forall in F. apply (F y). apply in_or_app. right. left. auto.
      * eapply IH. reflexivity.
  - induction r as [|z r]; intros H; constructor.
    + apply IHr. intros a x b y c ->. apply (H (z :: a) x b y c). auto.
    + apply Forall_forall. intros y I. apply in_split in I. destruct I as (b & c & ->). apply (H [] z b y c). auto.
Qed.

Lemma rank_refl : forall x, same_rank lt x x = true.
Proof. intros. unfold same_rank. destruct W as (I & _). rewrite I. auto. Qed.

Lemma insert_stable : forall z x v, filter (same_rank lt z) (sort_insert lt x v) = filter (same_rank lt z) (x :: v).
Proof.
  destruct W as (I & Tr & N). induction v as [|y v]; cbn [sort_insert]; auto. destruct (lt y x) eqn:E; auto.
  cbn [filter] in *. rewrite IHv. destruct (same_rank lt z x) eqn:A; destruct (same_rank lt z y) eqn:B; auto.
  exfalso. unfold same_rank in *. apply andb_true_iff in A, B. destruct A as (A1 & A2), B as (B1 & B2).
  apply negb_true_iff in A1, A2, B1, B2. destruct (N _ _ z E); congruence.
Qed.
Lemma sort_stable : forall v z, filter (same_rank lt z) (std_stable_sort lt v) = filter (same_rank lt z) v.
Proof.
  induction v as [|x v]; intros z; cbn [std_stable_sort]; auto. rewrite insert_stable. cbn [filter]. rewrite IHv. auto.
Qed.

Lemma sort_spec : forall v, stably_sorted lt v (std_stable_sort lt v).
Proof. intros v. split; [apply sort_perm|]. split; [apply sorted_split, sort_sorted|intros; apply sort_stable]. Qed.

Lemma sorted_unique : forall r1 r2, StronglySorted R r1 -> StronglySorted R r2 -> Permutation r1 r2 ->
  (forall z, filter (same_rank lt z) r1 = filter (same_rank lt z) r2) -> r1 = r2.
Proof.
  induction r1 as [|x r1]; intros r2 S1 S2 P F. { apply Permutation_nil in P. auto. }
  destruct r2 as [|y r2]. { apply Permutation_sym, Permutation_nil in P. discriminate. }
  inversion S1 as [|a b S1' F1]; inversion S2 as [|a' b' S2' F2]; subst. rewrite Forall_forall in F1, F2.
  assert (lt y x = false) as A.
  { assert (In y (x :: r1)) as [-> | I] by (eapply Permutation_in; [apply Permutation_sym; eauto|left; auto]); [|apply F1; auto].
    destruct W as (I & _). apply I. }
  assert (lt x y = false) as B.
  { assert (In x (y :: r2)) as [-> | I] by (eapply Permutation_in; [eauto|left; auto]); [|apply F2; auto].
    destruct W as (I & _). apply I. }
  pose proof (F x) as E. cbn [filter] in E. rewrite rank_refl in E.
  replace (same_rank lt x y) with true in E by (unfold same_rank; rewrite A, B; auto). inversion E; subst y.
  f_equal. apply IHr1; auto; [eapply Permutation_cons_inv; eauto|]. intros z. specialize (F z). cbn [filter] in F.
  destruct (same_rank lt z x); [inversion F|]; auto.
Qed.

Lemma stable_unique : forall l r1 r2, stably_sorted lt l r1 -> stably_sorted lt l r2 -> r1 = r2.
Proof.
  intros l r1 r2 (P1 & S1 & F1) (P2 & S2 & F2). apply sorted_unique.
  - apply sorted_split; auto.
  - apply sorted_split; auto.
  - eapply Permutation_trans; [apply Permutation_sym|]; eauto.
  - intros z. rewrite F1, F2. auto.
Qed.
End Sorting.

Lemma list_sort_spec : forall T (lt : T -> T -> bool) l, strict_weak lt -> exists r, list_sort lt l = (Ok tt, r) /\ stably_sorted lt l r.
Proof. intros T lt l W. eexists. split; [reflexivity|apply sort_spec; auto]. Qed.

Lemma reverse_spec : forall T (l : list T), list_reverse l = (Ok tt, rev l).
Proof. reflexivity. Qed.

(** ** erase *)
Lemma erase_spec : forall T (l : list T) start stop, len l < INT_MAX ->
  (~ (0 <= start <= len l) \/ ~ (0 <= stop <= len l) -> list_erase start stop l = (Throw IndexOutOfRange, l)) /\
  (0 <= start <= len l -> 0 <= stop <= len l -> stop < start -> list_erase start stop l = (UB InvalidRange, l)) /\
  (forall a m b, l = a ++ m ++ b -> len a = start -> len m = stop - start -> list_erase start stop l = (Ok tt, a ++ b)).
Proof.
  intros T l start stop H. pose proof (len_nonneg _ l). unfold list_erase. rewrite update_eq, size_ok by lia.
  rewrite chk32_ok by (unfold INT_MIN, INT_MAX in *; lia). cbn [bind]. split; [|split].
  - intros [B|B].
    + rewrite check_bounds_throw by lia. auto.
    + destruct (Z_le_dec 0 start); [destruct (Z_lt_dec start (len l + 1))|].
      1: rewrite check_bounds_ok by lia; cbn [bind].
      all: rewrite check_bounds_throw by lia; auto.
  - intros A B C. rewrite !check_bounds_ok by lia. cbn [bind]. unfold verase. destruct (Z.ltb_spec stop start); [|lia].
    rewrite orb_true_r. auto.
  - intros a m b -> <- M. rewrite !len_app in *. pose proof (len_nonneg _ a). pose proof (len_nonneg _ b). pose proof (len_nonneg _ m).
    rewrite !check_bounds_ok by lia. cbn [bind]. replace stop with (len a + len m) by lia. rewrite verase_ok. auto.
Qed.

Lemma erase_cut : forall T (l : list T) start stop, 0 <= start <= stop -> stop <= len l ->
  exists a m b, l = a ++ m ++ b /\ len a = start /\ len m = stop - start.
Proof.
  intros T l start stop A B. destruct (cut_at _ l start) as (a & r & C); [lia|]. pose proof (cut_len _ _ _ _ _ C) as (E1 & E2).
  destruct (cut_at _ r (stop - start)) as (m & b & D); [lia|]. pose proof (cut_len _ _ _ _ _ D) as (E3 & E4).
  exists a, m, b. destruct C as (-> & _), D as (-> & _). auto.
Qed.

Lemma erase_full : forall T (l : list T) start stop, len l = INT_MAX -> list_erase start stop l = (UB SignedOverflow, l).
Proof. intros T l start stop H. unfold list_erase. rewrite update_eq, size_ok, H by lia. reflexivity. Qed.

(** ** map *)
Lemma for_each_spec : forall S T (f : S -> T -> S * T) l s,
  fst (for_each f s l) = fold_left (fun s x => fst (f s x)) l s /\
  length (snd (for_each f s l)) = length l /\
  forall k x, nth_error l k = Some x ->
    nth_error (snd (for_each f s l)) k = Some (snd (f (fold_left (fun s x => fst (f s x)) (firstn k l) s) x)).
Proof.
  induction l as [|y l]; intros s; cbn [for_each fold_left].
  - repeat split. intros [|k] x; discriminate.
  - destruct (f s y) as (s1, z) eqn:E. specialize (IHl s1). destruct (for_each f s1 l) as (s2, w). cbn [fst snd] in *.
    destruct IHl as (A & B & C). repeat split; auto; [cbn [length]; lia|].
    intros [|k] x; cbn [nth_error firstn fold_left]; intros X.
    + inversion X; subst. rewrite E. auto.
    + rewrite (C k x X), E. auto.
Qed.

Lemma map_spec : forall S T (f : S -> T -> S * T) l s, exists l',
  list_map f s l = (Ok (fold_left (fun s x => fst (f s x)) l s), l') /\ length l' = length l /\
  forall k x, nth_error l k = Some x ->
    nth_error l' k = Some (snd (f (fold_left (fun s x => fst (f s x)) (firstn k l) s) x)).
Proof.
  intros S T f l s. destruct (for_each_spec S T f l s) as (A & B & C). unfold list_map.
  destruct (for_each f s l) as (s', l'). cbn [fst snd] in *. subst. eexists. split; eauto.
Qed.

Lemma map_log : forall T (g : T -> T) l log, list_map (fun s x => (s ++ [x], g x)) log l = (Ok (log ++ l), map g l).
Proof.
  intros T g. unfold list_map. assert (forall l log, for_each (fun s x => (s ++ [x], g x)) log l = (log ++ l, map g l)) as E.
  { induction l; intros log; cbn [for_each map]; [rewrite app_nil_r; auto|]. rewrite IHl, <- app_assoc. auto. }
  intros. rewrite E. auto.
Qed.

(** ** slice *)
Lemma before_iff : forall step stop i, beforeb step stop i = true <-> before step stop i.
Proof. intros. unfold before, beforeb. destruct (0 <? step); rewrite Z.ltb_lt; lia. Qed.
Lemma before_spec : forall step stop i, reflect (before step stop i) (beforeb step stop i).
Proof. intros. apply iff_reflect. symmetry. apply before_iff. Qed.

Lemma before_mono : forall step stop i k, step <> 0 -> 0 <= k -> before step stop (i + k * step) -> before step stop i.
Proof. intros step stop i k N K. unfold before. destruct (Z.ltb_spec 0 step); nia. Qed.

Lemma slice_loop_ok : forall T (l : list T) stop step, step <> 0 -> -1 <= stop <= len l -> forall fuel i buf,
  (if 0 <? step then 0 <= i /\ stop - i < Z.of_nat fuel else i < len l /\ i - stop < Z.of_nat fuel) -> (0 < fuel)%nat ->
  (slice_fits i stop step /\ exists r, slice_loop l stop step fuel i buf = Ok (buf ++ r) /\ sliced l r i stop step) \/
  (~ slice_fits i stop step /\ slice_loop l stop step fuel i buf = UB SignedOverflow).
Proof.
  intros T l stop step N ST. induction fuel as [|fuel]; intros i buf HF F0; [lia|]. cbn [slice_loop].
  change (if 0 <? step then i <? stop else stop <? i) with (beforeb step stop i).
  destruct (before_spec step stop i) as [B|B].
  - assert (I: 0 <= i < len l) by (unfold before in B; destruct (Z.ltb_spec 0 step); lia).
    destruct (cut_elem _ l i I) as (a & x & b & C). pose proof (cut_len _ _ _ _ _ C) as (E & _).
    assert (V: vat l i = Ok x) by (destruct C as (-> & _); rewrite <- E; apply vat_ok).
    assert (NX: nth_error l (Z.to_nat i) = Some x).
    { unfold vat in V. destruct (i <? 0); [discriminate|]. destruct (nth_error l (Z.to_nat i)); inversion V; auto. }
    rewrite V. cbn [bind].
    assert (SH: forall k : nat, i + Z.of_nat (S k) * step = i + step + Z.of_nat k * step) by (intros; lia).
    assert (SH2: forall k : nat, i + (Z.of_nat (S k) + 1) * step = i + step + (Z.of_nat k + 1) * step) by (intros; lia).
    destruct (Z_le_dec INT_MIN (i + step)) as [G1|G1]; [destruct (Z_le_dec (i + step) INT_MAX) as [G2|G2]|].
    + rewrite chk32_ok by lia. cbn [bind].
      assert (FU: (0 < fuel)%nat) by (unfold before in B; destruct (0 <? step); lia).
      assert (HF': if 0 <? step then 0 <= i + step /\ stop - (i + step) < Z.of_nat fuel else i + step < len l /\ i + step - stop < Z.of_nat fuel)
        by (destruct (Z.ltb_spec 0 step); lia).
      destruct (IHfuel (i + step) (buf ++ [x]) HF' FU) as [(SF & r & -> & S)|(SF & ->)].
      * left. split.
        { intros [|k] K; [lia|]. rewrite SH2. apply SF. rewrite <- SH. auto. }
        exists (x :: r). rewrite <- app_assoc. split; auto. intros [|k].
        { rewrite Z.mul_0_l, Z.add_0_r. destruct (before_spec step stop i); [|contradiction]. auto. }
        rewrite SH. apply S.
      * right. split; auto. intros SF'. apply SF. intros k K. rewrite <- SH2. apply SF'. rewrite SH. auto.
    + right. rewrite chk32_ub by lia. split; auto. intros SF. specialize (SF O). rewrite Z.mul_0_l, Z.add_0_r in SF. specialize (SF B). lia.
    + right. rewrite chk32_ub by lia. split; auto. intros SF. specialize (SF O). rewrite Z.mul_0_l, Z.add_0_r in SF. specialize (SF B). lia.
  - left. split.
    { intros k K. exfalso. apply B. eapply before_mono; [exact N| |exact K]. lia. }
    exists []. rewrite app_nil_r. split; auto. intros k. destruct (before_spec step stop (i + Z.of_nat k * step)) as [K|K].
    + exfalso. apply B. eapply before_mono; [exact N| |exact K]. lia.
    + destruct k; auto.
Qed.

Lemma slice_spec : forall T (l : list T) start stop step, len l < INT_MAX ->
  let a := from_back (len l) start in let b := from_back (len l) stop in
  (step = 0 -> list_slice l start stop step = Throw SliceStepZero) /\
  (step <> 0 -> ~ (- len l <= start < len l) \/ ~ (- len l - 1 <= stop <= len l) ->
     list_slice l start stop step = Throw IndexOutOfRange) /\
  (step <> 0 -> - len l <= start < len l -> - len l - 1 <= stop <= len l ->
     (slice_fits a b step /\ exists r, list_slice l start stop step = Ok r /\ sliced l r a b step) \/
     (~ slice_fits a b step /\ list_slice l start stop step = UB SignedOverflow)).
Proof.
  intros T l start stop step H a b. pose proof (len_nonneg _ l). unfold list_slice. rewrite size_ok by lia.
  split; [intros ->; auto|]. destruct (Z.eqb_spec step 0); [split; intros; contradiction|].
  rewrite (chk32_ok (- len l)), (chk32_ok (len l + 1)) by (unfold INT_MIN, INT_MAX in *; lia). cbn [bind].
  rewrite (chk32_ok (- len l - 1)) by (unfold INT_MIN, INT_MAX in *; lia). cbn [bind].
  split; intros _.
  - intros [B|B].
    + rewrite check_bounds_throw by lia. auto.
    + destruct (Z_le_dec (- len l) start); [destruct (Z_lt_dec start (len l))|].
      1: rewrite check_bounds_ok by lia; cbn [bind].
      all: rewrite check_bounds_throw by lia; auto.
  - intros B1 B2. rewrite check_bounds_ok by lia. cbn [bind]. rewrite check_bounds_ok by lia. cbn [bind].
    assert ((if start <? 0 then chk32 (start + len l) else Ok start) = Ok a) as ->.
    { unfold a, from_back. destruct (start <? 0) eqn:E; auto. apply chk32_ok. unfold INT_MIN, INT_MAX in *. lia. }
    cbn [bind].
    assert ((if stop <? 0 then chk32 (stop + len l) else Ok stop) = Ok b) as ->.
    { unfold b, from_back. destruct (stop <? 0) eqn:E; auto. apply chk32_ok. unfold INT_MIN, INT_MAX in *. lia. }
    cbn [bind].
    assert (0 <= a < len l) by (unfold a, from_back; destruct (Z.ltb_spec start 0); lia).
    assert (-1 <= b <= len l) by (unfold b, from_back; destruct (Z.ltb_spec stop 0); lia).
    destruct (slice_loop_ok _ l b step n ltac:(lia) (S (length l)) a []) as [X|X].
    + unfold len in *. destruct (0 <? step); lia.
    + lia.
    + left. exact X.
    + right. exact X.
Qed.

Lemma slice_fits_small : forall n start stop step, 0 <= start < n -> -1 <= stop <= n -> 
  INT_MIN <= step -> step <= INT_MAX - n -> n < INT_MAX -> step <> 0 -> slice_fits start stop step.
Proof.
  intros n start stop step A B L U N Z k K. unfold before in K. unfold INT_MIN, INT_MAX in *. destruct (Z.ltb_spec 0 step); nia.
Qed.

Lemma slice_full : forall T (l : list T) start stop step, len l = INT_MAX -> step <> 0 -> - len l <= start < len l ->
  list_slice l start stop step = UB SignedOverflow.
Proof.
  intros T l start stop step H N B. unfold list_slice. rewrite size_ok, H in * by lia. destruct (Z.eqb_spec step 0); [contradiction|].
  rewrite chk32_ok by (unfold INT_MIN, INT_MAX in *; lia). cbn [bind]. rewrite check_bounds_ok by lia. reflexivity.
Qed.

Lemma sliced_unique : forall T (l r r' : list T) a b s, sliced l r a b s -> sliced l r' a b s -> r = r'.
Proof. intros T l r r' a b s H H'. apply nth_error_ext. intros k. rewrite H, H'. auto. Qed.

(** ** Search *)
Lemma nth_firstn : forall T (l : list T) n k, (k < n)%nat -> nth_error (firstn n l) k = nth_error l k.
Proof. induction l; intros [|n] [|k] H; cbn [firstn nth_error]; auto; try lia. apply IHl. lia. Qed.
Lemma nth_skipn : forall T (l : list T) n k, nth_error (skipn n l) k = nth_error l (n + k)%nat.
Proof. induction l; intros [|n] k; cbn [skipn nth_error Nat.add]; auto. destruct k; auto. Qed.

Lemma find_first : forall T (eqb : T -> T -> bool) l x,
  let f := std_find eqb l x in
  (f <= length l)%nat /\ (forall k y, (k < f)%nat -> nth_error l k = Some y -> eqb y x = false) /\
  (f < length l -> exists y, nth_error l f = Some y /\ eqb y x = true)%nat.
Proof.
  induction l as [|y l]; intros x; cbn [std_find length].
  - repeat split; try lia.
  - specialize (IHl x). destruct (eqb y x) eqn:E.
    + repeat split; try lia. intros _. exists y. auto.
    + destruct IHl as (A & B & C). repeat split; try lia.
      * intros [|k] z K; cbn [nth_error]; intros X; [inversion X; subst; auto|]. apply (B k z); [lia|auto].
      * intros K. destruct C as (z & Z1 & Z2); [lia|]. exists z. auto.
Qed.

Lemma index_spec : forall T (eqb : T -> T -> bool) (l : list T) x start stop, len l <= INT_MAX ->
  let stop' := Z.min stop (len l) in
  (0 <= start <= stop' -> exists r, list_index eqb l x start stop = Ok r /\ first_at eqb l x start stop' r) /\
  (~ (0 <= start <= stop') -> list_index eqb l x start stop = UB InvalidRange).
Proof.
  intros T eqb l x start stop H stop'. pose proof (len_nonneg _ l). unfold list_index. rewrite size_ok by auto.
  replace (if len l <? stop then len l else stop) with stop' by (unfold stop'; destruct (Z.ltb_spec (len l) stop); lia).
  assert (S: stop' <= len l) by (unfold stop'; lia). clearbody stop'. split.
  - intros B. destruct (Z.ltb_spec start 0); [lia|]. destruct (Z.ltb_spec stop' start); [lia|].
    destruct (Z.ltb_spec (len l) stop'); [lia|]. cbn [orb].
    set (w := firstn (Z.to_nat (stop' - start)) (skipn (Z.to_nat start) l)).
    assert (LW: Z.of_nat (length w) = stop' - start).
    { unfold w. rewrite firstn_length, skipn_length. unfold len in *. lia. }
    assert (NW: forall k, start <= k < stop' -> nth_error w (Z.to_nat (k - start)) = nth_error l (Z.to_nat k)).
    { intros k K. unfold w. rewrite nth_firstn by lia. rewrite nth_skipn. f_equal. lia. }
    destruct (find_first _ eqb w x) as (F1 & F2 & F3). set (f := std_find eqb w x) in *.
    eexists. split; [reflexivity|]. destruct (Z.eqb_spec (start + Z.of_nat f) stop') as [E|E].
    + split; [auto|]. change (-1 =? -1) with true; cbv iota. intros k y K Y. apply (F2 (Z.to_nat (k - start))); [lia|]. rewrite NW by lia. auto.
    + rewrite wrap32_id by (unfold INT_MIN; lia). split.
      * right. split; [lia|]. destruct F3 as (y & Y1 & Y2); [lia|]. exists y. split; auto. rewrite <- NW by lia. rewrite <- Y1. f_equal. lia.
      * destruct (Z.eqb_spec (start + Z.of_nat f) (-1)); [lia|]. intros k y K Y.
        apply (F2 (Z.to_nat (k - start))); [lia|]. rewrite NW by lia. auto.
  - intros B. destruct (Z.ltb_spec start 0); auto. destruct (Z.ltb_spec stop' start); auto. lia.
Qed.

Lemma first_at_unique : forall T (eqb : T -> T -> bool) l x start stop r r', 0 <= start -> stop <= len l ->
  first_at eqb l x start stop r -> first_at eqb l x start stop r' -> r = r'.
Proof.
  intros T eqb l x start stop r r' S E (A & B) (A' & B'). 
  destruct (Z.eqb_spec r (-1)) as [N|N]; destruct (Z.eqb_spec r' (-1)) as [N'|N']; try congruence.
  - destruct A' as [A'|(A' & y & Y1 & Y2)]; [lia|]. rewrite (B r' y) in Y2; [discriminate|lia|auto].
  - destruct A as [A|(A & y & Y1 & Y2)]; [lia|]. rewrite (B' r y) in Y2; [discriminate|lia|auto].
  - destruct A as [A|(A & y & Y1 & Y2)]; [lia|]. destruct A' as [A'|(A' & y' & Y1' & Y2')]; [lia|].
    destruct (Z.lt_trichotomy r r') as [L|[L|L]]; auto.
    + rewrite (B' r y) in Y2; [discriminate|lia|auto].
    + rewrite (B r' y') in Y2'; [discriminate|lia|auto].
Qed.

Lemma contains_spec : forall T (eqb : T -> T -> bool) (l : list T) x start stop, len l <= INT_MAX -> 
  0 <= start <= Z.min stop (len l) -> exists b, list_contains eqb l x start stop = Ok b /\
  (b = true <-> exists k y, start <= k < Z.min stop (len l) /\ nth_error l (Z.to_nat k) = Some y /\ eqb y x = true).
Proof.
  intros T eqb l x start stop H B. unfold list_contains. destruct (index_spec _ eqb l x start stop H) as (I & _).
  destruct (I B) as (r & -> & A & F). cbn [bind]. eexists; split; [reflexivity|].
  destruct (Z.eqb_spec r (-1)) as [E|E]; cbn [negb].
  - split; [discriminate|]. intros (k & y & K & Y1 & Y2). rewrite (F k y) in Y2; [discriminate|auto|auto].
  - split; auto. intros _. destruct A as [A|(A & y & Y)]; [lia|]. exists r, y. auto.
Qed.

Lemma count_spec : forall T (eqb : T -> T -> bool) (l : list T) x, len l <= INT_MAX ->
  list_count eqb l x = len (filter (fun y => eqb y x) l).
Proof.
  intros T eqb l x H. unfold list_count.
  assert (std_count eqb l x = len (filter (fun y => eqb y x) l)) as ->.
  { clear H. induction l; cbn [std_count filter]; auto. destruct (eqb a x); rewrite ?len_cons; lia. }
  apply wrap32_id. assert (len (filter (fun y => eqb y x) l) <= len l).
  { unfold len. clear H. induction l; cbn [filter length]; try lia. destruct (eqb a x); cbn [length]; lia. }
  pose proof (len_nonneg _ (filter (fun y => eqb y x) l)). unfold INT_MIN. lia.
Qed.

(** ** Comparison *)
Lemma all2_spec : forall T (eqb : T -> T -> bool), decides eqb -> forall v w, length v = length w -> all2 eqb v w = true <-> v = w.
Proof.
  intros T eqb D. induction v as [|x v]; destruct w as [|y w]; cbn [length all2]; intros L; try discriminate; [tauto|].
  rewrite andb_true_iff, (D x y), (IHv w) by lia. split; [intros (-> & ->)|intros E; inversion E]; auto.
Qed.
Lemma eqb_spec : forall T (eqb : T -> T -> bool), decides eqb -> decides (list_eqb eqb).
Proof.
  intros T eqb D v w. unfold list_eqb. rewrite andb_true_iff, Nat.eqb_eq. split.
  - intros (L & A). apply (all2_spec _ eqb D); auto.
  - intros ->. split; auto. apply (all2_spec _ eqb D); auto.
Qed.

Lemma cmp_spec : forall T (cmp : T -> T -> comparison) lt, total_order cmp lt -> forall v w,
  CompareSpec (v = w) (lex_lt lt v w) (lex_lt lt w v) (list_cmp cmp v w).
Proof.
  intros T cmp lt (C & I & Tr). induction v as [|x v]; destruct w as [|y w]; cbn [list_cmp]; try (constructor; auto; constructor).
  destruct (C x y); try (constructor; apply lex_head; auto).
  subst y. destruct (IHv w); constructor; try (apply lex_tail; auto). congruence.
Qed.

Lemma lex_irrefl : forall T (lt : T -> T -> Prop), (forall x, ~ lt x x) -> forall v, ~ lex_lt lt v v.
Proof. intros T lt I. induction v; intros H; inversion H; subst; eauto. eapply I; eauto. Qed.
Lemma lex_trans : forall T (lt : T -> T -> Prop), (forall x y z, lt x y -> lt y z -> lt x z) ->
  forall u v w, lex_lt lt u v -> lex_lt lt v w -> lex_lt lt u w.
Proof.
  intros T lt Tr u v w H. revert w. induction H; intros u' H'; inversion H'; subst; solve [apply lex_nil | apply lex_head; eauto | apply lex_tail; eauto].
Qed.
Lemma list_total_order : forall T (cmp : T -> T -> comparison) lt, total_order cmp lt -> total_order (list_cmp cmp) (lex_lt lt).
Proof.
  intros T cmp lt O. split; [apply cmp_spec; auto|]. destruct O as (_ & I & Tr). split; [apply lex_irrefl; auto|].
  intros x y z. apply lex_trans; auto.
Qed.

(** ** Printing *)
Lemma print_spec : forall T (show : T -> list ascii) l open close,
  print_range show l open close = open :: commas (map show l) ++ [close].
Proof.
  assert (E: forall T (show : T -> list ascii) rest it close os,
    print_loop show it rest close os = os ++ commas (map show (it :: rest)) ++ [close]).
  { induction rest as [|x rest]; intros it close os.
    - cbn. rewrite <- app_assoc. auto.
    - cbn [print_loop]. rewrite IHrest. change (map show (it :: x :: rest)) with (show it :: map show (x :: rest)).
      cbn [commas]. cbn [map]. rewrite <- !app_assoc. cbn [app]. auto. }
  intros T show [|x l] open close; cbn [print_range]; auto. rewrite E. auto.
Qed.

(** ** [list /= list[k]] when the referenced element is never overwritten *)
Lemma skipn_skipn : forall T n m (l : list T), skipn n (skipn m l) = skipn (n + m) l.
Proof.
  intros T n m l. apply nth_error_ext. intros k. rewrite !nth_skipn. f_equal. lia.
Qed.
Lemma Ok_inj : forall A (a b : A), Ok a = Ok b -> a = b.
Proof. intros A a b H. inversion H. auto. Qed.
Lemma nth_cons_S : forall T (y : T) l n, nth_error (y :: l) (S n) = nth_error l n.
Proof. reflexivity. Qed.
Lemma skipn_cons_S : forall T (y : T) l n, skipn (S n) (y :: l) = skipn n l.
Proof. reflexivity. Qed.

Lemma vput_other : forall T (l l' : list T) p k y x, vput l p y = Ok l' -> p < k -> vat l k = Ok x -> vat l' k = Ok x.
Proof.
  intros T l l' p k y x P L V. unfold vput in P. destruct ((p <? 0) || (len l <=? p)) eqn:B; [discriminate|].
  apply orb_false_iff in B. destruct B as (B1 & B2). apply Z.ltb_ge in B1. apply Z.leb_gt in B2. apply Ok_inj in P; subst l'.
  unfold vat in *. destruct (Z.ltb_spec k 0); [lia|].
  assert (F: length (firstn (Z.to_nat p) l) = Z.to_nat p) by (rewrite firstn_length; unfold len in *; lia).
  rewrite nth_error_app2 by lia. rewrite F. replace (Z.to_nat k - Z.to_nat p)%nat with (S (Z.to_nat k - S (Z.to_nat p))) by lia.
  rewrite nth_cons_S, nth_skipn. replace (S (Z.to_nat p) + (Z.to_nat k - S (Z.to_nat p)))%nat with (Z.to_nat k) by lia. exact V.
Qed.

Lemma remove_alias_ok : forall T (eqb : T -> T -> bool) x k n first result v,
  vat v k = Ok x -> result + len (filter (fun y => negb (eqb y x)) (skipn (Z.to_nat first) v)) <= k ->
  0 <= first -> 0 <= result <= first -> Z.of_nat n = len v - first ->
  std_remove_loop eqb (Elem k) n first result v = std_remove_loop eqb (Val x) n first result v.
Proof.
  intros T eqb x k. induction n as [|n]; intros first result v V B F R N; cbn [std_remove_loop]; auto.
  destruct (cut_elem _ v first) as (a & y & b & C); [lia|]. pose proof (cut_len _ _ _ _ _ C) as (L & _). destruct C as (C & _).
  assert (vat v first = Ok y) as -> by (rewrite C, <- L; apply vat_ok). cbn [bind deref]. rewrite V. cbn [bind].
  assert (SK: skipn (Z.to_nat first) v = y :: b) by (rewrite C, <- L; apply skipn_len).
  assert (SK': forall w, skipn (Z.to_nat first) w = y :: b -> skipn (Z.to_nat (first + 1)) w = b).
  { intros w E. replace (Z.to_nat (first + 1)) with (1 + Z.to_nat first)%nat by lia. rewrite <- skipn_skipn, E. reflexivity. }
  rewrite SK in B. cbn [filter] in B. destruct (eqb y x) eqn:E; cbn [negb] in B.
  - apply IHn; try lia; auto. rewrite (SK' _ SK). auto.
  - rewrite len_cons in B. pose proof (len_nonneg _ (filter (fun y => negb (eqb y x)) b)).
    destruct (vput v result y) as [v'| | |] eqn:P; cbn [bind]; auto.
    assert (LV: len v' = len v).
    { unfold vput in P. destruct ((result <? 0) || (len v <=? result)) eqn:O; [discriminate|]. apply orb_false_iff in O. destruct O as (O1 & O2).
      apply Z.ltb_ge in O1. apply Z.leb_gt in O2. apply Ok_inj in P. subst v'. rewrite len_app, len_cons. unfold len in *. rewrite firstn_length, skipn_length. lia. }
    assert (SV: skipn (Z.to_nat (first + 1)) v' = b).
    { unfold vput in P. destruct ((result <? 0) || (len v <=? result)) eqn:O; [discriminate|]. apply orb_false_iff in O. destruct O as (O1 & O2).
      apply Z.ltb_ge in O1. apply Z.leb_gt in O2. apply Ok_inj in P. subst v'. rewrite <- (SK' v SK). 
      assert (F': length (firstn (Z.to_nat result) v) = Z.to_nat result) by (rewrite firstn_length; unfold len in *; lia).
      rewrite skipn_app, F'. rewrite (skipn_all2 (firstn _ _)) by lia. cbn [app].
      replace (Z.to_nat (first + 1) - Z.to_nat result)%nat with (S (Z.to_nat (first - result))) by lia.
      rewrite skipn_cons_S, skipn_skipn. f_equal. lia. }
    apply IHn; try lia.
    + eapply vput_other; eauto; lia.
    + rewrite SV. lia.
Qed.

Lemma divide_alias : forall T (eqb : T -> T -> bool) l k x, nth_error l (Z.to_nat k) = Some x -> 0 <= k ->
  len (filter (fun y => negb (eqb y x)) l) <= k ->
  list_divide eqb (Elem k) l = (Ok tt, filter (fun y => negb (eqb y x)) l).
Proof.
  intros T eqb l k x N K B. rewrite <- divide_spec. unfold list_divide. rewrite !update_eq. unfold std_remove.
  rewrite (remove_alias_ok T eqb x k (length l) 0 0 l); auto; try (unfold len; lia).
  unfold vat. destruct (Z.ltb_spec k 0); [lia|]. rewrite N. auto.
Qed.

Lemma filter_len_neg : forall T (p : T -> bool) l x, In x l -> p x = false -> len (filter p l) < len l.
Proof.
  intros T p l x I P. assert (LE: forall l, len (filter p l) <= len l).
  { induction l0; cbn [filter]; [lia|]. destruct (p a); rewrite !len_cons; lia. }
  apply in_split in I. destruct I as (a & b & ->). rewrite filter_app. cbn [filter]. rewrite P, !len_app, len_cons.
  pose proof (LE a). pose proof (LE b). lia.
Qed.

Lemma divide_last : forall T (eqb : T -> T -> bool) l x, decides eqb ->
  list_divide eqb (Elem (len l)) (l ++ [x]) = (Ok tt, filter (fun y => negb (eqb y x)) (l ++ [x])).
Proof.
  intros T eqb l x D. apply divide_alias; [|apply len_nonneg|].
  - unfold len. rewrite Nat2Z.id, nth_error_app2, Nat.sub_diag by lia. auto.
  - rewrite filter_app. cbn [filter]. rewrite (proj2 (D x x) eq_refl). cbn [negb]. rewrite app_nil_r.
    destruct (Z.le_gt_cases (len (filter (fun y => negb (eqb y x)) l)) (len l)) as [|G]; auto.
    assert (forall l, len (filter (fun y => negb (eqb y x)) l) <= len l).
    { induction l0; cbn [filter]; [lia|]. destruct (negb (eqb a x)); rewrite !len_cons; lia. } auto.
Qed.

(** ** Instances used as witnesses *)
Lemma len_repeat : forall T (x : T) n, 0 <= n -> len (repeat x (Z.to_nat n)) = n.
Proof. intros. unfold len. rewrite repeat_length. lia. Qed.

Lemma extend_wraps : forall T (l w : list T), len l = INT_MAX -> len w = 1 ->
  list_extend w l = (Ok tt, l ++ w) /\ size (l ++ w) = INT_MIN.
Proof. intros T l w L W. split; auto. unfold size. rewrite len_app, L, W. reflexivity. Qed.

Lemma list_print_spec : forall T (show : T -> list ascii) l, list_print show l = "["%char :: commas (map show l) ++ ["]"%char].
Proof. intros. apply print_spec. Qed.

Lemma some_list : forall n, 0 <= n -> exists l : list Z, len l = n.
Proof. intros n H. exists (repeat 0 (Z.to_nat n)). apply len_repeat. auto. Qed.

Lemma times_overflow_witness : exists l : list Z, len l = 65536 /\ list_times 0 l 32768 = UB SignedOverflow.
Proof.
  destruct (some_list 65536) as (l & L); [lia|]. exists l. split; [exact L|].
  destruct (times_spec _ 0 l 32768) as (_ & _ & _ & P); [rewrite L; unfold INT_MAX; lia|]. apply P; rewrite ?L; unfold INT_MAX; lia.
Qed.
Lemma divide_alias_witness : exists l : list Z, nth_error l 0 = Some 1 /\
  list_divide Z.eqb (Elem 0) l = (Ok tt, [2; 1; 3]) /\ filter (fun y => negb (y =? 1)) l = [2; 3].
Proof. exists [1; 2; 1; 3]. repeat split. Qed.
Lemma full_list : exists l : list Z, len l = INT_MAX.
Proof. apply some_list. unfold INT_MAX. lia. Qed.
Lemma erase_full_witness : exists l : list Z, len l = INT_MAX /\ list_erase 0 0 l = (UB SignedOverflow, l).
Proof. destruct full_list as (l & L). exists l. split; auto. apply erase_full; auto. Qed.
Lemma slice_full_witness : exists l : list Z, len l = INT_MAX /\ list_slice l 0 1 1 = UB SignedOverflow.
Proof.
  destruct full_list as (l & L). exists l. split; auto. apply slice_full; [exact L|discriminate|]. rewrite L. unfold INT_MAX. lia.
Qed.
Lemma extend_witness : exists l w : list Z, len l = INT_MAX /\ len w = 1 /\ list_extend w l = (Ok tt, l ++ w) /\ size (l ++ w) = INT_MIN.
Proof. destruct full_list as (l & L). exists l, [0]. split; auto. split; [reflexivity|]. apply extend_wraps; auto. Qed.
Lemma append_fits_witness : exists l : list Z, len l = INT_MAX - 1 /\ list_append_list [] false l = (Throw ContainerFull, l).
Proof.
  destruct (some_list (INT_MAX - 1)) as (l & L); [unfold INT_MAX; lia|]. exists l. split; [exact L|].
  destruct (append_list_spec _ l []) as (P & _); rewrite ?L, ?len_nil in *; unfold INT_MAX in *; try lia. apply P. vm_compute. discriminate.
Qed.
Lemma append_small : forall T (l w : list T), len l + len w <= INT_MAX - 3 -> list_append_list w false l = (Ok tt, l ++ w).
Proof.
  intros T l w H. pose proof (len_nonneg _ l). pose proof (len_nonneg _ w).
  destruct (append_list_spec _ l w) as (_ & P); try lia. apply P. change (INT_MAX / 2) with 1073741823. unfold INT_MAX in *.
  pose proof (Z_div_mod_eq_full (len l) 2). pose proof (Z_div_mod_eq_full (len w) 2).
  pose proof (Z.mod_pos_bound (len l) 2). pose proof (Z.mod_pos_bound (len w) 2). lia.
Qed.
