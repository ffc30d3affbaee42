(** Programs over lists behave like programs over sequences. *)
From Coq Require Import ZArith List Bool Ascii Lia Permutation.
From Verif Require Import Outcome ListModel ListSpec ListFacts ListMore ListProgModel ListProgSpec.
Import ListNotations.
Open Scope Z_scope.

Lemma lset_eq : forall T (s : lstore T) v l, lset s v l v = l.
Proof. intros. unfold lset. rewrite Nat.eqb_refl. auto. Qed.

Lemma sized_set : forall T (s : lstore T) v l, sized s -> len l <= INT_MAX -> sized (lset s v l).
Proof. intros T s v l S L w. unfold lset. destruct (Nat.eqb w v); [exact L|apply S]. Qed.

Lemma filter_len : forall T (p : T -> bool) l, len (filter p l) <= len l.
Proof. intros. induction l; cbn [filter]; [lia|]. destruct (p a); rewrite !len_cons; lia. Qed.

Lemma firsts_len : forall T (eqb : T -> T -> bool) l, len (firsts eqb l) <= len l.
Proof. intros. induction l; cbn [firsts]; [lia|]. rewrite !len_cons. pose proof (filter_len _ (fun y => negb (eqb a y)) (firsts eqb l)). lia. Qed.

Lemma sliced_len : forall T (l r : list T) a b st, st <> 0 -> 0 <= a < len l -> -1 <= b <= len l -> sliced l r a b st -> len r <= len l.
Proof.
  intros T l r a b st N A B S. unfold len in *. destruct (Nat.le_gt_cases (length r) (length l)) as [H|H]; [lia|].
  exfalso. specialize (S (length l)). destruct (before_spec st b (a + Z.of_nat (length l) * st)) as [K|K].
  - unfold before in K. destruct (Z.ltb_spec 0 st); nia.
  - assert (nth_error r (length l) <> None) by (apply nth_error_Some; lia). congruence.
Qed.

Lemma nth_error_firstn_in : forall A n k (l : list A), (k < n)%nat -> nth_error (firstn n l) k = nth_error l k.
Proof. intros A n k l. revert n k. induction l as [|a l IH]; intros [|n] [|k] H; try lia; auto. cbn. apply IH. lia. Qed.
Lemma nth_error_skipn_in : forall A n k (l : list A), nth_error (skipn n l) k = nth_error l (n + k).
Proof. intros A n k l. revert n. induction l as [|a l IH]; intros [|n]; auto; cbn; [destruct k; auto|apply IH]. Qed.
Lemma nth_error_Some_len : forall A (l : list A) k x, nth_error l k = Some x -> (k < length l)%nat.
Proof. intros A l k x H. apply nth_error_Some. congruence. Qed.

Section Prog.
Context {T : Type} (eqb lt : T -> T -> bool) (show : T -> list ascii) (d : T).
Hypothesis (D : decides eqb) (W : strict_weak lt).

Notation step := (lstep eqb lt show d).
Notation spec := (sstep eqb lt show).

Lemma D_refl : forall x, eqb x x = true.
Proof. intros. apply D. auto. Qed.

Lemma D_neq : forall x y, x <> y -> eqb x y = false.
Proof. intros x y N. destruct (eqb x y) eqn:E; auto. apply D in E. contradiction. Qed.


Definition target (c : lstmt T) : option lvar :=
  match c with
  | LSet u _ _ | LInsert u _ _ | LInsertElem u _ _ | LRemove u _ | LAppend u _ | LSub u _ | LTimes u _ | LDiv u _ | LShr u _ | LShl u _
  | LReverse u | LUniquify u | LSort u | LErase u _ _ | LMap u _ | LFilter u _ | LClear u => Some u
  | _ => None
  end.

Ltac fin E := cbn [lstep]; unfold call; rewrite E; reflexivity.

Lemma insert_elem_step : forall s v i k x, list_at (s v) k = Ok x -> step (LInsertElem v i k) s = step (LInsert v i x) s.
Proof. intros s v i k x E. cbn [lstep]. unfold call. rewrite E. auto. Qed.

Lemma mut_complete : forall c l l' ev, mut eqb lt c l l' ev -> forall s v, l = s v -> target c = Some v -> sized s -> int_stmt c ->
  step c s = Ok (lset s v l', ev).
Proof.
  intros c l l' ev Hm. induction Hm; intros s u E Hv S A; inversion Hv; subst; clear Hv; pose proof (S u) as Su;
    try (fold (len (s u)) in Su); cbn [int_stmt] in A; unfold within in *; fold (@len T) in *;
    repeat match goal with X : context [Z.of_nat (length ?l)] |- _ => change (Z.of_nat (length l)) with (len l) in X end.
  - pose proof (set_spec _ (s u) i x Su) as P. rewrite H in P. destruct P as (a' & y' & b' & C & P).
    destruct (cut_unique _ _ _ _ _ _ _ C H0) as (-> & X). inversion X; subst. fin P.
  - pose proof (set_spec _ (s u) i x Su) as P. rewrite H in P. fin P.
  - destruct (insert_spec _ (s u) i x Su) as (_ & _ & P). specialize (P H H0 a b H1). fin P.
  - destruct (insert_spec _ (s u) i x Su) as (_ & P & _). specialize (P H H0). fin P.
  - destruct (insert_spec _ (s u) i x Su) as (P & _ & _). specialize (P H). fin P.
  - rewrite (insert_elem_step s u i k x).
    + apply IHHm; auto. exact (proj1 A).
    + pose proof (at_spec _ (s u) k Su) as P. rewrite H in P. destruct P as (x' & P1 & P2). congruence.
  - pose proof (at_spec _ (s u) k Su) as P. rewrite H in P. fin P.
  - destruct (remove_spec _ (s u) i Su) as (_ & _ & P). specialize (P k H a x b H0). fin P.
  - destruct (remove_spec _ (s u) i Su) as (_ & P & _). specialize (P H H0). fin P.
  - destruct (remove_spec _ (s u) i Su) as (P & _ & _). specialize (P (eq_sym E)). rewrite <- E in P. cbn [lstep]. unfold call. rewrite <- E, P. auto.
  - destruct (append_spec _ (s u) x Su) as (_ & P). specialize (P H). fin P.
  - destruct (append_spec _ (s u) x Su) as (P & _). specialize (P H). fin P.
  - destruct (subtract_spec _ eqb (s u) x) as (_ & P). rewrite Forall_forall in H.
    specialize (P a x b (eq_sym E)). cbn [lstep]. unfold call. rewrite P; auto; [|apply D_refl]. intros z Z. apply D_neq. auto.
  - destruct (subtract_spec _ eqb (s u) x) as (P & _). cbn [lstep]. unfold call. rewrite P; auto.
    intros y Y. apply D_neq. intros ->. auto.
  - destruct (times_spec _ d (s u) n Su) as (_ & P & _). specialize (P H H0). cbn [lstep]. unfold call, list_times_assign. rewrite update_eq, P. auto.
  - destruct (times_spec _ d (s u) n Su) as (P & _). specialize (P H). cbn [lstep]. unfold call, list_times_assign. rewrite update_eq, P. auto.
  - destruct (times_spec _ d (s u) n Su) as (_ & _ & P & _). specialize (P H H0). cbn [lstep]. unfold call, list_times_assign. rewrite update_eq, P. auto.
  - cbn [lstep]. unfold call. rewrite divide_spec. auto.
  - assert (P: list_shr n (s u) = (Ok tt, r)).
    { destruct (Z.eq_dec n INT_MIN) as [->|N].
      - rewrite shr_min by auto. destruct (Z.leb_spec (len (s u)) 1); [|lia]. f_equal.
        apply (rotated_unique _ (s u) _ _ (- INT_MIN) (- INT_MIN)); auto. apply rotated_short. auto.
      - destruct (shr_spec _ (s u) n Su) as (r' & P & R); [unfold INT_MIN, INT_MAX in *; lia|]. rewrite P. f_equal.
        apply (rotated_unique _ (s u) _ _ (- n) (- n)); auto. }
    fin P.
  - destruct (shl_spec _ (s u) n Su) as (r' & P & R). rewrite <- (rotated_unique _ (s u) r' r n n); auto. fin P.
  - reflexivity.
  - cbn [lstep]. unfold call. rewrite uniquify_spec by auto. auto.
  - destruct (list_sort_spec _ lt (s u) W) as (r' & P & R). rewrite <- (stable_unique lt W (s u) r' r); auto. fin P.
  - rewrite E in H. destruct (erase_spec _ (s u) (len a) j H) as (_ & _ & P). specialize (P a m b (eq_sym E) eq_refl H2).
    change (Z.of_nat (length a)) with (len a). fin P.
  - destruct (erase_spec _ (s u) i j H) as (P & _ & _). specialize (P H0). fin P.
  - assert (P: list_map (fun (_ : unit) x => (tt, g x)) tt (s u) = (Ok tt, map g (s u))).
    { unfold list_map. assert (forall l, for_each (fun (_ : unit) x => (tt, g x)) tt l = (tt, map g l)) as ->; auto.
      induction l; cbn [for_each map]; auto. rewrite IHl. auto. }
    fin P.
  - cbn [lstep]. unfold call. rewrite filter_spec. auto.
  - reflexivity.
Qed.

Lemma call_inv : forall A s v (m : M (list T) A) out l' ev, call s v m out = Ok (lset s v l', ev) ->
  (exists a, m (s v) = (Ok a, l') /\ ev = out a) \/ (exists e, m (s v) = (Throw e, l') /\ ev = [LThrow e]).
Proof.
  intros A s v m out l' ev E. unfold call in E. destruct (m (s v)) as [[a|e|u|] l1]; try discriminate; injection E as E1 E2;
    apply (f_equal (fun g => g v)) in E1; rewrite !lset_eq in E1; subst; eauto.
Qed.

(** Copy, then mutate. *)
Lemma copying_step : forall c u v c' s l' ev, copying c u v c' -> mut eqb lt c' (s v) l' ev -> sized s -> int_stmt c ->
  step c s = Ok (match ev with [] => (lset s u l', []) | _ => (s, ev) end).
Proof.
  intros c u v c' s l' ev C M S A. assert (A': int_stmt c') by (destruct C; exact A).
  assert (Tv: target c' = Some v) by (destruct C; reflexivity).
  pose proof (mut_complete _ _ _ _ M s v eq_refl Tv S A') as E. destruct C; cbn [lstep] in E |- *;
  unfold list_plus, list_minus, list_over, on_copy, lassign; apply call_inv in E as [(a & E & ->)|(e & E & ->)];
  try (rewrite E; reflexivity); unfold list_times_assign in E; rewrite update_eq in E; destruct (list_times d (s v) n); inversion E; auto.
Qed.

Lemma contains_in : forall l x a b, len l <= INT_MAX -> 0 <= a <= Z.min b (len l) ->
  exists r, list_contains eqb l x a b = Ok r /\ (r = true <-> In x (firstn (Z.to_nat (b - a)) (skipn (Z.to_nat a) l))).
Proof.
  intros l x a b L B. destruct (contains_spec _ eqb l x a b L B) as (r & E & H). exists r. split; auto. rewrite H. clear E H. unfold len in *. split.
  - intros (k & y & K & Y & Q). apply D in Q. subst y. apply nth_error_In with (Z.to_nat (k - a)).
    rewrite nth_error_firstn_in by lia. rewrite nth_error_skipn_in. replace (Z.to_nat a + Z.to_nat (k - a))%nat with (Z.to_nat k) by lia. auto.
  - intros I. apply In_nth_error in I as (k & K). assert (k < Z.to_nat (b - a))%nat.
    { apply nth_error_Some_len in K. rewrite firstn_length in K. lia. }
    rewrite nth_error_firstn_in, nth_error_skipn_in in K by auto. pose proof (nth_error_Some_len _ _ _ _ K).
    exists (a + Z.of_nat k), x. split; [lia|]. split; [|apply D_refl]. replace (Z.to_nat (a + Z.of_nat k)) with (Z.to_nat a + k)%nat by lia. auto.
Qed.

Lemma complete : forall c s s' ev, sized s -> int_stmt c -> spec c s s' ev -> step c s = Ok (s', ev).
Proof.
  intros c s s' ev S A H. destruct H; cbn [int_stmt] in A;
    repeat match goal with X : context [Z.of_nat (length ?l)] |- _ => change (Z.of_nat (length l)) with (len l) in X end.
  - reflexivity.
  - reflexivity.
  - cbn [lstep]. destruct (Nat.eqb_spec v w); [contradiction|]. auto.
  - eapply mut_complete; eauto. destruct c; try contradiction; subst; reflexivity.
  - pose proof (at_spec _ (s v) i (S v)) as P. rewrite H in P. destruct P as (x' & P1 & P2). cbn [lstep]. unfold lemit. rewrite P2. congruence.
  - pose proof (at_spec _ (s v) i (S v)) as P. rewrite H in P. cbn [lstep]. unfold lemit. rewrite P. auto.
  - cbn [lstep]. unfold call. destruct (Nat.eqb_spec v w); [contradiction|].
    destruct (append_list_spec _ (s v) (s w) (S v) (S w)) as (_ & P). destruct (P H0) as (-> & _). auto.
  - cbn [lstep]. unfold call. assert (list_append_list (s w) (Nat.eqb v w) (s v) = (Throw ContainerFull, s v)) as ->; auto.
    unfold list_append_list. rewrite update_eq, !size_ok by apply S. pose proof (len_nonneg _ (s v)). pose proof (len_nonneg _ (s w)).
    rewrite !Z.quot_div_nonneg by (unfold INT_MAX; lia). unfold check_full. destruct (Z.leb_spec (INT_MAX / 2) (len (s v) / 2 + len (s w) / 2)); [auto|lia].
  - cbn [lstep]. rewrite !size_ok by apply S. destruct (Z.leb_spec (len (s w)) (INT_MAX - len (s v))); [|lia].
    destruct (Nat.eqb_spec v w); [contradiction|]. auto.
  - cbn [lstep]. rewrite !size_ok by apply S. destruct (Z.leb_spec (len (s w)) (INT_MAX - len (s v))); [lia|]. auto.
  - destruct (slice_spec _ (s v) a b st H) as (_ & _ & P). cbv zeta in P.
    destruct (P H0 H1 H2) as [(_ & r' & P1 & P2)|(P1 & _)]; [|contradiction].
    cbn [lstep]. unfold lassign. rewrite P1. rewrite (sliced_unique _ _ _ _ _ _ _ P2 H4). auto.
  - reflexivity.
  - cbn [lstep]. assert (list_slice (s v) a b st = Throw IndexOutOfRange) as ->; auto.
    unfold list_slice. destruct (Z.eqb_spec st 0); [contradiction|]. rewrite neg_size, size_ok by apply S. cbn [bind]. rewrite check_bounds_throw; auto.
  - destruct (slice_spec _ (s v) a b st H) as (_ & P & _). cbn [lstep]. unfold lassign. rewrite P; auto.
  - cbn [lstep]. unfold lassign, list_plus_list, on_copy. destruct (append_list_spec _ (s v) (s w) (S v) (S w)) as (_ & P). destruct (P H) as (-> & _). auto.
  - cbn [lstep]. unfold lassign, list_plus_list, on_copy. destruct (append_list_spec _ (s v) (s w) (S v) (S w)) as (P & _). rewrite P; auto.
  - apply (copying_step _ _ _ _ _ _ _ H H0 S). destruct H; exact A.
  - pose proof (copying_step _ _ _ _ _ _ _ H H0 S) as P. cbv iota in P. apply P. destruct H; exact A.
  - destruct (index_spec _ eqb (s v) x a b (S v)) as (P & _). destruct (P H) as (r' & P1 & P2). cbn [lstep]. unfold lemit. rewrite P1.
    rewrite (first_at_unique _ eqb (s v) x a (Z.min b (len (s v))) r' r); auto; lia.
  - destruct (contains_in (s v) x a b (S v) H) as (r' & P1 & P2). cbn [lstep]. unfold lemit. rewrite P1. repeat f_equal. destruct r, r'; intuition congruence.
  - cbn [lstep]. unfold lemit. rewrite count_spec by apply S. auto.
  - cbn [lstep]. unfold lemit. rewrite size_ok by apply S. auto.
  - cbn [lstep]. unfold lemit. repeat f_equal. destruct (s v), b; cbn; intuition congruence.
  - cbn [lstep]. unfold lemit. repeat f_equal. pose proof (eqb_spec _ eqb D (s v) (s w)) as E. destruct (list_eqb eqb (s v) (s w)), b; intuition congruence.
  - cbn [lstep]. unfold lemit, list_print. rewrite print_spec. auto.
Qed.

Lemma insert_mut : forall v i x (l : list T), len l <= INT_MAX -> exists l' ev, mut eqb lt (LInsert v i x) l l' ev /\ len l' <= INT_MAX.
Proof.
  intros v i x l Sv. pose proof (len_nonneg _ l). destruct (Z.eq_dec (len l) INT_MAX).
  - exists l, [LThrow ContainerFull]. split; auto. apply m_insert_full; auto.
  - destruct (Z_le_dec (- len l) i); [destruct (Z_le_dec i (len l))|].
    + assert (FB: 0 <= from_back (len l) i <= len l) by (unfold from_back; destruct (Z.ltb_spec i 0); lia).
      destruct (cut_at _ l _ FB) as (a & b & C). exists (a ++ x :: b), []. split.
      * apply m_insert; auto; unfold within, len in *; lia.
      * destruct C as (-> & _). rewrite len_app in *. rewrite len_cons. lia.
    + exists l, [LThrow IndexOutOfRange]. split; auto. apply m_insert_bad; unfold within, len in *; lia.
    + exists l, [LThrow IndexOutOfRange]. split; auto. apply m_insert_bad; unfold within, len in *; lia.
Qed.

(** The specification covers everything that is not undefined. *)
Lemma sound : forall c s, sized s -> int_stmt c ->
  (exists s' ev, spec c s s' ev /\ sized s') \/ (lundef c s /\ exists u, step c s = UB u).
Proof.
  intros c s S A.
  assert (MU: forall v l' ev, target c = Some v -> mut eqb lt c (s v) l' ev -> len l' <= INT_MAX ->
    exists s' ev, spec c s s' ev /\ sized s').
  { intros v l' ev Tv M L. exists (lset s v l'), ev. split; [|apply sized_set; auto]. apply s_mut; auto. destruct c; try discriminate; inversion Tv; auto. }
  assert (SE: forall ev, spec c s s ev -> exists s' ev, spec c s s' ev /\ sized s') by (intros; eauto).
  assert (PZ: forall l : list T, 0 <= len l) by (intros; apply len_nonneg).
  destruct c; cbn [int_stmt] in A; try (pose proof (S v) as Sv; fold (len (s v)) in Sv; pose proof (PZ (s v)));
    try (pose proof (S w) as Sw; fold (len (s w)) in Sw; pose proof (PZ (s w))).
  - left. do 2 eexists. split; [apply s_init|apply sized_set; auto].
  - left. do 2 eexists. split; [apply s_copy|apply sized_set; auto].
  - destruct (Nat.eq_dec v w) as [->|N].
    + right. split; [cbn [lundef]; unfold len in *; solve [auto|lia]|]. cbn [lstep]. rewrite Nat.eqb_refl. eauto.
    + left. do 2 eexists. split; [apply s_move; auto|]. apply sized_set; [apply sized_set; auto|]. rewrite len_nil. unfold INT_MAX. lia.
  - left. destruct (position (len (s v)) i) as [k|] eqn:P.
    + pose proof (position_some _ _ _ P) as (B & _). destruct (cut_elem _ (s v) _ B) as (a & y & b & C).
      apply (MU v (a ++ x :: b) []); auto; [eapply m_set; eauto|]. destruct (cut_len _ _ _ _ _ C) as (X1 & X2). rewrite len_cons in X2. rewrite len_app, len_cons. lia.
    + apply (MU v (s v) [LThrow IndexOutOfRange]); auto. apply m_set_bad; auto.
  - left. destruct (position (len (s v)) i) as [k|] eqn:P.
    + pose proof (at_spec _ (s v) i Sv) as X. rewrite P in X. destruct X as (x & X & _). eapply SE. eapply s_get; eauto.
    + eapply SE. apply s_get_bad; auto.
  - left. destruct (insert_mut v i x (s v) Sv) as (l' & ev & M & L). eapply MU; eauto; reflexivity.
  - left. destruct (position (len (s v)) k) as [p|] eqn:P.
    + pose proof (at_spec _ (s v) k Sv) as X. rewrite P in X. destruct X as (x & X & _).
      destruct (insert_mut v i x (s v) Sv) as (l' & ev & M & L). eapply (MU v l' ev); auto. eapply m_insert_elem; eauto.
    + apply (MU v (s v) [LThrow IndexOutOfRange]); auto. apply m_insert_elem_bad; auto.
  - left. destruct (position (len (s v)) i) as [k|] eqn:P.
    + pose proof (position_some _ _ _ P) as (B & _). destruct (cut_elem _ (s v) _ B) as (a & y & b & C).
      apply (MU v (a ++ b) [LElem y]); auto; [eapply m_remove; eauto|]. destruct (cut_len _ _ _ _ _ C) as (X1 & X2). rewrite len_cons in X2. rewrite len_app. lia.
    + destruct (s v) eqn:E.
      * apply (MU v [] [LThrow ContainerEmpty]); auto; rewrite ?E; auto. apply m_remove_empty.
      * apply (MU v (s v) [LThrow IndexOutOfRange]); auto; rewrite E; auto. apply m_remove_bad; auto. discriminate.
  - left. destruct (Z.eq_dec (len (s v)) INT_MAX).
    + apply (MU v (s v) [LThrow ContainerFull]); auto. apply m_append_full; auto.
    + apply (MU v (s v ++ [x]) []); auto; [apply m_append; unfold len in *; lia|]. rewrite len_app, len_cons, len_nil. lia.
  - destruct (Z_lt_dec (len (s v) / 2 + len (s w) / 2) (INT_MAX / 2)) as [L|L].
    + destruct (Nat.eq_dec v w) as [->|N].
      * right. split; [cbn [lundef]; unfold len in *; solve [auto|lia]|]. cbn [lstep]. unfold call. rewrite Nat.eqb_refl, append_self; [eauto|auto|lia].
      * left. do 2 eexists. split; [apply s_append_list; auto|]. apply sized_set; auto.
        destruct (append_list_spec _ (s v) (s w) Sv Sw) as (_ & P). destruct (P L). lia.
    + left. do 2 eexists. split; [apply s_append_list_full; unfold len in *; lia|]. apply sized_set; auto.
  - left. destruct (find_split _ eqb (s v) x) as [(_ & N)|(a & y & b & E & _ & Y & N)].
    + apply (MU v (s v) []); auto. apply m_sub_absent. intros I. apply N in I. rewrite D_refl in I. discriminate.
    + apply (MU v (a ++ b) []); auto.
      * rewrite E. apply m_sub; [|apply D; auto]. apply Forall_forall. intros z Z ->. apply N in Z. rewrite D_refl in Z. discriminate.
      * rewrite E, len_app, len_cons in Sv. rewrite len_app. lia.
  - destruct (Z_lt_dec n 0) as [N|N].
    + left. apply (MU v (s v) [LThrow NegativeTimes]); auto. apply m_times_neg; auto.
    + destruct (Z.lt_trichotomy (len (s v) * n) INT_MAX) as [L|[L|L]].
      * left. apply (MU v (concat (repeat (s v) (Z.to_nat n))) []); auto; [apply m_times; auto; lia|]. rewrite concat_repeat_len. rewrite Z2Nat.id; lia.
      * left. apply (MU v (s v) [LThrow ContainerFull]); auto. apply m_times_full; auto; lia.
      * right. split; [cbn [lundef]; unfold len in *; lia|]. destruct (times_spec _ d (s v) n Sv) as (_ & _ & _ & P). cbn [lstep]. unfold call, list_times_assign. rewrite update_eq, P by lia. eauto.
  - left. apply (MU v (filter (fun y => negb (eqb y x)) (s v)) []); auto; [apply m_div|]. pose proof (filter_len _ (fun y => negb (eqb y x)) (s v)). lia.
  - destruct (Z.eq_dec n INT_MIN) as [->|N].
    + pose proof (shr_min _ (s v) Sv) as P. destruct (Z.leb_spec (len (s v)) 1).
      * left. apply (MU v (s v) []); auto. apply m_shr; [auto|]. apply rotated_short; auto.
      * right. split; [cbn [lundef]; unfold len in *; solve [auto|lia]|]. cbn [lstep]. unfold call. rewrite P. eauto.
    + left. destruct (shr_spec _ (s v) n Sv) as (r & P & R); [unfold INT_MIN, INT_MAX in *; lia|].
      apply (MU v r []); auto; [apply m_shr; auto; left; unfold INT_MIN in *; lia|]. destruct R. unfold len in *. lia.
  - left. destruct (shl_spec _ (s v) n Sv) as (r & P & R). apply (MU v r []); auto; [apply m_shl; auto|]. destruct R. unfold len in *. lia.
  - left. apply (MU v (rev (s v)) []); auto; [apply m_reverse|]. unfold len in *. rewrite rev_length. lia.
  - left. apply (MU v (firsts eqb (s v)) []); auto; [apply m_uniquify|]. pose proof (firsts_len _ eqb (s v)). lia.
  - left. destruct (list_sort_spec _ lt (s v) W) as (r & P & R). apply (MU v r []); auto; [apply m_sort; auto|].
    destruct R as (R & _). apply Permutation_length in R. unfold len in *. lia.
  - destruct (Z.eq_dec (len (s v)) INT_MAX) as [E|E].
    { right. split; [cbn [lundef]; unfold len in *; solve [auto|lia]|]. cbn [lstep]. unfold call. rewrite erase_full by auto. eauto. }
    assert (dec: {0 <= a <= len (s v) /\ 0 <= b <= len (s v)} + {~ (0 <= a <= len (s v)) \/ ~ (0 <= b <= len (s v))}).
    { destruct (Z_le_dec 0 a), (Z_le_dec a (len (s v))), (Z_le_dec 0 b), (Z_le_dec b (len (s v))); (left; lia) || (right; lia). }
    destruct dec as [(B1 & B2)|B].
    + destruct (Z_lt_dec b a) as [G|G].
      * right. split; [cbn [lundef]; unfold len in *; lia|]. destruct (erase_spec _ (s v) a b ltac:(lia)) as (_ & P & _). cbn [lstep]. unfold call. rewrite P by auto. eauto.
      * left. destruct (erase_cut _ (s v) a b) as (p & m & q & C1 & C2 & C3); [lia|lia|].
        apply (MU v (p ++ q) []); auto; [apply (m_erase eqb lt v a b (s v) p m q); auto; unfold len in *; lia|].
        rewrite C1, !len_app in Sv. rewrite len_app. pose proof (PZ m). lia.
    + left. apply (MU v (s v) [LThrow IndexOutOfRange]); auto. apply m_erase_bad; unfold within, len in *; [lia|auto].
  - left. apply (MU v (map g (s v)) []); auto; [apply m_map|]. unfold len in *. rewrite map_length. lia.
  - left. apply (MU v (filter p (s v)) []); auto; [apply m_filter|]. pose proof (filter_len _ p (s v)). lia.
  - destruct (Z_le_dec (len (s v) + len (s w)) INT_MAX) as [L|L].
    + destruct (Nat.eq_dec v w) as [->|N].
      * right. split; [cbn [lundef]; unfold len in *; solve [auto|lia]|]. cbn [lstep]. rewrite !size_ok by auto. destruct (Z.leb_spec (len (s w)) (INT_MAX - len (s w))); [|lia]. rewrite Nat.eqb_refl. eauto.
      * left. do 2 eexists. split; [apply s_extend; auto|]. apply sized_set; auto. rewrite len_app. lia.
    + left. do 2 eexists. split; [apply s_extend_no; unfold len in *; lia|auto].
  - left. apply (MU v [] []); auto; [apply m_clear|]. rewrite len_nil. unfold INT_MAX. lia.
  - destruct (Z.eq_dec s0 0) as [->|N].
    { left. do 2 eexists. split; [apply s_slice_step|auto]. }
    assert (dec: {- len (s v) <= a < len (s v)} + {~ (- len (s v) <= a < len (s v))}).
    { destruct (Z_le_dec (- len (s v)) a), (Z_lt_dec a (len (s v))); (left; lia) || (right; lia). }
    destruct dec as [B1|B1]; [|left; do 2 eexists; split; [apply s_slice_start; auto|auto]].
    destruct (Z.eq_dec (len (s v)) INT_MAX) as [E|E].
    { right. split; [cbn [lundef]; unfold len in *; solve [auto|lia]|]. cbn [lstep]. rewrite slice_full by auto. cbn [lassign]. eauto. }
    assert (dec: {- len (s v) - 1 <= b <= len (s v)} + {~ (- len (s v) - 1 <= b <= len (s v))}).
    { destruct (Z_le_dec (- len (s v) - 1) b), (Z_le_dec b (len (s v))); (left; lia) || (right; lia). }
    destruct dec as [B2|B2]; [|left; do 2 eexists; split; [apply s_slice_stop; auto; unfold len in *; lia|auto]].
    destruct (slice_spec _ (s v) a b s0 ltac:(lia)) as (_ & _ & P). cbv zeta in P. destruct (P N B1 B2) as [(F & r & P1 & P2)|(F & P1)].
    + left. do 2 eexists. split; [apply s_slice; eauto; unfold len in *; lia|]. apply sized_set; auto.
      pose proof (sliced_len T (s v) r (from_back (len (s v)) a) (from_back (len (s v)) b) s0 N) as X. specialize (X ltac:(unfold from_back; destruct (Z.ltb_spec a 0); lia)
        ltac:(unfold from_back; destruct (Z.ltb_spec b 0); lia) P2). lia.
    + right. split; [cbn [lundef]; unfold len in *; solve [auto|lia]|]. cbn [lstep]. rewrite P1. cbn [lassign]. eauto.
  - destruct (Z_lt_dec (len (s v) / 2 + len (s w) / 2) (INT_MAX / 2)) as [L|L].
    + left. do 2 eexists. split; [apply s_plus; auto|]. apply sized_set; auto.
      destruct (append_list_spec _ (s v) (s w) Sv Sw) as (_ & P). destruct (P L). lia.
    + left. do 2 eexists. split; [apply s_plus_full; unfold len in *; lia|auto].
  - left. destruct (Z.eq_dec (len (s v)) INT_MAX).
    + eapply SE. eapply s_copying_throw; [constructor|]. apply m_append_full; auto.
    + do 2 eexists. split; [eapply s_copying; [constructor|apply m_append; unfold len in *; lia]|]. apply sized_set; auto. rewrite len_app, len_cons, len_nil. lia.
  - left. destruct (find_split _ eqb (s v) x) as [(_ & N)|(a & y & b & E & _ & Y & N)].
    + do 2 eexists. split; [eapply s_copying; [constructor|apply m_sub_absent]|apply sized_set; auto].
      intros I. apply N in I. rewrite D_refl in I. discriminate.
    + do 2 eexists. split; [eapply s_copying; [constructor|]|].
      * rewrite E. apply m_sub; [|apply D; auto]. apply Forall_forall. intros z Z ->. apply N in Z. rewrite D_refl in Z. discriminate.
      * apply sized_set; auto. rewrite E, len_app, len_cons in Sv. rewrite len_app. lia.
  - left. do 2 eexists. split; [eapply s_copying; [constructor|apply m_div]|apply sized_set; auto]. pose proof (filter_len _ (fun y => negb (eqb y x)) (s v)). lia.
  - destruct (Z_lt_dec n 0) as [N|N].
    + left. eapply SE. eapply s_copying_throw; [constructor|]. apply m_times_neg; auto.
    + destruct (Z.lt_trichotomy (len (s v) * n) INT_MAX) as [L|[L|L]].
      * left. do 2 eexists. split; [eapply s_copying; [constructor|apply m_times; auto; lia]|]. apply sized_set; auto. rewrite concat_repeat_len. rewrite Z2Nat.id; lia.
      * left. eapply SE. eapply s_copying_throw; [constructor|]. apply m_times_full; auto; lia.
      * right. split; [cbn [lundef]; unfold len in *; lia|]. destruct (times_spec _ d (s v) n Sv) as (_ & _ & _ & P). cbn [lstep]. unfold lassign. rewrite P by lia. eauto.
  - destruct (index_spec _ eqb (s v) x a b Sv) as (P & Q).
    assert (dec: {0 <= a <= Z.min b (len (s v))} + {~ (0 <= a <= Z.min b (len (s v)))}).
    { destruct (Z_le_dec 0 a), (Z_le_dec a (Z.min b (len (s v)))); (left; lia) || (right; lia). }
    destruct dec as [B|B].
    + left. destruct (P B) as (r & _ & R). do 2 eexists. split; [eapply s_index; eauto|auto].
    + right. split; [cbn [lundef]; unfold len in *; solve [auto|lia]|]. cbn [lstep]. rewrite Q by auto. cbn [lemit]. eauto.
  - assert (dec: {0 <= a <= Z.min b (len (s v))} + {~ (0 <= a <= Z.min b (len (s v)))}).
    { destruct (Z_le_dec 0 a), (Z_le_dec a (Z.min b (len (s v)))); (left; lia) || (right; lia). }
    destruct dec as [B|B].
    + left. destruct (contains_in (s v) x a b Sv B) as (r & _ & R). do 2 eexists. split; [eapply s_contains; eauto|auto].
    + right. split; [cbn [lundef]; unfold len in *; solve [auto|lia]|]. destruct (index_spec _ eqb (s v) x a b Sv) as (_ & Q).
      cbn [lstep]. unfold list_contains. rewrite Q by auto. cbn [lemit bind]. eauto.
  - left. do 2 eexists. split; [apply s_count|auto].
  - left. do 2 eexists. split; [apply s_size|auto].
  - left. do 2 eexists. split; [apply (s_is_empty _ _ _ _ _ (list_is_empty (s v))); destruct (s v); cbn; intuition congruence|auto].
  - left. do 2 eexists. split; [apply s_equal; apply (eqb_spec _ eqb D)|auto].
  - left. do 2 eexists. split; [apply s_print|auto].
Qed.

Theorem step_exact : forall c s s' ev, sized s -> int_stmt c -> step c s = Ok (s', ev) <-> spec c s s' ev.
Proof.
  intros c s s' ev S A. split; [|apply complete; auto]. intros E. destruct (sound c s S A) as [(s2 & ev2 & P & _)|(_ & u & P)]; [|congruence].
  pose proof (complete _ _ _ _ S A P) as Q. congruence.
Qed.

Theorem undefined_exact : forall c s, sized s -> int_stmt c -> (exists u, step c s = UB u) <-> lundef c s.
Proof.
  intros c s S A. split.
  - intros (u & E). destruct (sound c s S A) as [(s2 & ev2 & P & _)|(U & _)]; auto. pose proof (complete _ _ _ _ S A P). congruence.
  - intros U. destruct c; cbn [lundef] in U; try contradiction; cbn [lstep]; unfold call; pose proof (S v) as Sv; fold (len (s v)) in *.
    + subst. rewrite Nat.eqb_refl. eauto.
    + destruct U as (-> & U). pose proof (S w). rewrite Nat.eqb_refl, append_self; unfold len in *; [eauto|auto|lia].
    + destruct (times_spec _ d (s v) n Sv) as (_ & _ & _ & P). unfold list_times_assign. rewrite update_eq, P by lia. eauto.
    + destruct U as (-> & U). rewrite shr_min by auto. destruct (Z.leb_spec (len (s v)) 1); [lia|]. eauto.
    + destruct (Z.eq_dec (len (s v)) INT_MAX) as [E|E]; [rewrite erase_full by auto; eauto|].
      destruct (erase_spec _ (s v) a b ltac:(lia)) as (_ & P & _). rewrite P by lia. eauto.
    + destruct U as (-> & U). rewrite !size_ok by auto. destruct (Z.leb_spec (len (s w)) (INT_MAX - len (s w))); [|unfold len in *; lia]. rewrite Nat.eqb_refl. eauto.
    + destruct U as (N & B & U). destruct (Z.eq_dec (len (s v)) INT_MAX) as [E|E].
      { rewrite slice_full by auto. cbn [lassign]. eauto. }
      destruct U as [|(B2 & F)]; [contradiction|]. destruct (slice_spec _ (s v) a b s0 ltac:(lia)) as (_ & _ & P). cbv zeta in P.
      destruct (P N B B2) as [(F' & _)|(_ & P1)]; [contradiction|]. rewrite P1. cbn [lassign]. eauto.
    + destruct (times_spec _ d (s v) n Sv) as (_ & _ & _ & P). unfold lassign. rewrite P by lia. eauto.
    + destruct (index_spec _ eqb (s v) x a b Sv) as (_ & Q). rewrite Q by auto. cbn [lemit]. eauto.
    + destruct (index_spec _ eqb (s v) x a b Sv) as (_ & Q). unfold list_contains. rewrite Q by auto. cbn [lemit bind]. eauto.
Qed.

Lemma step_sized : forall c s s' ev, sized s -> int_stmt c -> step c s = Ok (s', ev) -> sized s'.
Proof.
  intros c s s' ev S A E. destruct (sound c s S A) as [(s2 & ev2 & P & Z)|(_ & u & P)]; [|congruence].
  pose proof (complete _ _ _ _ S A P) as Q. congruence.
Qed.

Theorem run_exact : forall prog s, sized s -> Forall int_stmt prog -> forall s' ev,
  lrun eqb lt show d prog s = Ok (s', ev) <-> srun eqb lt show prog s s' ev.
Proof.
  induction prog as [|c prog]; intros s S A s' ev; cbn [lrun].
  - split; intros H; inversion H; subst; auto. constructor.
  - inversion A as [|c' p' A1 A2]; subst. split.
    + destruct (step c s) as [(s1, ev1)|?|?|] eqn:E; cbn [bind]; try discriminate.
      cbn [fst snd]. destruct (lrun eqb lt show d prog s1) as [(s2, ev2)|?|?|] eqn:F; cbn [bind fst snd]; try discriminate.
      intros X; inversion X; subst. pose proof (step_sized _ _ _ _ S A1 E) as S1. econstructor; [apply step_exact; eauto|apply IHprog; auto].
    + intros H. inversion H as [|c' r' s0 s1 s2 ev1 ev2 H1 H2]; subst. pose proof (complete _ _ _ _ S A1 H1) as E. rewrite E. cbn [bind fst snd].
      pose proof (step_sized _ _ _ _ S A1 E) as S1. apply (IHprog s1 S1 A2) in H2. rewrite H2. auto.
Qed.

Theorem run_defined : forall prog s, sized s -> Forall int_stmt prog ->
  (exists s' ev, srun eqb lt show prog s s' ev /\ sized s') \/ (exists u, lrun eqb lt show d prog s = UB u).
Proof.
  induction prog as [|c prog]; intros s S A; cbn [lrun].
  - left. exists s, []. split; [constructor|auto].
  - inversion A as [|c' p' A1 A2]; subst. destruct (sound c s S A1) as [(s1 & ev1 & P & S1)|(_ & u & P)].
    + rewrite (complete _ _ _ _ S A1 P). cbn [bind fst snd]. destruct (IHprog s1 S1 A2) as [(s2 & ev2 & Q & S2)|(u & Q)].
      * left. do 2 eexists. split; [econstructor; eauto|auto].
      * right. exists u. rewrite Q. auto.
    + right. exists u. rewrite P. auto.
Qed.
End Prog.
