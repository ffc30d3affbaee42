(** Nested containers, and containers extended by themselves. *)
From Coq Require Import ZArith List Bool Lia.
From Verif Require Import Outcome ListModel ListSpec ListProgModel DequeModel SetModel SetSpec DictModel NestModel NestSpec ListFacts ListMore SetFacts SetMore DictFacts ListAlgebra.
Import ListNotations.
Open Scope Z_scope.

(** ** Self-extension *)

Lemma self_guard : forall T (l : list T), 2 * len l <= INT_MAX -> (size l <=? INT_MAX - size l) = true.
Proof. intros T l H. pose proof (len_nonneg _ l). rewrite size_ok by lia. apply Z.leb_le. lia. Qed.

Lemma self_extend_list : forall T eqb lt show (d : T) (s : lstore T) v, 2 * len (s v) <= INT_MAX ->
  lstep eqb lt show d (LExtend v v) s = UB SelfRange.
Proof. intros. cbn [lstep]. rewrite self_guard, Nat.eqb_refl by auto. auto. Qed.

Lemma self_extend_deque : forall T eqb show (s : dstore T) v, 2 * len (s v) <= INT_MAX ->
  dstep eqb show (DExtendBack v v) s = UB SelfRange /\ dstep eqb show (DExtendFront v v) s = UB SelfRange.
Proof. intros. cbn [dstep]. rewrite self_guard, Nat.eqb_refl by auto. auto. Qed.

Lemma self_extend_set : forall T lt eqb show (s : tstore T) v, 2 * len (s v) <= INT_MAX ->
  tstep lt eqb show (TExtendSet v v) s = UB SelfRange.
Proof. intros. cbn [tstep]. unfold tguard. rewrite self_guard, Nat.eqb_refl by auto. auto. Qed.

Lemma self_extend_dict : forall K V ltk eqk ltv eqv showk showv (s : mstore K V) v, 2 * len (s v) <= INT_MAX ->
  mstep ltk eqk ltv eqv showk showv (MExtendDict v v) s = UB SelfRange.
Proof. intros. cbn [mstep]. unfold mguard. rewrite self_guard, Nat.eqb_refl by auto. auto. Qed.

Lemma doubling : forall T (d : T) l, 2 * len l <= INT_MAX - 3 ->
  list_plus_list l l = Ok (l ++ l) /\ list_times d l 2 = Ok (l ++ l) /\ list_append_list l false l = (Ok tt, l ++ l).
Proof.
  intros T d l H. pose proof (len_nonneg _ l).
  assert (A: list_append_list l false l = (Ok tt, l ++ l)) by (apply append_small; lia).
  split; [unfold list_plus_list, on_copy; rewrite A; auto|]. split; auto.
  rewrite times_small by lia. change (Z.to_nat 2) with 2%nat. cbn [repeat concat]. rewrite app_nil_r. auto.
Qed.

(** ** Orders of nested containers *)

Lemma synth_total : forall T (lt : T -> T -> bool), strict_total lt ->
  total_order (synth_cmp lt) (fun x y => lt x y = true).
Proof.
  intros T lt (I & Tr & To). split; [|split; auto].
  - intros x y. unfold synth_cmp. destruct (lt x y) eqn:A; [constructor; auto|].
    destruct (lt y x) eqn:B; constructor; auto. destruct (To x y) as [|[|]]; congruence.
  - intros x. rewrite I. discriminate.
Qed.

Lemma total_seq : forall T (cmp : T -> T -> comparison) lt, total_order cmp lt ->
  strict_total (seq_lt cmp) /\
  (forall v w, seq_le cmp v w = true <-> seq_lt cmp v w = true \/ v = w) /\
  (forall v w, seq_le cmp v w = true -> seq_le cmp w v = true -> v = w).
Proof.
  intros T cmp lt O. pose proof (list_total_order _ _ _ O) as (C & I & Tr).
  assert (L: forall v w, seq_lt cmp v w = true <-> lex_lt lt v w).
  { intros v w. unfold seq_lt. destruct (C v w) as [E|E|E]; split; intros K; auto; try discriminate.
    - subst. elim (I _ K).
    - elim (I v). eapply Tr; eauto. }
  assert (LE: forall v w, seq_le cmp v w = true <-> seq_lt cmp v w = true \/ v = w).
  { intros v w. rewrite L. unfold seq_le. destruct (C v w) as [E|E|E]; split; intros K; auto; try discriminate.
    destruct K as [K|K]; [elim (I v); eapply Tr; eauto|subst; elim (I _ E)]. }
  split; [|split; auto].
  - split; [|split].
    + intros v. apply not_true_is_false. rewrite L. apply I.
    + intros u v w. rewrite !L. apply Tr.
    + intros v w. rewrite !L. destruct (C v w); auto.
  - intros v w. rewrite !LE, !L. intros [A|A] [B|B]; auto. elim (I v). eapply Tr; eauto.
Qed.

Lemma seq_of_total : forall T (lt : T -> T -> bool), strict_total lt -> strict_total (seq_lt (synth_cmp lt)).
Proof. intros T lt H. apply (total_seq T _ _ (synth_total T lt H)). Qed.

Lemma pair_of_total : forall K V (ltk : K -> K -> bool) (ltv : V -> V -> bool), strict_total ltk -> strict_total ltv ->
  strict_total (pair_lt ltk ltv).
Proof. intros. apply pair_total; auto. Qed.

(** ** Lists of sets *)

Lemma sets_order_witness :
  seq_le (synth_cmp (set_lt Z.ltb)) [[1]] [[2]] = true /\ seq_le (synth_cmp (set_lt Z.ltb)) [[2]] [[1]] = true /\
  list_eqb (set_eqb Z.eqb) [[1]] [[2]] = false.
Proof. vm_compute. auto. Qed.

Lemma sets_cycle_witness : exists a b c : list (list Z),
  seq_lt (synth_cmp (set_lt Z.ltb)) a b = true /\ seq_lt (synth_cmp (set_lt Z.ltb)) b c = true /\
  seq_lt (synth_cmp (set_lt Z.ltb)) c a = true.
Proof. exists [[1; 3]; []], [[2]; [1]], [[1]; [1; 2]]. vm_compute. auto. Qed.

Lemma sort_sets_witness : list_sort (set_lt Z.ltb) [[1; 3]; [2]; [1]] = (Ok tt, [[1; 3]; [2]; [1]]) /\
  set_lt Z.ltb [1] [1; 3] = true.
Proof. vm_compute. auto. Qed.

Lemma dict_sets_witness : dict_of (set_lt Z.ltb) [([1], 10); ([2], 20)] = [([1], 10)] /\
  dict_at (set_lt Z.ltb) [([1], 10)] [2] = Ok 10 /\ dict_add (set_lt Z.ltb) [2] 20 [([1], 10)] = (Ok false, [([1], 10)]).
Proof. vm_compute. auto. Qed.

Lemma sort_insert_in : forall T (lt : T -> T -> bool) x l y, In y (sort_insert lt x l) -> y = x \/ In y l.
Proof.
  induction l as [|z l]; cbn [sort_insert In]; intros y H; [intuition|].
  destruct (lt z x); cbn [In] in H; [|intuition]. destruct H as [|H]; auto. destruct (IHl _ H); auto.
Qed.

Lemma stable_in : forall T (lt : T -> T -> bool) l y, In y (std_stable_sort lt l) -> In y l.
Proof.
  induction l as [|x l]; cbn [std_stable_sort]; intros y H; auto.
  destruct (sort_insert_in _ _ _ _ _ H); [left|right]; auto.
Qed.

Lemma sort_insert_ext : forall T (lt lt' : T -> T -> bool) x l, (forall y, In y l -> lt y x = lt' y x) ->
  sort_insert lt x l = sort_insert lt' x l.
Proof.
  induction l as [|y l]; cbn [sort_insert]; intros H; auto. rewrite (H y) by (left; auto).
  rewrite IHl; auto. intros z Z. apply H. right; auto.
Qed.

Lemma stable_ext : forall T (lt lt' : T -> T -> bool) l, (forall x y, In x l -> In y l -> lt x y = lt' x y) ->
  std_stable_sort lt l = std_stable_sort lt' l.
Proof.
  induction l as [|x l]; cbn [std_stable_sort]; intros H; auto.
  rewrite IHl by (intros; apply H; right; auto). apply sort_insert_ext.
  intros y Y. apply H; [right; eapply stable_in; eauto|left; auto].
Qed.

Lemma set_lt_len : forall T (lt : T -> T -> bool), strict_total lt -> forall a b, increasing lt a -> increasing lt b ->
  len a <= INT_MAX -> len b <= INT_MAX -> incl a b \/ incl b a -> set_lt lt a b = (len a <? len b).
Proof.
  intros T lt O a b A B LA LB H. unfold set_lt. rewrite !size_ok by auto.
  assert (L: set_le lt a b = true <-> incl a b) by (apply (includes_ok _ O); auto).
  pose proof (inc_nodup _ O a A) as NA. pose proof (inc_nodup _ O b B) as NB.
  destruct H as [H|H].
  - rewrite (proj2 L H), andb_true_r. pose proof (NoDup_incl_length NA H). unfold len in *.
    destruct (Z.ltb_spec (Z.of_nat (length a)) (Z.of_nat (length b))); [apply negb_true_iff, Z.eqb_neq|apply negb_false_iff, Z.eqb_eq]; lia.
  - pose proof (NoDup_incl_length NB H). unfold len in *.
    destruct (Z.ltb_spec (Z.of_nat (length a)) (Z.of_nat (length b))); [lia|].
    apply not_true_is_false. rewrite andb_true_iff, negb_true_iff, Z.eqb_neq, L. intros (K1 & K2).
    pose proof (NoDup_incl_length NA K2). lia.
Qed.

Lemma sort_chain : forall T (lt : T -> T -> bool) l, strict_total lt -> chain lt l ->
  exists r, list_sort (set_lt lt) l = (Ok tt, r) /\ stably_sorted (fun a b => len a <? len b) l r.
Proof.
  intros T lt l O (C1 & C2).
  assert (E: list_sort (set_lt lt) l = list_sort (fun a b => len a <? len b) l).
  { unfold list_sort. rewrite !update_eq. rewrite (stable_ext _ (set_lt lt) (fun a b => len a <? len b)); auto.
    intros a b A B. destruct (C1 a A) as (IA & LA). destruct (C1 b B) as (IB & LB). apply set_lt_len; auto. }
  rewrite E. apply list_sort_spec. split; [|split]; intros.
  - apply Z.ltb_irrefl.
  - apply Z.ltb_lt in H, H0. apply Z.ltb_lt. lia.
  - rewrite !Z.ltb_lt in *. lia.
Qed.

(** ** Sets of sets that form a chain *)

Definition by_size {T} (lt : T -> T -> bool) (a b : list T) : bool :=
  (len a <? len b) || ((len a =? len b) && seq_lt (synth_cmp lt) a b).

Lemma by_size_total : forall T (lt : T -> T -> bool), strict_total lt -> strict_total (by_size lt).
Proof.
  intros T lt O. destruct (seq_of_total T lt O) as (I & Tr & To). unfold by_size. split; [|split].
  - intros x. rewrite Z.ltb_irrefl, Z.eqb_refl, I. auto.
  - intros x y z. rewrite !orb_true_iff, !andb_true_iff, !Z.ltb_lt, !Z.eqb_eq.
    intros [A|(A & A')] [B|(B & B')]; [left|left|left|right]; try lia. split; [lia|eauto].
  - intros x y. rewrite !orb_true_iff, !andb_true_iff, !Z.ltb_lt, !Z.eqb_eq.
    destruct (Z.lt_trichotomy (len x) (len y)) as [|[|]]; auto. destruct (To x y) as [|[|]]; auto.
Qed.

Lemma by_size_chain : forall T (lt : T -> T -> bool) l, strict_total lt -> chain lt l ->
  forall a b, In a l -> In b l -> set_lt lt a b = by_size lt a b.
Proof.
  intros T lt l O (C1 & C2) a b A B. destruct (C1 a A) as (IA & LA). destruct (C1 b B) as (IB & LB).
  rewrite (set_lt_len T lt O) by auto. unfold by_size.
  destruct (Z.ltb_spec (len a) (len b)); auto. cbn [orb]. symmetry.
  destruct (Z.eqb_spec (len a) (len b)) as [E|]; auto. cbn [andb].
  assert (a = b); [|subst; apply (proj1 (seq_of_total T lt O))].
  pose proof (inc_nodup _ O a IA). pose proof (inc_nodup _ O b IB).
  apply (inc_unique _ O a b); auto. intros x. destruct (C2 a b A B) as [K|K].
  - split; [apply K|]. apply (NoDup_length_incl (l := a)); auto. unfold len in E; lia.
  - split; [|apply K]. apply (NoDup_length_incl (l := b)); auto. unfold len in E; lia.
Qed.

Lemma lower_ext : forall T (lt lt' : T -> T -> bool) x l, (forall y, In y l -> lt y x = lt' y x) ->
  lower_bound lt x l = lower_bound lt' x l.
Proof.
  induction l as [|y l]; cbn [lower_bound]; intros H; auto. rewrite (H y) by (left; auto).
  rewrite IHl; auto. intros z Z. apply H. right; auto.
Qed.

Lemma lower_in : forall T (lt : T -> T -> bool) x l a b, lower_bound lt x l = (a, b) -> l = a ++ b.
Proof.
  induction l as [|y l]; cbn [lower_bound]; intros a b H; [inversion H; auto|].
  destruct (lt y x); [|inversion H; auto]. destruct (lower_bound lt x l) as (a1 & b1). inversion H; subst.
  cbn [app]. f_equal. apply IHl; auto.
Qed.

Lemma insert_ext : forall T (lt lt' : T -> T -> bool) x l, (forall y, In y l -> lt y x = lt' y x /\ lt x y = lt' x y) ->
  std_insert lt x l = std_insert lt' x l.
Proof.
  intros T lt lt' x l H. unfold std_insert. rewrite (lower_ext _ lt lt') by (intros; apply H; auto).
  destruct (lower_bound lt' x l) as (a & b) eqn:E. apply lower_in in E. destruct b as [|y b]; auto.
  destruct (H y) as (_ & ->); auto. subst. apply in_or_app. right. left. auto.
Qed.

Lemma insert_in : forall T (lt : T -> T -> bool) x l y, In y (snd (std_insert lt x l)) -> y = x \/ In y l.
Proof.
  intros T lt x l y. unfold std_insert. destruct (lower_bound lt x l) as (a & b) eqn:E. apply lower_in in E. subst l.
  destruct b as [|z b]; [|destruct (lt x z)]; cbn [snd]; rewrite ?in_app_iff; cbn [In]; intuition.
Qed.

Lemma range_ext : forall T (lt lt' : T -> T -> bool) xs l, 
  (forall x y, In x (xs ++ l) -> In y (xs ++ l) -> lt x y = lt' x y) ->
  std_insert_range lt xs l = std_insert_range lt' xs l.
Proof.
  unfold std_insert_range. induction xs as [|x xs]; cbn [fold_left app]; intros l H; auto.
  rewrite (insert_ext _ lt lt').
  - apply IHxs. intros y z Y Z. apply H.
    + rewrite in_app_iff in Y. cbn [In]. rewrite in_app_iff. destruct Y as [|Y]; auto. destruct (insert_in _ _ _ _ _ Y); auto.
    + rewrite in_app_iff in Z. cbn [In]. rewrite in_app_iff. destruct Z as [|Z]; auto. destruct (insert_in _ _ _ _ _ Z); auto.
  - intros y Y. split; apply H; cbn [In]; rewrite ?in_app_iff; auto.
Qed.

Lemma set_of_chain : forall T (lt : T -> T -> bool) l, strict_total lt -> chain lt l ->
  NoDup (set_of (set_lt lt) l) /\ (forall a, In a (set_of (set_lt lt) l) <-> In a l) /\
  (forall a, In a l -> set_contains (set_lt lt) (set_of (set_lt lt) l) a = true).
Proof.
  intros T lt l O C. pose proof (by_size_total T lt O) as BO.
  assert (E: set_of (set_lt lt) l = set_of (by_size lt) l).
  { unfold set_of. apply range_ext. rewrite app_nil_r. apply (by_size_chain T lt l O C). }
  rewrite E. destruct (of_enum _ BO l) as (A & B).
  split; [apply (inc_nodup _ BO); auto|]. split; auto. intros a HA.
  assert (K: set_contains (by_size lt) (set_of (by_size lt) l) a = true).
  { apply (contains_ok _ BO); auto. apply B; auto. }
  unfold set_contains, std_contains in *. rewrite (lower_ext _ (set_lt lt) (by_size lt)).
  - destruct (lower_bound (by_size lt) a (set_of (by_size lt) l)) as (u & v) eqn:F. cbn [snd] in *.
    destruct v as [|y v]; auto. rewrite (by_size_chain T lt l O C); auto.
    apply B. rewrite (lower_in _ _ _ _ _ _ F). apply in_or_app. right. left. auto.
  - intros y Y. apply (by_size_chain T lt l O C); auto. apply B; auto.
Qed.
