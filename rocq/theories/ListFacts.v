(** Proofs about the List model. *)
From Coq Require Import ZArith List Bool Ascii Lia Permutation.
From Verif Require Import Outcome ListModel ListSpec.
Import ListNotations.
Open Scope Z_scope.

Lemma len_nonneg : forall T (l : list T), 0 <= len l.
Proof. intros. unfold len. lia. Qed.
Lemma len_app : forall T (a b : list T), len (a ++ b) = len a + len b.
Proof. intros. unfold len. rewrite app_length. lia. Qed.
Lemma len_cons : forall T (x : T) l, len (x :: l) = 1 + len l.
Proof. intros. unfold len. simpl length. lia. Qed.
Lemma len_nil : forall T, len (@nil T) = 0.
Proof. reflexivity. Qed.

Lemma size_ok : forall T (l : list T), len l <= INT_MAX -> size l = len l.
Proof. intros. unfold size. apply wrap32_id. pose proof (len_nonneg _ l). unfold INT_MIN. lia. Qed.

Lemma neg_size : forall T (l : list T), len l <= INT_MAX -> chk32 (- size l) = Ok (- len l).
Proof. intros. rewrite size_ok by auto. apply chk32_ok. pose proof (len_nonneg _ l). unfold INT_MIN, INT_MAX in *. lia. Qed.

Lemma vat_ok : forall T (a : list T) x b, vat (a ++ x :: b) (len a) = Ok x.
Proof.
  intros. unfold vat, len. destruct (Z.ltb_spec (Z.of_nat (length a)) 0); [lia|].
  rewrite Nat2Z.id, nth_error_app2, Nat.sub_diag by lia. reflexivity.
Qed.

Lemma firstn_len : forall T (a b : list T), firstn (Z.to_nat (len a)) (a ++ b) = a.
Proof. intros. unfold len. rewrite Nat2Z.id. rewrite firstn_app, Nat.sub_diag, firstn_all, firstn_O, app_nil_r. auto. Qed.
Lemma skipn_len : forall T (a b : list T), skipn (Z.to_nat (len a)) (a ++ b) = b.
Proof. intros. unfold len. rewrite Nat2Z.id. rewrite skipn_app, Nat.sub_diag, skipn_all. auto. Qed.
Lemma skipn_len_S : forall T (a : list T) x b, skipn (S (Z.to_nat (len a))) (a ++ x :: b) = b.
Proof.
  intros. replace (a ++ x :: b) with ((a ++ [x]) ++ b) by (rewrite <- app_assoc; auto).
  replace (S (Z.to_nat (len a))) with (Z.to_nat (len (a ++ [x]))); [apply skipn_len|].
  rewrite len_app, len_cons, len_nil. unfold len. lia.
Qed.

Lemma vput_ok : forall T (a : list T) x b y, vput (a ++ x :: b) (len a) y = Ok (a ++ y :: b).
Proof.
  intros. unfold vput. pose proof (len_nonneg _ a). pose proof (len_nonneg _ b). rewrite len_app, len_cons.
  destruct (Z.ltb_spec (len a) 0); [lia|]. destruct (Z.leb_spec (len a + (1 + len b)) (len a)); [lia|]. cbn [orb].
  rewrite firstn_len, skipn_len_S. auto.
Qed.

Lemma vinsert_ok : forall T (a b : list T) y, vinsert (a ++ b) (len a) y = Ok (a ++ y :: b).
Proof.
  intros. unfold vinsert. pose proof (len_nonneg _ a). pose proof (len_nonneg _ b). rewrite len_app.
  destruct (Z.ltb_spec (len a) 0); [lia|]. destruct (Z.ltb_spec (len a + len b) (len a)); [lia|]. cbn [orb].
  rewrite firstn_len, skipn_len. auto.
Qed.

Lemma verase_ok : forall T (a m b : list T), verase (a ++ m ++ b) (len a) (len a + len m) = Ok (a ++ b).
Proof.
  intros. unfold verase. pose proof (len_nonneg _ a). pose proof (len_nonneg _ b). pose proof (len_nonneg _ m).
  rewrite !len_app. destruct (Z.ltb_spec (len a) 0); [lia|]. destruct (Z.ltb_spec (len a + len m) (len a)); [lia|].
  destruct (Z.ltb_spec (len a + (len m + len b)) (len a + len m)); [lia|]. cbn [orb].
  rewrite firstn_len. rewrite app_assoc, <- len_app, skipn_len. auto.
Qed.

Lemma cut_at : forall T (l : list T) k, 0 <= k <= len l -> exists a b, cut l a b k.
Proof.
  intros T l k H. exists (firstn (Z.to_nat k) l), (skipn (Z.to_nat k) l). split; [symmetry; apply firstn_skipn|].
  rewrite firstn_length. unfold len in H. lia.
Qed.
Lemma cut_elem : forall T (l : list T) k, 0 <= k < len l -> exists a x b, cut l a (x :: b) k.
Proof.
  intros T l k H. destruct (cut_at _ l k) as (a & b & E & L); [lia|]. destruct b as [|x b].
  - exfalso. subst l. rewrite app_nil_r in H. unfold len in H. lia.
  - exists a, x, b. split; auto.
Qed.
Lemma cut_len : forall T (l a b : list T) k, cut l a b k -> len a = k /\ len l = k + len b.
Proof. intros T l a b k (-> & E). split; auto. rewrite len_app. unfold len at 1. lia. Qed.

Lemma cut_unique : forall T (l a b a' b' : list T) k, cut l a b k -> cut l a' b' k -> a = a' /\ b = b'.
Proof.
  intros T l a b a' b' k (E & L) (E' & L'). rewrite E in E'. assert (length a = length a') as X by lia. clear L L' E.
  revert a' X E'. induction a as [|x a]; destruct a' as [|x' a']; cbn [length app]; intros X E'; try lia; [auto|].
  inversion E' as [[E1 E2]]. destruct (IHa a') as (-> & ->); auto; lia.
Qed.

Lemma position_some : forall n i k, position n i = Some k -> 
  (0 <= Z.of_nat k < n) /\ (0 <= i -> Z.of_nat k = i) /\ (i < 0 -> Z.of_nat k = n + i) /\ - n <= i < n.
Proof.
  intros n i k. unfold position.
  destruct (Z.leb_spec 0 i); destruct (Z.ltb_spec i n); cbn [andb];
  destruct (Z.leb_spec (- n) i); destruct (Z.ltb_spec i 0); cbn [andb]; intros E; inversion E; lia.
Qed.
Lemma position_none : forall n i, position n i = None -> ~ (- n <= i < n).
Proof.
  intros n i. unfold position.
  destruct (Z.leb_spec 0 i); destruct (Z.ltb_spec i n); cbn [andb];
  destruct (Z.leb_spec (- n) i); destruct (Z.ltb_spec i 0); cbn [andb]; intros E; inversion E; lia.
Qed.

Lemma from_end_ok : forall T (l : list T) i, len l <= INT_MAX -> - len l <= i -> from_end l i = Ok (from_back (len l) i).
Proof.
  intros T l i H B. unfold from_end, from_back. rewrite size_ok by auto. pose proof (len_nonneg _ l).
  destruct (Z.leb_spec 0 i); destruct (Z.ltb_spec i 0); try lia; auto.
  apply chk32_ok. unfold INT_MIN, INT_MAX in *. lia.
Qed.

Lemma from_back_pos : forall n i k, position n i = Some k -> from_back n i = Z.of_nat k.
Proof. intros n i k P. apply position_some in P. unfold from_back. destruct (Z.ltb_spec i 0); lia. Qed.

(** ** Indexing *)
Lemma at_spec : forall T (l : list T) i, len l <= INT_MAX ->
  match position (len l) i with
  | Some k => exists x, nth_error l k = Some x /\ list_at l i = Ok x
  | None => list_at l i = Throw IndexOutOfRange
  end.
Proof.
  intros T l i H. unfold list_at. rewrite neg_size, size_ok by auto. cbn [bind].
  destruct (position (len l) i) as [k|] eqn:P.
  - pose proof (position_some _ _ _ P) as (A & _ & _ & B). rewrite check_bounds_ok by lia. cbn [bind].
    rewrite from_end_ok by (auto; lia). cbn [bind]. rewrite (from_back_pos _ _ _ P).
    destruct (cut_elem _ l (Z.of_nat k) A) as (a & x & b & C). pose proof (cut_len _ _ _ _ _ C) as (L & _).
    destruct C as (-> & L'). exists x. rewrite <- L at 1. rewrite vat_ok. split; auto.
    rewrite nth_error_app2 by lia. replace (k - length a)%nat with O by lia. reflexivity.
  - rewrite check_bounds_throw by (apply position_none; auto). reflexivity.
Qed.

Lemma set_spec : forall T (l : list T) i y, len l <= INT_MAX ->
  match position (len l) i with
  | Some k => exists a x b, cut l a (x :: b) (Z.of_nat k) /\ list_set i y l = (Ok tt, a ++ y :: b)
  | None => list_set i y l = (Throw IndexOutOfRange, l)
  end.
Proof.
  intros T l i y H. unfold list_set. rewrite neg_size, size_ok by auto. cbn [bind].
  destruct (position (len l) i) as [k|] eqn:P.
  - pose proof (position_some _ _ _ P) as (A & _ & _ & B). rewrite check_bounds_ok by lia. cbn [bind].
    rewrite from_end_ok by (auto; lia). cbn [bind]. rewrite (from_back_pos _ _ _ P).
    destruct (cut_elem _ l (Z.of_nat k) A) as (a & x & b & C). pose proof (cut_len _ _ _ _ _ C) as (L & _).
    exists a, x, b. split; auto. destruct C as (-> & _). rewrite <- L, vput_ok. reflexivity.
  - rewrite check_bounds_throw by (apply position_none; auto). reflexivity.
Qed.

(** ** insert, remove *)
Lemma update_eq : forall T (f : list T -> outcome (list T)) l,
  update f l = match f l with Ok v => (Ok tt, v) | Throw e => (Throw e, l) | UB u => (UB u, l) | OutOfFuel => (OutOfFuel, l) end.
Proof. reflexivity. Qed.

Lemma full_throw : forall n, INT_MAX <= n -> check_full n INT_MAX = Throw ContainerFull.
Proof. intros. unfold check_full. destruct (Z.leb_spec INT_MAX n); auto; lia. Qed.
Lemma full_ok : forall n, n < INT_MAX -> check_full n INT_MAX = Ok tt.
Proof. intros. unfold check_full. destruct (Z.leb_spec INT_MAX n); auto; lia. Qed.

Lemma insert_spec : forall T (l : list T) i y, len l <= INT_MAX ->
  (len l = INT_MAX -> list_insert i y l = (Throw ContainerFull, l)) /\
  (len l < INT_MAX -> ~ (- len l <= i <= len l) -> list_insert i y l = (Throw IndexOutOfRange, l)) /\
  (len l < INT_MAX -> - len l <= i <= len l -> forall a b, cut l a b (from_back (len l) i) ->
     list_insert i y l = (Ok tt, a ++ y :: b)).
Proof.
  intros T l i y H. pose proof (len_nonneg _ l). unfold list_insert. rewrite update_eq. rewrite !size_ok by auto.
  split; [|split].
  - intros E. rewrite full_throw by lia. reflexivity.
  - intros L B. rewrite full_ok by lia. cbn [bind]. rewrite !chk32_ok by (unfold INT_MIN, INT_MAX in *; lia). cbn [bind].
    rewrite check_bounds_throw by lia. reflexivity.
  - intros L B a b C. rewrite full_ok by lia. cbn [bind]. rewrite !chk32_ok by (unfold INT_MIN, INT_MAX in *; lia). cbn [bind].
    rewrite check_bounds_ok by lia. cbn [bind]. rewrite from_end_ok by (auto; lia). cbn [bind].
    pose proof (cut_len _ _ _ _ _ C) as (E & _). rewrite <- E. destruct C as (-> & _). rewrite vinsert_ok. reflexivity.
Qed.

Lemma remove_spec : forall T (l : list T) i, len l <= INT_MAX ->
  (l = [] -> list_remove i l = (Throw ContainerEmpty, l)) /\
  (l <> [] -> position (len l) i = None -> list_remove i l = (Throw IndexOutOfRange, l)) /\
  (forall k, position (len l) i = Some k -> forall a x b, cut l a (x :: b) (Z.of_nat k) ->
     list_remove i l = (Ok x, a ++ b)).
Proof.
  intros T l i H. pose proof (len_nonneg _ l). unfold list_remove. rewrite !size_ok by auto.
  split; [|split].
  - intros ->. reflexivity.
  - intros N P. assert (len l <> 0) by (destruct l; [congruence|rewrite len_cons; pose proof (len_nonneg _ l); lia]).
    unfold check_empty. destruct (Z.eqb_spec (len l) 0); [lia|]. cbn [bind].
    rewrite !chk32_ok by (unfold INT_MIN, INT_MAX in *; lia). cbn [bind].
    rewrite check_bounds_throw by (apply position_none; auto). reflexivity.
  - intros k P a x b C. pose proof (position_some _ _ _ P) as (A & _ & _ & B). pose proof (cut_len _ _ _ _ _ C) as (E & _).
    unfold check_empty. destruct (Z.eqb_spec (len l) 0); [lia|]. cbn [bind].
    rewrite !chk32_ok by (unfold INT_MIN, INT_MAX in *; lia). cbn [bind].
    rewrite check_bounds_ok by lia. cbn [bind]. rewrite from_end_ok by (auto; lia). cbn [bind].
    rewrite (from_back_pos _ _ _ P), <- E. destruct C as (-> & _). rewrite vat_ok. cbn [bind].
    replace (len a + 1) with (len a + len [x]) by reflexivity.
    change (a ++ x :: b) with (a ++ [x] ++ b). rewrite verase_ok. reflexivity.
Qed.

Lemma insert_remove : forall T (l : list T) i y, len l < INT_MAX -> - len l <= i <= len l ->
  exists l', list_insert i y l = (Ok tt, l') /\ list_remove (if i <? 0 then i - 1 else i) l' = (Ok y, l).
Proof.
  intros T l i y H B. pose proof (len_nonneg _ l).
  assert (FB: 0 <= from_back (len l) i <= len l) by (unfold from_back; destruct (Z.ltb_spec i 0); lia).
  destruct (cut_at _ l _ FB) as (a & b & C). pose proof (cut_len _ _ _ _ _ C) as (E1 & E2).
  destruct (insert_spec _ l i y ltac:(lia)) as (_ & _ & I). specialize (I H B a b C).
  exists (a ++ y :: b). split; auto. destruct C as (El & _).
  assert (L': len (a ++ y :: b) = len l + 1) by (rewrite El, !len_app, len_cons; lia).
  destruct (remove_spec _ (a ++ y :: b) (if i <? 0 then i - 1 else i) ltac:(lia)) as (_ & _ & R).
  rewrite El. apply (R (length a)); [|split; auto].
  rewrite L'. unfold position, from_back in *. destruct (Z.ltb_spec i 0).
  - destruct (Z.leb_spec 0 (i - 1)); [lia|]. cbn [andb].
    destruct (Z.leb_spec (- (len l + 1)) (i - 1)); [|lia]. destruct (Z.ltb_spec (i - 1) 0); [|lia]. cbn [andb]. f_equal. unfold len in *. lia.
  - destruct (Z.leb_spec 0 i); [|lia]. destruct (Z.ltb_spec i (len l + 1)); [|lia]. cbn [andb]. f_equal. unfold len in *. lia.
Qed.

(** ** Growth *)
Lemma append_spec : forall T (l : list T) x, len l <= INT_MAX ->
  (len l = INT_MAX -> list_append x l = (Throw ContainerFull, l)) /\
  (len l < INT_MAX -> list_append x l = (Ok tt, l ++ [x])).
Proof.
  intros T l x H. unfold list_append. rewrite update_eq, size_ok by auto. split; intros.
  - rewrite full_throw by lia. auto.
  - rewrite full_ok by lia. auto.
Qed.

Lemma append_list_spec : forall T (l w : list T), len l <= INT_MAX -> len w <= INT_MAX ->
  (INT_MAX / 2 <= len l / 2 + len w / 2 -> list_append_list w false l = (Throw ContainerFull, l)) /\
  (len l / 2 + len w / 2 < INT_MAX / 2 -> list_append_list w false l = (Ok tt, l ++ w) /\ len (l ++ w) < INT_MAX).
Proof.
  intros T l w H W. pose proof (len_nonneg _ l). pose proof (len_nonneg _ w). unfold list_append_list. rewrite update_eq, !size_ok by auto.
  rewrite !Z.quot_div_nonneg by (unfold INT_MAX; lia). unfold check_full.
  change (INT_MAX / 2) with 1073741823. split; intros K.
  - destruct (Z.leb_spec 1073741823 (len l / 2 + len w / 2)); [auto|lia].
  - destruct (Z.leb_spec 1073741823 (len l / 2 + len w / 2)); [lia|]. split; auto. rewrite len_app.
    pose proof (Z_div_mod_eq_full (len l) 2). pose proof (Z_div_mod_eq_full (len w) 2).
    pose proof (Z.mod_pos_bound (len l) 2). pose proof (Z.mod_pos_bound (len w) 2). unfold INT_MAX. lia.
Qed.

Lemma append_self : forall T (l : list T), len l <= INT_MAX -> len l / 2 * 2 < INT_MAX / 2 ->
  list_append_list l true l = (UB SelfRange, l).
Proof.
  intros T l H K. pose proof (len_nonneg _ l). unfold list_append_list. rewrite update_eq, !size_ok by auto.
  rewrite !Z.quot_div_nonneg by (unfold INT_MAX; lia). unfold check_full.
  destruct (Z.leb_spec (INT_MAX / 2) (len l / 2 + len l / 2)); [lia|]. auto.
Qed.

Definition bounded {T A} (l : list T) (r : outcome A * list T) : Prop :=
  (exists e, fst r = Throw e /\ snd r = l) \/ (exists a, fst r = Ok a /\ len (snd r) <= INT_MAX /\ size (snd r) = len (snd r)).

Lemma growth_bounded : forall T (l w : list T) i x, len l <= INT_MAX -> len w <= INT_MAX ->
  bounded l (list_insert i x l) /\ bounded l (list_append x l) /\ bounded l (list_append_list w false l).
Proof.
  intros T l w i x H W. pose proof (len_nonneg _ l).
  assert (B: forall (r : outcome unit * list T), fst r = Ok tt -> len (snd r) <= INT_MAX -> bounded l r).
  { intros r E L. right. exists tt. rewrite size_ok by auto. auto. }
  split; [|split].
  - destruct (insert_spec _ l i x H) as (A1 & A2 & A3). destruct (Z.eq_dec (len l) INT_MAX) as [E|E].
    + left. rewrite A1 by auto. eexists; split; reflexivity.
    + destruct (Z_le_dec (- len l) i); [destruct (Z_le_dec i (len l))|].
      2,3: left; rewrite A2 by lia; eexists; split; reflexivity.
      assert (FB: 0 <= from_back (len l) i <= len l) by (unfold from_back; destruct (Z.ltb_spec i 0); lia).
      destruct (cut_at _ l _ FB) as (a & b & C). rewrite (A3 ltac:(lia) ltac:(lia) a b C). apply B; auto.
      cbn [snd]. destruct C as (-> & _). rewrite len_app in *. rewrite len_cons. lia.
  - destruct (append_spec _ l x H) as (A1 & A2). destruct (Z.eq_dec (len l) INT_MAX) as [E|E].
    + left. rewrite A1 by auto. eexists; split; reflexivity.
    + rewrite A2 by lia. apply B; auto. cbn [snd]. rewrite len_app, len_cons, len_nil. lia.
  - destruct (append_list_spec _ l w H W) as (A1 & A2).
    destruct (Z_le_dec (INT_MAX / 2) (len l / 2 + len w / 2)).
    + left. rewrite A1 by auto. eexists; split; reflexivity.
    + destruct A2 as (-> & A2); [lia|]. apply B; auto. cbn [snd]. lia.
Qed.

(** ** Repetition *)
Lemma concat_repeat_len : forall T (l : list T) n, len (concat (repeat l n)) = len l * Z.of_nat n.
Proof. induction n; cbn [repeat concat]; [rewrite len_nil; lia|]. rewrite len_app, IHn. lia. Qed.

Lemma concat_repeat_snoc : forall T (l : list T) n, concat (repeat l (S n)) = concat (repeat l n) ++ l.
Proof.
  induction n; cbn [repeat concat]; [rewrite app_nil_r; auto|]. cbn [repeat concat] in IHn. rewrite IHn at 1. rewrite app_assoc. auto.
Qed.

Lemma times_loop_ok : forall T (l : list T) n part rest, len l <= INT_MAX -> 
  len rest = len l * Z.of_nat n -> len l * (Z.of_nat part + Z.of_nat n) <= INT_MAX ->
  times_loop l n (Z.of_nat part) (concat (repeat l part) ++ rest) = Ok (concat (repeat l (part + n))).
Proof.
  induction n; intros part rest H R B; cbn [times_loop].
  - assert (rest = []) as -> by (destruct rest; auto; rewrite len_cons in R; pose proof (len_nonneg _ rest); lia).
    rewrite app_nil_r, Nat.add_0_r. auto.
  - pose proof (len_nonneg _ l). rewrite size_ok by auto. rewrite chk32_ok by (unfold INT_MIN; nia). cbn [bind].
    destruct (cut_at _ rest (len l)) as (m & r & -> & Lm); [nia|]. fold (len m) in Lm. rewrite len_app in R.
    unfold std_copy. rewrite !len_app, concat_repeat_len. pose proof (len_nonneg _ r).
    destruct (Z.ltb_spec (len l * Z.of_nat part) 0); [nia|].
    destruct (Z.ltb_spec (len l * Z.of_nat part + (len m + len r)) (len l * Z.of_nat part + len l)); [lia|]. cbn [orb bind].
    rewrite <- concat_repeat_len, firstn_len. rewrite <- Lm at 1. rewrite <- len_app.
    rewrite (app_assoc (concat _) m r), skipn_len. rewrite app_assoc, <- concat_repeat_snoc.
    replace (Z.of_nat part + 1) with (Z.of_nat (S part)) by lia. rewrite IHn; auto; try nia.
    f_equal. f_equal. f_equal. lia.
Qed.

Lemma times_spec : forall T (d : T) l n, len l <= INT_MAX ->
  (n < 0 -> list_times d l n = Throw NegativeTimes) /\
  (0 <= n -> len l * n < INT_MAX -> list_times d l n = Ok (concat (repeat l (Z.to_nat n)))) /\
  (0 <= n -> len l * n = INT_MAX -> list_times d l n = Throw ContainerFull) /\
  (0 <= n -> INT_MAX < len l * n -> list_times d l n = UB SignedOverflow).
Proof.
  intros T d l n H. pose proof (len_nonneg _ l). unfold list_times. rewrite size_ok by auto.
  split; [|split; [|split]]; intros N; destruct (Z.ltb_spec n 0); try lia; auto; intros B.
  - rewrite chk32_ok by (unfold INT_MIN; nia). cbn [bind]. rewrite full_ok by lia. cbn [bind].
    destruct (Z.ltb_spec (len l * n) 0); [nia|].
    apply (times_loop_ok T l (Z.to_nat n) 0 (repeat d (Z.to_nat (len l * n)))); auto.
    + unfold len at 1. rewrite repeat_length. nia.
    + lia.
  - rewrite chk32_ok by (unfold INT_MIN, INT_MAX in *; lia). cbn [bind]. rewrite full_throw by lia. auto.
  - rewrite chk32_ub by lia. auto.
Qed.

Lemma times_assign_spec : forall T (d : T) l n, len l <= INT_MAX ->
  list_times_assign d n l = match list_times d l n with
    | Ok r => (Ok tt, r) | Throw e => (Throw e, l) | UB u => (UB u, l) | OutOfFuel => (OutOfFuel, l) end.
Proof. reflexivity. Qed.

(** ** Removal *)
Lemma find_split : forall T (eqb : T -> T -> bool) l x,
  (std_find eqb l x = length l /\ (forall y, In y l -> eqb y x = false)) \/
  exists a y b, l = a ++ y :: b /\ std_find eqb l x = length a /\ eqb y x = true /\ (forall z, In z a -> eqb z x = false).
Proof.
  induction l as [|y l]; intros x; cbn [std_find].
  - left. split; auto. intros y [].
  - destruct (eqb y x) eqn:E.
    + right. exists [], y, l. repeat split; auto. intros z [].
    + destruct (IHl x) as [(F & N)|(a & z & b & -> & F & Z & N)].
      * left. split; [simpl; auto|]. intros z [<-|I]; auto.
      * right. exists (y :: a), z, b. split; auto. split; [simpl; auto|]. split; auto. intros w [<-|I]; auto.
Qed.

Lemma subtract_spec : forall T (eqb : T -> T -> bool) l x,
  ((forall y, In y l -> eqb y x = false) -> list_subtract eqb x l = (Ok tt, l)) /\
  (forall a y b, l = a ++ y :: b -> (forall z, In z a -> eqb z x = false) -> eqb y x = true ->
     list_subtract eqb x l = (Ok tt, a ++ b)).
Proof.
  intros T eqb l x. unfold list_subtract. rewrite update_eq. split.
  - intros N. destruct (find_split _ eqb l x) as [(-> & _)|(a & y & b & -> & _ & E & _)].
    + rewrite Nat.eqb_refl. auto.
    + rewrite N in E; [discriminate|apply in_or_app; right; left; auto].
  - intros a y b -> N E. assert (F: std_find eqb (a ++ y :: b) x = length a).
    { clear -N E. induction a; cbn [app std_find]; [rewrite E; auto|]. rewrite N by (left; auto). cbn [length]. f_equal.
      apply IHa. intros; apply N; right; auto. }
    rewrite F. rewrite app_length. cbn [length]. destruct (Nat.eqb_spec (length a) (length a + S (length b))); [lia|].
    change (Z.of_nat (length a)) with (len a). change (a ++ y :: b) with (a ++ [y] ++ b).
    change 1 with (len [y]). rewrite verase_ok. auto.
Qed.

(** Invariant of the two-cursor loops: [kept] written, [gap] stale, [todo] unread. *)
Lemma remove_loop_ok : forall T (eqb : T -> T -> bool) x todo kept gap,
  exists tail, std_remove_loop eqb (Val x) (length todo) (len kept + len gap) (len kept) (kept ++ gap ++ todo) =
    Ok (kept ++ filter (fun y => negb (eqb y x)) todo ++ tail, len kept + len (filter (fun y => negb (eqb y x)) todo)).
Proof.
  intros T eqb x. induction todo as [|y todo]; intros kept gap; cbn [length std_remove_loop filter].
  - exists gap. rewrite len_nil, Z.add_0_r, app_nil_r. auto.
  - rewrite app_assoc, <- len_app, vat_ok. cbn [bind deref]. destruct (eqb y x) eqn:E; cbn [negb].
    + destruct (IHtodo kept (gap ++ [y])) as (tail & R). exists tail.
      rewrite len_app, len_cons, len_nil in R. rewrite len_app.
      replace (len kept + len gap + 1) with (len kept + (len gap + (1 + 0))) by lia.
      rewrite <- !app_assoc in *. cbn [app] in R. exact R.
    + destruct gap as [|g gap].
      * rewrite app_nil_r, vput_ok. cbn [bind].
        destruct (IHtodo (kept ++ [y]) []) as (tail & R). exists tail.
        rewrite !len_app, len_cons, !len_nil in R. rewrite len_cons.
        rewrite <- !app_assoc in R. cbn [app] in R.
        replace (len kept + 1) with (len kept + (1 + 0) + 0) at 1 by lia. replace (len kept + 1) with (len kept + (1 + 0)) by lia.
        rewrite R. f_equal. f_equal; try lia.
      * rewrite <- app_assoc. cbn [app]. rewrite vput_ok. cbn [bind].
        destruct (IHtodo (kept ++ [y]) (gap ++ [y])) as (tail & R). exists tail.
        rewrite !len_app, !len_cons, !len_nil in R. rewrite !len_app, !len_cons.
        rewrite <- !app_assoc in R. cbn [app] in R.
        replace (len kept + (1 + len gap) + 1) with (len kept + (1 + 0) + (len gap + (1 + 0))) by lia.
        replace (len kept + 1) with (len kept + (1 + 0)) by lia.
        rewrite R. f_equal. f_equal; try lia.
Qed.

Lemma erase_tail : forall T (a b : list T), verase (a ++ b) (len a) (len (a ++ b)) = Ok a.
Proof.
  intros. rewrite len_app. rewrite <- (app_nil_r b) at 1. rewrite verase_ok. rewrite app_nil_r. auto.
Qed.

Lemma divide_spec : forall T (eqb : T -> T -> bool) l x,
  list_divide eqb (Val x) l = (Ok tt, filter (fun y => negb (eqb y x)) l).
Proof.
  intros. unfold list_divide. rewrite update_eq. unfold std_remove.
  destruct (remove_loop_ok T eqb x l [] []) as (tail & R). cbn [app] in R. rewrite !len_nil in R. cbn [Z.add] in R.
  rewrite R. cbn [bind fst snd]. rewrite erase_tail. auto.
Qed.

Lemma copy_if_loop_ok : forall T (p : T -> bool) todo kept gap,
  exists tail, std_copy_if_loop p (length todo) (len kept + len gap) (len kept) (kept ++ gap ++ todo) =
    Ok (kept ++ filter p todo ++ tail, len kept + len (filter p todo)).
Proof.
  intros T p. induction todo as [|y todo]; intros kept gap; cbn [length std_copy_if_loop filter].
  - exists gap. rewrite len_nil, Z.add_0_r, app_nil_r. auto.
  - rewrite app_assoc, <- len_app, vat_ok. cbn [bind]. destruct (p y) eqn:E.
    + destruct gap as [|g gap].
      * rewrite app_nil_r, vput_ok. cbn [bind].
        destruct (IHtodo (kept ++ [y]) []) as (tail & R). exists tail.
        rewrite !len_app, len_cons, !len_nil in R. rewrite len_cons.
        rewrite <- !app_assoc in R. cbn [app] in R.
        replace (len kept + 1) with (len kept + (1 + 0) + 0) at 1 by lia. replace (len kept + 1) with (len kept + (1 + 0)) by lia.
        rewrite R. f_equal. f_equal; try lia. 
      * rewrite <- app_assoc. cbn [app]. rewrite vput_ok. cbn [bind].
        destruct (IHtodo (kept ++ [y]) (gap ++ [y])) as (tail & R). exists tail.
        rewrite !len_app, !len_cons, !len_nil in R. rewrite !len_app, !len_cons.
        rewrite <- !app_assoc in R. cbn [app] in R.
        replace (len kept + (1 + len gap) + 1) with (len kept + (1 + 0) + (len gap + (1 + 0))) by lia.
        replace (len kept + 1) with (len kept + (1 + 0)) by lia.
        rewrite R. f_equal. f_equal; try lia.
    + destruct (IHtodo kept (gap ++ [y])) as (tail & R). exists tail.
      rewrite len_app, len_cons, len_nil in R. rewrite len_app.
      replace (len kept + len gap + 1) with (len kept + (len gap + (1 + 0))) by lia.
      rewrite <- !app_assoc in *. cbn [app] in R. exact R.
Qed.

Lemma filter_spec : forall T (p : T -> bool) l, list_filter false p l = (Ok tt, filter p l).
Proof.
  intros. unfold list_filter. rewrite update_eq. cbn [andb].
  destruct (copy_if_loop_ok T p l [] []) as (tail & R). cbn [app] in R. rewrite !len_nil in R. cbn [Z.add] in R.
  rewrite R. cbn [bind fst snd]. rewrite erase_tail. auto.
Qed.

Lemma filter_strict : forall T (p : T -> bool) l, l <> [] -> list_filter true p l = (UB Overlap, l).
Proof. intros T p [|x l] H; [congruence|reflexivity]. Qed.
