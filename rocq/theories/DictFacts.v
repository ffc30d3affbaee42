(** Proofs about the Dict model. *)
From Coq Require Import ZArith List Bool Ascii Lia Sorted.
From Verif Require Import Outcome ListModel ListSpec ListFacts ListMore SetModel SetSpec SetFacts SetProg DictModel DictSpec.
Import ListNotations.
Open Scope Z_scope.

Lemma none_enum : forall T (lt : T -> T -> bool), enumerates lt [] (@empty T).
Proof. intros T lt. split; [constructor|]. intros x. cbn. unfold empty. tauto. Qed.

Section Dict.
Context {K V : Type} (ltk : K -> K -> bool) (ltv : V -> V -> bool).
Hypothesis OK : strict_total ltk.
Hypothesis OV : strict_total ltv.
Notation dict := (list (K * V)).
Notation keys l := (map (@fst K V) l).
Implicit Types l : dict.

Lemma key_dec : forall j k : K, j = k \/ j <> k.
Proof.
  intros j k. destruct (lt_tot ltk OK j k) as [H|[H|H]]; auto; right; [|intros ->]; [apply (lt_ne ltk OK); auto|].
  rewrite (lt_irr ltk OK) in H. discriminate.
Qed.

Lemma keys_unique : forall l k (x y : V), increasing ltk (keys l) -> In (k, x) l -> In (k, y) l -> x = y.
Proof.
  induction l as [|p l]; intros k x y I A B; [destruct A|]. cbn [map] in I. pose proof (head_fresh ltk OK _ _ I) as N. apply inc_tail in I.
  destruct A as [->|A], B as [B|B]; [congruence| | |eauto]; exfalso; apply N; apply in_map_iff.
  - exists (k, y). auto.
  - exists (k, x). subst. auto.
Qed.

Lemma map_lower_ok : forall k l a b, map_lower ltk k l = (a, b) -> l = a ++ b /\ lower_bound ltk k (keys l) = (keys a, keys b).
Proof.
  induction l as [|p l]; intros a b H; cbn [map_lower lower_bound map] in *.
  - inversion H. auto.
  - destruct (ltk (fst p) k).
    + destruct (map_lower ltk k l) as (a', b'). inversion H; subst. destruct (IHl a' b eq_refl) as (-> & X). rewrite X. auto.
    + inversion H; subst. auto.
Qed.

Lemma map_lower_in : forall k l a b, increasing ltk (keys l) -> map_lower ltk k l = (a, b) ->
  match b with p :: _ => ltk k (fst p) = false -> fst p = k | [] => True end /\
  forall x, In (k, x) l <-> match b with p :: _ => ltk k (fst p) = false /\ snd p = x | [] => False end.
Proof.
  intros k l a b I H. destruct (map_lower_ok k l a b H) as (L & M). destruct (lower_in ltk OK k _ _ _ I M) as (A & B).
  destruct b as [|p b]; cbn [map] in *.
  - split; auto. intros x. split; [|tauto]. intros X. apply B. apply in_map_iff. exists (k, x). auto.
  - split; auto. intros x. split.
    + intros X. assert (E: ltk k (fst p) = false) by (apply B; apply in_map_iff; exists (k, x); auto). split; auto.
      apply (keys_unique l k); auto. rewrite L. apply in_or_app. right. left. rewrite <- (A E). destruct p; auto.
    + intros (E & <-). rewrite L. apply in_or_app. right. left. rewrite <- (A E). destruct p; auto.
Qed.

Lemma find_ok : forall k l x, increasing ltk (keys l) -> map_find ltk k l = Some x <-> In (k, x) l.
Proof.
  intros k l x I. unfold map_find. destruct (map_lower ltk k l) as (a, b) eqn:E. cbn [snd]. destruct (map_lower_in k l a b I E) as (_ & ->).
  destruct b as [|p b]; [intuition discriminate|]. destruct (ltk k (fst p)); intuition congruence.
Qed.

Lemma find_listing : forall k l m, listing ltk l m -> map_find ltk k l = m k.
Proof.
  intros k l m (I & H). destruct (map_find ltk k l) as [x|] eqn:E; symmetry.
  - apply H, find_ok; auto.
  - destruct (m k) as [x|] eqn:F; auto. apply H, (find_ok k l x) in F; auto. congruence.
Qed.

Lemma listing_self : forall l, increasing ltk (keys l) -> listing ltk l (fun k => map_find ltk k l).
Proof. intros l I. split; auto. intros k x. rewrite find_ok by auto. tauto. Qed.

Lemma listing_same : forall l m m', listing ltk l m -> msame m m' -> listing ltk l m'.
Proof. intros l m m' (I & H) S. split; auto. intros k x. rewrite H, (S k). tauto. Qed.

Lemma listing_keys : forall l m, listing ltk l m -> enumerates ltk (keys l) (has m).
Proof.
  intros l m (I & H). split; auto. intros k. rewrite in_map_iff. unfold has. split.
  - intros ((j, x) & <- & P). exists x. apply H. auto.
  - intros (x & X). exists (k, x). split; auto. apply H. auto.
Qed.

Lemma klen : forall l : dict, len (keys l) = len l.
Proof. intros l. unfold len. rewrite map_length. auto. Qed.

Lemma listing_card : forall l m, listing ltk l m -> card (has m) (len l).
Proof. intros l m H. rewrite <- klen. apply (enum_card ltk OK), listing_keys. auto. Qed.
Lemma listing_len : forall l m n, listing ltk l m -> card (has m) n -> n = len l.
Proof. intros l m n H C. eapply card_unique; eauto. apply listing_card. auto. Qed.

Lemma listing_unique : forall l l' m m', listing ltk l m -> listing ltk l' m' -> msame m m' -> l = l'.
Proof.
  assert (G: forall l l', increasing ltk (keys l) -> increasing ltk (keys l') -> (forall p, In p l <-> In p l') -> l = l').
  { induction l as [|p l]; intros [|q l'] I J S; auto.
    - destruct (proj2 (S q)); cbn; auto.
    - destruct (proj1 (S p)); cbn; auto.
    - cbn [map] in I, J. pose proof (head_fresh ltk OK _ _ I) as N. pose proof (head_fresh ltk OK _ _ J) as N'.
      apply inc_cons in I. apply inc_cons in J. destruct I as (I1 & I2), J as (J1 & J2).
      assert (p = q) as ->.
      { destruct (proj1 (S p)) as [X|X]; [left; auto|auto|]. destruct (proj2 (S q)) as [Y|Y]; [left; auto|auto|].
        exfalso. apply (in_map fst) in X. apply (in_map fst) in Y. apply I2 in Y. apply J2 in X. rewrite (lt_asym ltk OK _ _ X) in Y. discriminate. }
      f_equal. apply IHl; auto. intros r. split; intros R.
      + destruct (proj1 (S r)) as [X|X]; cbn; auto. subst. destruct N. apply in_map; auto.
      + destruct (proj2 (S r)) as [X|X]; cbn; auto. subst. destruct N'. apply in_map; auto. }
  intros l l' m m' (I & A) (J & B) S. apply G; auto. intros (k, x). rewrite A, B, (S k). tauto.
Qed.

(** ** insert, erase, assign *)
Lemma map_insert_keys : forall k x l, keys (snd (map_insert ltk k x l)) = snd (std_insert ltk k (keys l)).
Proof.
  intros k x l. unfold map_insert, std_insert. destruct (map_lower ltk k l) as (a, b) eqn:E. destruct (map_lower_ok k l a b E) as (L & ->).
  destruct b as [|p b]; cbn [map]; [cbn; rewrite map_app; auto|]. destruct (ltk k (fst p)); cbn [snd]; auto. rewrite map_app. auto.
Qed.

Lemma insert_absent : forall k x l m m', listing ltk l m -> m k = None -> puts m k x m' ->
  exists l', map_insert ltk k x l = (true, l') /\ listing ltk l' m'.
Proof.
  intros k x l m m' (I & H) N (P1 & P2).
  assert (F: forall y, ~ In (k, y) l) by (intros y Y; apply H in Y; congruence).
  pose proof (map_insert_keys k x l) as KE. destruct (insert_ok ltk OK k (keys l) I) as (IN & _). rewrite <- KE in IN. clear KE.
  unfold map_insert in *. destruct (map_lower ltk k l) as (a, b) eqn:E. destruct (map_lower_ok k l a b E) as (L & _).
  destruct (map_lower_in k l a b I E) as (_ & B).
  assert (X: forall j y, In (j, y) (a ++ (k, x) :: b) <-> m' j = Some y).
  { intros j y. rewrite in_app_iff. cbn [In]. assert (In (j, y) l <-> In (j, y) a \/ In (j, y) b) as Q by (rewrite L, in_app_iff; tauto).
    destruct (key_dec j k) as [->|NE].
    - rewrite P1. split; [|intros Z; inversion Z; auto]. intros [Z|[Z|Z]]; [|congruence|]; destruct (F y); tauto.
    - rewrite P2, <- H, Q by auto. split; [intros [Z|[Z|Z]]; auto; congruence|tauto]. }
  destruct b as [|p b].
  - eexists. split; [reflexivity|]. split; auto.
  - destruct (ltk k (fst p)) eqn:C.
    + eexists. split; [reflexivity|]. split; auto.
    + exfalso. apply (F (snd p)). apply B. auto.
Qed.

Lemma insert_present : forall k x l m, listing ltk l m -> has m k -> map_insert ltk k x l = (false, l).
Proof.
  intros k x l m (I & H) (y & Y). apply H in Y. unfold map_insert. destruct (map_lower ltk k l) as (a, b) eqn:E.
  destruct (map_lower_in k l a b I E) as (_ & B). apply B in Y. destruct b as [|p b]; [destruct Y|]. destruct Y as (-> & _). auto.
Qed.

Lemma map_erase_keys : forall k l, keys (snd (map_erase ltk k l)) = snd (std_erase ltk k (keys l)) /\
  fst (map_erase ltk k l) = fst (std_erase ltk k (keys l)).
Proof.
  intros k l. unfold map_erase, std_erase. destruct (map_lower ltk k l) as (a, b) eqn:E. destruct (map_lower_ok k l a b E) as (L & ->).
  destruct b as [|p b]; cbn [map]; auto. destruct (ltk k (fst p)); cbn [fst snd]; auto. rewrite map_app. auto.
Qed.

Lemma erase_listing : forall k l m m', listing ltk l m -> drops m k m' ->
  listing ltk (snd (map_erase ltk k l)) m' /\ tells (fst (map_erase ltk k l) =? 1) (has m k) /\ len (snd (map_erase ltk k l)) <= len l.
Proof.
  intros k l m m' LI (P1 & P2). assert (LI' := LI). destruct LI' as (I & H). destruct (map_erase_keys k l) as (KE & KF).
  destruct (erase_ok ltk OK k (keys l) I) as (IN & _ & BO & LE). rewrite <- KE in IN, LE. rewrite !klen in LE. rewrite KF.
  split; [|split; auto].
  - split; auto. unfold map_erase. destruct (map_lower ltk k l) as (a, b) eqn:E. destruct (map_lower_ok k l a b E) as (L & _).
    destruct (map_lower_in k l a b I E) as (A & B). intros j y. destruct b as [|p b]; cbn [snd].
    + destruct (key_dec j k) as [->|NE]; [|rewrite P2 by auto; apply H]. rewrite P1. split; [|discriminate]. intros X. apply B in X. destruct X.
    + destruct (ltk k (fst p)) eqn:C; cbn [snd].
      * destruct (key_dec j k) as [->|NE]; [|rewrite P2 by auto; apply H]. rewrite P1. split; [|discriminate]. intros X. apply B in X. destruct X. discriminate.
      * specialize (A eq_refl). assert (In (j, y) l <-> In (j, y) (a ++ b) \/ (j, y) = p) as Q by (rewrite L, !in_app_iff; cbn; intuition).
        destruct (key_dec j k) as [->|NE].
        -- rewrite P1. split; [|discriminate]. intros X. exfalso. rewrite L, map_app in I. cbn [map] in I. apply inc_app in I. destruct I as (_ & I & J).
           apply in_app_or in X. destruct X as [X|X]; apply (in_map fst) in X; cbn [fst] in X.
           ++ specialize (J k (fst p) X (or_introl eq_refl)). rewrite A, (lt_irr ltk OK) in J. discriminate.
           ++ apply inc_cons in I. apply I in X. rewrite A, (lt_irr ltk OK) in X. discriminate.
        -- rewrite P2, <- H, Q by auto. split; auto. intros [X|X]; auto. subst p. cbn in A. congruence.
  - unfold tells. rewrite BO. apply listing_keys. auto.
Qed.

Lemma assign_present : forall k x l m m', listing ltk l m -> has m k -> puts m k x m' ->
  exists l', map_assign ltk k x l = Some l' /\ listing ltk l' m' /\ len l' = len l.
Proof.
  intros k x l m m' (I & H) (z & Z) (P1 & P2). apply H in Z. unfold map_assign. destruct (map_lower ltk k l) as (a, b) eqn:E.
  destruct (map_lower_ok k l a b E) as (L & _). destruct (map_lower_in k l a b I E) as (A & B). apply B in Z.
  destruct b as [|p b]; [destruct Z|]. destruct Z as (C & Z). rewrite C. specialize (A C). eexists. split; [reflexivity|].
  split; [|subst l; rewrite !len_app, !len_cons; auto]. split.
  - rewrite L in I. rewrite map_app in *. cbn [map] in *. auto.
  - intros j y. rewrite A. assert (In (j, y) l <-> In (j, y) (a ++ b) \/ (j, y) = p) as Q by (rewrite L, !in_app_iff; cbn; intuition).
    rewrite in_app_iff in *. cbn [In]. destruct (key_dec j k) as [->|NE].
    + rewrite P1. split; [|intros X; inversion X; auto]. intros [X|[X|X]]; [|congruence|]; exfalso; rewrite L, map_app in I; cbn [map] in I;
        apply inc_app in I; destruct I as (_ & I & J); apply (in_map fst) in X; cbn [fst] in X.
      * specialize (J k (fst p) X (or_introl eq_refl)). rewrite A, (lt_irr ltk OK) in J. discriminate.
      * apply inc_cons in I. apply I in X. rewrite A, (lt_irr ltk OK) in X. discriminate.
    + rewrite P2, <- H, Q by auto. split; [intros [X|[X|X]]; auto; congruence|]. intros [[X|X]|X]; auto. subst p. cbn in A. congruence.
Qed.

Lemma assign_absent : forall k x l m, listing ltk l m -> m k = None -> map_assign ltk k x l = None.
Proof.
  intros k x l m (I & H) N. unfold map_assign. destruct (map_lower ltk k l) as (a, b) eqn:E. destruct (map_lower_in k l a b I E) as (_ & B).
  destruct b as [|p b]; auto. destruct (ltk k (fst p)) eqn:C; auto. assert (In (k, snd p) l) as X by (apply B; auto). apply H in X. congruence.
Qed.

(** ** Ranges *)
Lemma insert_one : forall k x l m, listing ltk l m -> exists m1, listing ltk (snd (map_insert ltk k x l)) m1 /\
  len (snd (map_insert ltk k x l)) <= len l + 1 /\
  (has m k -> msame m m1) /\ (m k = None -> puts m k x m1).
Proof.
  intros k x l m H. destruct (m k) as [z|] eqn:E.
  - rewrite (insert_present k x l m) by (auto; exists z; auto). cbn [snd]. exists m. split; auto. split; [lia|]. split; [intros _ j; auto|discriminate].
  - set (m1 := fun j => if map_find ltk j [(k, x)] then Some x else m j).
    assert (P: puts m k x m1).
    { unfold m1, map_find. cbn. split.
      - rewrite (lt_irr ltk OK). cbn. rewrite (lt_irr ltk OK). auto.
      - intros j J. destruct (ltk k j) eqn:A; cbn; auto. destruct (ltk j k) eqn:B; auto. destruct J. symmetry. apply (lt_neither ltk OK); auto. }
    destruct (insert_absent k x l m m1 H E P) as (l' & -> & L). cbn [snd]. exists m1. split; auto. split.
    + pose proof (insert_absent k x l m m1 H E P) as (l2 & Q & _). pose proof (map_insert_keys k x l) as KE. rewrite Q in KE. cbn [snd] in KE.
      assert (l2 = l') as ->.
      { apply (listing_unique l2 l' m1 m1); auto; [|intros j; auto]. destruct (insert_absent k x l m m1 H E P) as (l3 & Q3 & L3). congruence. }
      rewrite <- (klen l'), KE, <- (klen l). apply (insert_len ltk OK). apply H.
    + split; auto. intros (z & Z). congruence.
Qed.

Lemma first_cons : forall k x (xs : dict) (j : K) (y : V), first_value ((k, x) :: xs) j y <-> (j = k /\ y = x) \/ (j <> k /\ first_value xs j y).
Proof.
  intros k x xs j y. split.
  - intros (a & b & E & N). destruct a as [|p a]; cbn in E; inversion E; subst; auto. right. split.
    + intros ->. apply (N x). left. auto.
    + exists a, b. split; auto. intros z Z. apply (N z). right. auto.
  - intros [(-> & ->)|(N & a & b & -> & H)].
    + exists [], xs. split; auto.
    + exists ((k, x) :: a), b. split; auto. intros z [Z|Z]; [congruence|apply (H z Z)].
Qed.

Lemma range_ok : forall xs l m, listing ltk l m ->
  exists m', extended m xs m' /\ listing ltk (map_insert_range ltk xs l) m' /\ len (map_insert_range ltk xs l) <= len l + len xs.
Proof.
  unfold map_insert_range. induction xs as [|(k, x) xs]; intros l m H; cbn [fold_left fst snd].
  - exists m. split; [|split; [auto|rewrite len_nil; lia]]. intros j. split; auto. intros N y. rewrite N. split; [discriminate|].
    intros (a & b & E & _). destruct a; discriminate.
  - destruct (insert_one k x l m H) as (m1 & L1 & LE & A & B). destruct (IHxs _ m1 L1) as (m' & E & L & LE'). exists m'. split; [|split; [auto|rewrite len_cons; lia]].
    intros j. destruct (E j) as (E1 & E2). split.
    + intros y Y. apply E1. destruct (m k) as [z|] eqn:M.
      * rewrite <- A; auto. exists z. auto.
      * destruct (B eq_refl) as (_ & B2). rewrite B2; auto. congruence.
    + intros N y. rewrite first_cons. destruct (key_dec j k) as [->|NE].
      * destruct (B N) as (B1 & _). rewrite (E1 _ B1). split; [intros X; inversion X; auto|]. intros [(_ & ->)|(X & _)]; [auto|congruence].
      * assert (M: m1 j = None).
        { destruct (m k) as [z|] eqn:M; [rewrite <- A; auto; exists z; auto|]. destruct (B eq_refl) as (_ & B2). rewrite B2; auto. }
        rewrite (E2 M). tauto.
Qed.

Lemma extended_unique : forall (m : @fmap K V) xs (m1 m2 : @fmap K V), extended m xs m1 -> extended m xs m2 -> msame m1 m2.
Proof.
  intros m xs m1 m2 A B k. destruct (A k) as (A1 & A2), (B k) as (B1 & B2). destruct (m k) as [z|] eqn:E.
  - rewrite (A1 z), (B1 z); auto.
  - specialize (A2 eq_refl). specialize (B2 eq_refl). destruct (m1 k) as [y|] eqn:F.
    + symmetry. apply B2, A2. auto.
    + destruct (m2 k) as [y|] eqn:G; auto. pose proof (proj1 (B2 y) eq_refl) as Q. apply A2 in Q. congruence.
Qed.

Lemma range_listing : forall xs l m m', listing ltk l m -> extended m xs m' ->
  listing ltk (map_insert_range ltk xs l) m' /\ len (map_insert_range ltk xs l) <= len l + len xs.
Proof.
  intros xs l m m' H E. destruct (range_ok xs l m H) as (m1 & E1 & L & LE). split; auto. eapply listing_same; [exact L|]. eapply extended_unique; eauto.
Qed.

Lemma joined_extended : forall l (m n : @fmap K V), listing ltk l n -> extended m l (joined m n).
Proof.
  intros l m n (I & H) k. unfold joined. split; [intros x ->; auto|]. intros -> x. rewrite <- H. split.
  - intros X. apply in_split in X. destruct X as (a & b & ->). exists a, b. split; auto. intros y Y.
    rewrite map_app in I. cbn [map fst] in I. apply inc_app in I. destruct I as (_ & _ & I). apply (in_map fst) in Y.
    specialize (I k k Y (or_introl eq_refl)). rewrite (lt_irr ltk OK) in I. discriminate.
  - intros (a & b & -> & _). apply in_or_app. right. left. auto.
Qed.

Lemma nil_listing : listing ltk [] (@no_entry K V).
Proof. split; [constructor|]. intros k x. cbn. split; [tauto|discriminate]. Qed.

(** ** Views *)
Lemma add_all_ok : forall (X : Type) (lt : X -> X -> bool) (f : K * V -> X), strict_total lt -> forall d s P,
  enumerates lt s P -> len s + len d <= INT_MAX ->
  exists s', add_all lt f d s = Ok s' /\ enumerates lt s' (fun y => P y \/ exists p, In p d /\ f p = y).
Proof.
  intros X lt f O. induction d as [|p d]; intros s P E L; cbn [add_all].
  - exists s. split; auto. eapply enum_same; [exact E|]. intros y. split; auto. intros [Y|(p & [] & _)]. auto.
  - rewrite len_cons in L. pose proof (len_nonneg _ d). unfold set_add. rewrite size_ok by lia. rewrite full_ok by lia.
    destruct (insert_enum lt O (f p) s P E) as (A & _). pose proof (insert_len lt O (f p) s (proj1 E)) as B.
    destruct (std_insert lt (f p) s) as (b, s1). cbn [fst snd] in *. destruct (IHd s1 _ A) as (s' & C & D); [lia|]. exists s'. split; auto.
    eapply enum_same; [exact D|]. intros y. unfold plus. cbn [In]. split.
    + intros [[->|Y]|(q & Q & R)]; [right; exists p; auto|auto|right; exists q; auto].
    + intros [Y|(q & [->|Q] & R)]; [auto|auto|right; exists q; auto].
Qed.

Lemma pair_total : strict_total (pair_lt ltk ltv).
Proof.
  unfold pair_lt. split; [|split].
  - intros (k, x). cbn [fst snd]. rewrite (lt_irr ltk OK), (lt_irr ltv OV). auto.
  - intros (a, x) (b, y) (c, z). cbn [fst snd]. rewrite !orb_true_iff, !andb_true_iff, !negb_true_iff. intros [A|(A & A')] [B|(B & B')].
    + left. eapply (lt_tr ltk OK); eauto.
    + left. eapply (lt_nlt ltk OK); eauto.
    + left. destruct (lt_tot ltk OK a c) as [C|[C|C]]; auto; [subst; congruence|]. rewrite (lt_tr ltk OK _ _ _ B C) in A. discriminate.
    + destruct (ltk a c) eqn:C; auto. right. split; [|eapply (lt_tr ltv OV); eauto].
      destruct (ltk c a) eqn:D; auto. destruct (ltk a b) eqn:E.
      * rewrite (lt_tr ltk OK _ _ _ D E) in B. discriminate.
      * rewrite (lt_neither ltk OK a b E A) in *. congruence.
  - intros (a, x) (b, y). cbn [fst snd]. rewrite !orb_true_iff, !andb_true_iff, !negb_true_iff. destruct (lt_tot ltk OK a b) as [A|[->|A]]; auto.
    destruct (lt_tot ltv OV x y) as [B|[->|B]]; auto; rewrite (lt_irr ltk OK); auto.
Qed.

Lemma pair_increasing : forall l, increasing ltk (keys l) -> increasing (pair_lt ltk ltv) l.
Proof.
  induction l as [|p l]; intros I; [constructor|]. cbn [map] in I. apply inc_cons in I. destruct I as (I & J). apply inc_cons. split; auto.
  intros q Q. unfold pair_lt. rewrite J; auto. apply in_map. auto.
Qed.

Theorem keys_ok : forall l m, listing ltk l m -> len l <= INT_MAX -> exists s, dict_keys ltk l = Ok s /\ enumerates ltk s (has m).
Proof.
  intros l m H L. destruct (add_all_ok K ltk fst OK l [] (@empty K) (none_enum _ ltk)) as (s & A & B); [rewrite len_nil; lia|]. exists s. split; auto.
  eapply enum_same; [exact B|]. intros k. unfold empty, has. destruct H as (_ & H). split.
  - intros [[]|((j, x) & P & <-)]. exists x. apply H. auto.
  - intros (x & X). right. exists (k, x). split; auto. apply H. auto.
Qed.

Theorem values_ok : forall l m, listing ltk l m -> len l <= INT_MAX ->
  exists s, dict_values ltv l = Ok s /\ enumerates ltv s (fun x => exists k, m k = Some x).
Proof.
  intros l m H L. destruct (add_all_ok V ltv snd OV l [] (@empty V) (none_enum _ ltv)) as (s & A & B); [rewrite len_nil; lia|]. exists s. split; auto.
  eapply enum_same; [exact B|]. intros x. unfold empty. destruct H as (_ & H). split.
  - intros [[]|((j, y) & P & <-)]. exists j. apply H. auto.
  - intros (k & X). right. exists (k, x). split; auto. apply H. auto.
Qed.

Theorem items_ok : forall l m, listing ltk l m -> len l <= INT_MAX -> dict_items ltk ltv l = Ok l.
Proof.
  intros l m H L. destruct (add_all_ok _ (pair_lt ltk ltv) (fun p => p) pair_total l [] (@empty _) (none_enum _ _)) as (s & A & B); [rewrite len_nil; lia|].
  unfold dict_items. rewrite A. f_equal. apply (enum_unique _ pair_total s l _ (fun p => In p l) B).
  - split; [apply pair_increasing, H|tauto].
  - intros p. unfold empty. split; [intros [[]|(q & Q & <-)]; auto|eauto].
Qed.
End Dict.
