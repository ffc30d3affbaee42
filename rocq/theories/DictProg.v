(** Dict programs on the code and on finite maps; single calls. *)
From Coq Require Import ZArith List Bool Ascii Lia Sorted.
From Verif Require Import Outcome ListModel ListSpec ListFacts ListMore SetModel SetSpec SetFacts SetProg SetMore DictModel DictSpec DictFacts.
Import ListNotations.
Open Scope Z_scope.

Section Prog.
Context {K V : Type} (ltk eqk : K -> K -> bool) (ltv eqv : V -> V -> bool) (showk : K -> list ascii) (showv : V -> list ascii).
Hypothesis OK : strict_total ltk.
Hypothesis OV : strict_total ltv.
Hypothesis DK : decides eqk.
Hypothesis DV : decides eqv.
Implicit Types d : list (K * V).
Notation step := (mstep ltk eqk ltv eqv showk showv).
Notation spec := (fstep ltk ltv showk showv).

Lemma puts_ex : forall (m : @fmap K V) k x, exists m', puts m k x m'.
Proof.
  intros m k x. exists (fun j => if ltk j k || ltk k j then m j else Some x). split.
  - rewrite (lt_irr ltk OK). auto.
  - intros j N. destruct (lt_tot ltk OK j k) as [H|[H|H]]; [rewrite H; auto|contradiction|rewrite H, orb_true_r; auto].
Qed.
Lemma drops_ex : forall (m : @fmap K V) k, exists m', drops m k m'.
Proof.
  intros m k. exists (fun j => if ltk j k || ltk k j then m j else None). split.
  - rewrite (lt_irr ltk OK). auto.
  - intros j N. destruct (lt_tot ltk OK j k) as [H|[H|H]]; [rewrite H; auto|contradiction|rewrite H, orb_true_r; auto].
Qed.

Lemma mstands_set : forall (s : mstore K V) e v l m, mstands ltk s e -> listing ltk l m -> len l <= INT_MAX -> mstands ltk (mset s v l) (fset e v m).
Proof. intros s e v l P S E L w. unfold mset, fset. destruct (Nat.eqb w v); auto. Qed.
Lemma mstands_same : forall (s : mstore K V) e v l, mstands ltk s e -> l = s v -> mstands ltk (mset s v l) e.
Proof. intros s e v l S -> w. unfold mset. destruct (Nat.eqb_spec w v); [subst|]; auto. Qed.

Lemma mfit_ok : forall (s : mstore K V) e v w, mstands ltk s e -> (mfit (e v) (e w) <-> len (s v) + len (s w) <= INT_MAX).
Proof.
  intros s e v w S. destruct (S v) as (A & _), (S w) as (B & _). unfold mfit, fit. split.
  - intros (m & n & M & N & L). rewrite (listing_len ltk OK _ _ _ A M), (listing_len ltk OK _ _ _ B N) in L. auto.
  - intros L. exists (len (s v)), (len (s w)). split; [apply (listing_card ltk OK); auto|]. split; [apply (listing_card ltk OK); auto|auto].
Qed.

Lemma mguard_in : forall (s : mstore K V) n a k, len a <= INT_MAX -> len a + n <= INT_MAX -> mguard s n a k = k.
Proof. intros s n a k L M. unfold mguard. rewrite size_ok by auto. destruct (Z.leb_spec n (INT_MAX - len a)); [auto|lia]. Qed.
Lemma mguard_out : forall (s : mstore K V) n a k, len a <= INT_MAX -> INT_MAX < len a + n -> mguard s n a k = Ok (s, []).
Proof. intros s n a k L M. unfold mguard. rewrite size_ok by auto. destruct (Z.leb_spec n (INT_MAX - len a)); [lia|auto]. Qed.

Lemma pair_eq_decides : decides (fun p q : K * V => eqk (fst p) (fst q) && eqv (snd p) (snd q)).
Proof.
  intros (a, x) (b, y). cbn [fst snd]. rewrite andb_true_iff, (DK a b), (DV x y). split; [intros (-> & ->); auto|]. intros E. inversion E. auto.
Qed.

Theorem dict_eq_ok : forall d e m n, listing ltk d m -> listing ltk e n -> tells (dict_eqb eqk eqv d e) (msame m n).
Proof.
  intros d e m n A B. unfold tells, dict_eqb. rewrite (eqb_spec _ _ pair_eq_decides d e). split.
  - intros ->. intros k. rewrite <- (find_listing ltk OK k e m A), <- (find_listing ltk OK k e n B). auto.
  - intros S. eapply (listing_unique ltk OK); eauto.
Qed.

Lemma listing_nil : forall d m, listing ltk d m -> (d = @nil (K * V) <-> nothing (has m)).
Proof.
  intros d m H. rewrite <- (enum_nil ltk _ _ (listing_keys ltk _ _ H)). destruct d; split; auto; discriminate.
Qed.

Theorem dict_min_ok : forall d m k, listing ltk d m -> least ltk (has m) k -> dict_min d = Ok k.
Proof.
  intros d m k H L. destruct d as [|p d].
  - destruct L as (X & _). assert (N: nothing (has m)) by (apply (listing_nil _ _ H); auto). destruct (N k X).
  - cbn. f_equal. pose proof (listing_keys ltk _ _ H) as E. cbn [map] in E. eapply (least_unique ltk OK); [eapply head_least; eauto|auto].
Qed.
Theorem dict_max_ok : forall d m k, listing ltk d m -> greatest ltk (has m) k -> dict_max d = Ok k.
Proof.
  intros d m k H L. destruct d as [|p d _] using rev_ind.
  - destruct L as (X & _). assert (N: nothing (has m)) by (apply (listing_nil _ _ H); auto). destruct (N k X).
  - unfold dict_max. rewrite rev_unit. f_equal. pose proof (listing_keys ltk _ _ H) as E. rewrite map_app in E. cbn [map] in E.
    eapply (greatest_unique ltk OK); [eapply last_greatest; eauto|auto].
Qed.

Lemma least_ex : forall d m, listing ltk d m -> d <> @nil (K * V) -> exists k x, least ltk (has m) k /\ m k = Some x.
Proof.
  intros d m H N. destruct d as [|(k, x) d]; [congruence|]. exists k, x. pose proof (listing_keys ltk _ _ H) as E. cbn [map] in E. split.
  - eapply head_least; eauto.
  - apply H. left. auto.
Qed.
Lemma greatest_ex : forall d m, listing ltk d m -> d <> @nil (K * V) -> exists k, greatest ltk (has m) k.
Proof.
  intros d m H N. destruct d as [|(k, x) d _] using rev_ind; [congruence|]. exists k. pose proof (listing_keys ltk _ _ H) as E. rewrite map_app in E. cbn [map] in E.
  eapply last_greatest; eauto.
Qed.

Theorem dict_pop_ok : forall d m k x m', listing ltk d m -> len d <= INT_MAX -> least ltk (has m) k -> m k = Some x -> drops m k m' ->
  exists d', dict_pop d = (Ok (k, x), d') /\ listing ltk d' m' /\ len d' <= len d.
Proof.
  intros d m k x m' H L A B (C1 & C2). pose proof (dict_min_ok d m k H A) as Q. unfold dict_pop. rewrite size_ok by auto.
  destruct d as [|(j, y) d]; [discriminate|]. cbn in Q. inversion Q; subst j. assert (m k = Some y) as X by (apply H; left; auto). rewrite B in X. inversion X; subst y.
  pose proof (len_nonneg _ d). unfold check_empty. rewrite len_cons. destruct (Z.eqb_spec (1 + len d) 0); [lia|]. exists d. split; auto. split; [|lia].
  destruct H as (I & H). cbn [map fst] in I. pose proof (head_fresh ltk OK _ _ I) as N. split; [eapply inc_tail; eauto|]. intros j y.
  destruct (key_dec ltk OK j k) as [->|NE].
  - rewrite C1. split; [|discriminate]. intros Y. destruct N. apply in_map_iff. exists (k, y). auto.
  - rewrite C2, <- H by auto. cbn [In]. split; auto. intros [Y|Y]; auto. congruence.
Qed.

Ltac fin := eexists; split; [reflexivity|].

Lemma fcomplete : forall c s e e' ev, mstands ltk s e -> mint_stmt c -> spec c e e' ev ->
  exists s', step c s = Ok (s', ev) /\ mstands ltk s' e'.
Proof.
  intros c s e e' ev S A H. pose proof (@nil_listing K V ltk) as NE. assert (NS: len (@nil (K * V)) <= INT_MAX) by (rewrite len_nil; unfold INT_MAX; lia).
  assert (SZ: forall v, size (s v) = len (s v)) by (intros; apply size_ok, S).
  assert (SL: forall v, len (s v) <= INT_MAX) by (intros v; apply S).
  assert (SE: forall v, listing ltk (s v) (e v)) by (intros v; apply S).
  assert (SF: forall v k, map_find ltk k (s v) = e v k) by (intros; apply (find_listing ltk OK); auto).
  destruct H; cbn [mint_stmt] in A; cbn [mstep].
  - destruct (range_listing ltk OK xs [] _ m NE H) as (P & Q). fin. apply mstands_set; auto. rewrite len_nil in Q. unfold dict_of. unfold len in *. lia.
  - fin. apply mstands_set; auto.
  - destruct (Nat.eqb_spec v w); [contradiction|]. fin. apply mstands_set; auto. apply mstands_set; auto.
  - unfold dict_at. rewrite SF, H. fin. auto.
  - unfold dict_at. rewrite SF, H. fin. auto.
  - unfold mcall, dict_set. rewrite update_eq. destruct (assign_present ltk OK k x _ _ _ (SE v) H H0) as (l' & -> & P & Q). fin. apply mstands_set; auto. rewrite Q. auto.
  - unfold mcall, dict_set. rewrite update_eq. rewrite (assign_absent ltk OK k x _ _ (SE v) H). fin. apply mstands_same; auto.
  - unfold dict_get, dict_contains, dict_at. rewrite !SF, H. fin. auto.
  - unfold dict_get, dict_contains, dict_at. rewrite !SF, H. fin. auto.
  - exists s. split; auto. cbn. repeat f_equal. apply (tells_eq _ _ (has (e v) k)); auto. unfold tells, dict_contains, has. rewrite SF.
    destruct (e v k) as [x|]; [split; eauto|split; [discriminate|intros (x & X); discriminate]].
  - pose proof (listing_len ltk OK _ _ _ (SE v) H). subst n. unfold mcall, dict_add. rewrite SZ, full_ok by lia.
    pose proof (insert_one ltk OK k x _ _ (SE v)) as (m1 & _ & LE & _).
    destruct (insert_absent ltk OK k x _ _ _ (SE v) H1 H2) as (l' & Q & P). rewrite Q in *. cbn [snd] in LE. fin. apply mstands_set; auto. lia.
  - pose proof (listing_len ltk OK _ _ _ (SE v) H). subst n. unfold mcall, dict_add. rewrite SZ, full_ok by lia.
    rewrite (insert_present ltk OK k x _ _ (SE v) H1). fin. apply mstands_same; auto.
  - pose proof (listing_len ltk OK _ _ _ (SE v) H). unfold mcall, dict_add. rewrite SZ, full_throw by lia. fin. apply mstands_same; auto.
  - unfold mcall, dict_remove. destruct (erase_listing ltk OK k _ _ _ (SE v) H0) as (P & Q & R). destruct (map_erase ltk k (s v)) as (n, l') eqn:X. cbn [fst snd] in *.
    rewrite (tells_eq _ _ _ H Q). fin. apply mstands_set; auto. pose proof (SL v). lia.
  - destruct (dict_pop_ok _ _ _ _ _ (SE v) (SL v) H H0 H1) as (d' & P & Q & R). unfold mcall. rewrite P. fin. apply mstands_set; auto. pose proof (SL v). lia.
  - assert (Q: s v = []) by (apply (listing_nil _ _ (SE v)); auto). unfold mcall, dict_pop. rewrite SZ, Q. fin. apply mstands_same; auto.
  - pose proof (listing_len ltk OK _ _ _ (SE v) H). subst n. rewrite mguard_in by auto. destruct (range_listing ltk OK xs _ _ _ (SE v) H1) as (P & Q).
    fin. apply mstands_set; auto. unfold len in *. lia.
  - pose proof (listing_len ltk OK _ _ _ (SE v) H). subst n. rewrite mguard_out by auto. fin. auto.
  - apply (mfit_ok s e v w S) in H0. rewrite SZ, mguard_in by auto. destruct (Nat.eqb_spec v w); [contradiction|].
    destruct (range_listing ltk OK (s w) _ _ _ (SE v) (joined_extended ltk OK _ _ _ (SE w))) as (P & Q). fin. apply mstands_set; auto. lia.
  - rewrite (mfit_ok s e v w S) in H. rewrite SZ, mguard_out by (auto; lia). fin. auto.
  - fin. apply mstands_set; auto.
  - rewrite (dict_min_ok _ _ _ (SE v) H). fin. auto.
  - rewrite (dict_max_ok _ _ _ (SE v) H). fin. auto.
  - destruct (keys_ok ltk OK _ _ (SE v) (SL v)) as (l' & -> & P). rewrite (enum_unique ltk OK _ _ _ _ P H) by (intros k; tauto). fin. auto.
  - destruct (values_ok ltk ltv OV _ _ (SE v) (SL v)) as (l' & -> & P). rewrite (enum_unique ltv OV _ _ _ _ P H) by (intros k; tauto). fin. auto.
  - rewrite (items_ok ltk ltv OK OV _ _ (SE v) (SL v)). rewrite (listing_unique ltk OK _ _ _ _ (SE v) H) by (intros k; auto). fin. auto.
  - rewrite SZ, (listing_len ltk OK _ _ _ (SE v) H). fin. auto.
  - exists s. split; auto. cbn. repeat f_equal. apply (tells_eq _ _ (nothing (has (e v)))); auto. unfold tells, dict_is_empty. rewrite <- (listing_nil _ _ (SE v)).
    destruct (s v); intuition discriminate.
  - exists s. split; auto. cbn. repeat f_equal. apply (tells_eq _ _ (msame (e v) (e w))); auto. apply dict_eq_ok; auto.
  - rewrite (listing_unique ltk OK _ _ _ _ (SE v) H) by (intros k; auto). fin. auto.
  - rewrite (listing_unique ltk OK _ _ _ _ (SE v) H) by (intros k; auto). cbn. unfold dict_print. rewrite print_spec. fin. auto.
Qed.

(** Statements with undefined behaviour. *)
Definition mrisky (c : mstmt K V) (s : mstore K V) : Prop :=
  (exists v, c = MMove v v) \/ (exists v, c = MExtendDict v v) \/ (exists v, s v = [] /\ (c = MMin v \/ c = MMax v)).

Lemma mfit_dec : forall (s : mstore K V) e v w, mstands ltk s e -> mfit (e v) (e w) \/ ~ mfit (e v) (e w).
Proof. intros s e v w S. rewrite (mfit_ok s e v w S). lia. Qed.

Lemma has_dec : forall (m : @fmap K V) k, has m k \/ m k = None.
Proof. intros m k. unfold has. destruct (m k); eauto. Qed.

Lemma ftotal : forall c s e, mstands ltk s e -> (exists e' ev, spec c e e' ev) \/ mrisky c s.
Proof.
  intros c s e S. unfold mrisky.
  assert (SL: forall v, len (s v) <= INT_MAX) by (intros v; apply S).
  assert (SE: forall v, listing ltk (s v) (e v)) by (intros v; apply S).
  assert (CA: forall v, card (has (e v)) (len (s v))) by (intros v; apply (listing_card ltk OK); auto).
  destruct c; try (left; eauto using @fstep; fail).
  - left. destruct (range_ok ltk OK xs [] _ (nil_listing ltk)) as (m & E & _). eauto using @fstep.
  - destruct (Nat.eq_dec v w) as [->|N]; [right; eauto|left; eauto using @fstep].
  - left. destruct (e v k) eqn:E; eauto using @fstep.
  - left. destruct (has_dec (e v) k); [destruct (puts_ex (e v) k x)|]; eauto using @fstep.
  - left. destruct (e v k) eqn:E; eauto using @fstep.
  - left. destruct (has_dec (e v) k) as [Q|Q].
    + do 2 eexists. apply (f_contains _ _ _ _ v k e true). unfold tells. tauto.
    + do 2 eexists. apply (f_contains _ _ _ _ v k e false). unfold tells, has. rewrite Q. split; [discriminate|intros (y & Y); discriminate].
  - left. destruct (Z.eq_dec (len (s v)) INT_MAX) as [L|L].
    + do 2 eexists. apply f_add_full. rewrite <- L. auto.
    + assert (len (s v) < INT_MAX) by (pose proof (SL v); lia). destruct (has_dec (e v) k); [|destruct (puts_ex (e v) k x)]; eauto using @fstep.
  - left. destruct (drops_ex (e v) k) as (m & M). destruct (has_dec (e v) k) as [Q|Q].
    + do 2 eexists. eapply (f_remove _ _ _ _ v k e true); eauto. unfold tells. tauto.
    + do 2 eexists. eapply (f_remove _ _ _ _ v k e false); eauto. unfold tells, has. rewrite Q. split; [discriminate|intros (y & Y); discriminate].
  - left. destruct (s v) as [|p d] eqn:Q.
    + do 2 eexists. apply f_pop_empty. apply (listing_nil _ _ (SE v)); auto.
    + destruct (least_ex _ _ (SE v)) as (k & x & A & B); [congruence|]. destruct (drops_ex (e v) k). eauto using @fstep.
  - left. destruct (Z_le_gt_dec (len (s v) + len xs) INT_MAX).
    + destruct (range_ok ltk OK xs _ _ (SE v)) as (m & E & _). do 2 eexists. eapply f_extend; eauto.
    + do 2 eexists. eapply f_extend_no; eauto. unfold len in *. lia.
  - destruct (mfit_dec s e v w S) as [F|F]; [|left; eauto using @fstep]. destruct (Nat.eq_dec v w) as [->|N]; [right; eauto|left; eauto using @fstep].
  - destruct (s v) as [|p d] eqn:Q; [right; right; right; eauto|]. left. destruct (least_ex _ _ (SE v)) as (k & x & A & B); [congruence|]. eauto using @fstep.
  - destruct (s v) as [|p d] eqn:Q; [right; right; right; eauto|]. left. destruct (greatest_ex _ _ (SE v)) as (k & A); [congruence|]. eauto using @fstep.
  - left. destruct (keys_ok ltk OK _ _ (SE v) (SL v)) as (l & _ & P). eauto using @fstep.
  - left. destruct (values_ok ltk ltv OV _ _ (SE v) (SL v)) as (l & _ & P). eauto using @fstep.
  - left. destruct (s v) as [|p d] eqn:Q.
    + do 2 eexists. apply (f_is_empty _ _ _ _ v e true). unfold tells. rewrite <- (listing_nil _ _ (SE v)). tauto.
    + do 2 eexists. apply (f_is_empty _ _ _ _ v e false). unfold tells. rewrite <- (listing_nil _ _ (SE v)), Q. split; discriminate.
  - left. pose proof (dict_eq_ok _ _ _ _ (SE v) (SE w)). eauto using @fstep.
Qed.

Theorem frun_complete : forall prog s e e' ev, mstands ltk s e -> Forall mint_stmt prog -> frun ltk ltv showk showv prog e e' ev ->
  exists s', mrun ltk eqk ltv eqv showk showv prog s = Ok (s', ev) /\ mstands ltk s' e'.
Proof.
  induction prog as [|c prog]; intros s e e' ev S A H; inversion H as [|c' r' e0 e1 e2 ev1 ev2 P Q]; subst; cbn [mrun].
  - eauto.
  - inversion A as [|c' p' A1 A2]; subst. destruct (fcomplete _ _ _ _ _ S A1 P) as (s1 & E & S1). rewrite E. cbn [bind fst snd].
    destruct (IHprog _ _ _ _ S1 A2 Q) as (s2 & F & S2). rewrite F. cbn [bind fst snd]. eauto.
Qed.

Theorem mrun_refines : forall prog s e s' ev, mstands ltk s e -> Forall mint_stmt prog -> mrun ltk eqk ltv eqv showk showv prog s = Ok (s', ev) ->
  exists e', frun ltk ltv showk showv prog e e' ev /\ mstands ltk s' e'.
Proof.
  induction prog as [|c prog]; intros s e s' ev S A H; cbn [mrun] in H.
  - inversion H; subst. exists e. split; [constructor|auto].
  - inversion A as [|c' p' A1 A2]; subst. destruct (step c s) as [(s1, ev1)|?|?|] eqn:E; cbn [bind] in H; try discriminate. cbn [fst snd] in H.
    destruct (mrun ltk eqk ltv eqv showk showv prog s1) as [(s2, ev2)|?|?|] eqn:F; cbn [bind fst snd] in H; try discriminate. inversion H; subst.
    assert (X: exists e1, spec c e e1 ev1 /\ mstands ltk s1 e1).
    { destruct (ftotal c s e S) as [(e1 & ev1' & P)|R].
      - destruct (fcomplete _ _ _ _ _ S A1 P) as (s1' & E' & S1). assert (s1' = s1 /\ ev1' = ev1) as (-> & ->) by (split; congruence). eauto.
      - destruct R as [(v & ->)|[(v & ->)|(v & N & [->| ->])]]; cbn [mstep] in E.
        + rewrite Nat.eqb_refl in E. discriminate.
        + rewrite Nat.eqb_refl in E. unfold mguard in E. destruct (size (s v) <=? INT_MAX - size (s v)) eqn:G; [discriminate|]. inversion E; subst.
          exists e. split; auto. apply f_extend_dict_no. rewrite (mfit_ok s1 e v v S). rewrite size_ok in G by apply S. apply Z.leb_gt in G. lia.
        + rewrite N in E. discriminate.
        + rewrite N in E. discriminate. }
    destruct X as (e1 & P & S1). destruct (IHprog _ _ _ _ S1 A2 F) as (e2 & Q & S2). exists e2. split; auto. econstructor; eauto.
Qed.

Theorem mrun_defined : forall prog s e, mstands ltk s e -> Forall mint_stmt prog ->
  (exists s' e' ev, mrun ltk eqk ltv eqv showk showv prog s = Ok (s', ev) /\ frun ltk ltv showk showv prog e e' ev /\ mstands ltk s' e') \/
  (exists u, mrun ltk eqk ltv eqv showk showv prog s = UB u).
Proof.
  induction prog as [|c prog]; intros s e S A; cbn [mrun].
  - left. exists s, e, []. split; auto. split; [constructor|auto].
  - inversion A as [|c' p' A1 A2]; subst.
    destruct (step c s) as [(s1, ev1)|x|u|] eqn:E; cbn [bind fst snd].
    + assert (X: mrun ltk eqk ltv eqv showk showv [c] s = Ok (s1, ev1)) by (cbn [mrun]; rewrite E; cbn; rewrite app_nil_r; auto).
      destruct (mrun_refines [c] s e s1 ev1 S (Forall_cons _ A1 (Forall_nil _)) X) as (e1 & R & S1).
      assert (Y: spec c e e1 ev1).
      { inversion R as [|c' r' e0 e1' e2 ev1' ev2 P Q]; subst. inversion Q; subst. rewrite app_nil_r. auto. }
      destruct (IHprog s1 e1 S1 A2) as [(s2 & e2 & ev2 & F & Q & S2)|(u & F)]; rewrite F; cbn [bind fst snd]; [left|right; eauto].
      exists s2, e2, (ev1 ++ ev2). split; auto. split; auto. econstructor; eauto.
    + exfalso. destruct (ftotal c s e S) as [(e1 & ev1' & P)|R].
      * destruct (fcomplete _ _ _ _ _ S A1 P) as (s1' & E' & S1). congruence.
      * destruct R as [(v & ->)|[(v & ->)|(v & N & [->| ->])]]; cbn [mstep] in E; rewrite ?Nat.eqb_refl in E; try discriminate;
          [unfold mguard in E; destruct (_ <=? _) in E; discriminate|rewrite N in E; discriminate|rewrite N in E; discriminate].
    + right. eauto.
    + exfalso. destruct (ftotal c s e S) as [(e1 & ev1' & P)|R].
      * destruct (fcomplete _ _ _ _ _ S A1 P) as (s1' & E' & S1). congruence.
      * destruct R as [(v & ->)|[(v & ->)|(v & N & [->| ->])]]; cbn [mstep] in E; rewrite ?Nat.eqb_refl in E; try discriminate;
          [unfold mguard in E; destruct (_ <=? _) in E; discriminate|rewrite N in E; discriminate|rewrite N in E; discriminate].
Qed.

Theorem mstep_ub : forall c s e u, mstands ltk s e -> mint_stmt c -> step c s = UB u ->
  (exists v, c = MMove v v) \/ (exists v, c = MExtendDict v v) \/ (exists v, s v = [] /\ (c = MMin v \/ c = MMax v)).
Proof.
  intros c s e u S A H. destruct (ftotal c s e S) as [(e1 & ev1' & P)|R]; auto. destruct (fcomplete _ _ _ _ _ S A P) as (s1' & E' & S1). congruence.
Qed.

(** ** Single calls *)
Theorem lookup_ok : forall d m k x, listing ltk d m ->
  dict_at ltk d k = match m k with Some y => Ok y | None => Throw KeyNotFound end /\
  dict_get ltk d k x = Ok (match m k with Some y => y | None => x end) /\
  dict_contains ltk d k = match m k with Some _ => true | None => false end.
Proof.
  intros d m k x H. unfold dict_at, dict_get, dict_contains, dict_at. rewrite (find_listing ltk OK k d m H). destruct (m k); auto.
Qed.

Theorem add_ok : forall d m k x, listing ltk d m -> len d <= INT_MAX ->
  (len d = INT_MAX -> dict_add ltk k x d = (Throw ContainerFull, d)) /\
  (len d < INT_MAX -> has m k -> dict_add ltk k x d = (Ok false, d)) /\
  (len d < INT_MAX -> m k = None -> exists d' m', dict_add ltk k x d = (Ok true, d') /\ listing ltk d' m' /\ puts m k x m').
Proof.
  intros d m k x H L. unfold dict_add. rewrite size_ok by auto. split; [|split].
  - intros X. rewrite full_throw by lia. auto.
  - intros X P. rewrite full_ok by lia. rewrite (insert_present ltk OK k x d m); auto.
  - intros X N. rewrite full_ok by lia. destruct (puts_ex m k x) as (m' & P). destruct (insert_absent ltk OK k x d m m' H N P) as (d' & -> & Q). eauto.
Qed.

Theorem extend_ok : forall d m xs, listing ltk d m ->
  (exists d' m', dict_extend ltk xs d = (Ok tt, d') /\ listing ltk d' m' /\ extended m xs m') /\
  (exists m', listing ltk (dict_of ltk xs) m' /\ forall k x, m' k = Some x <-> first_value xs k x).
Proof.
  intros d m xs H. split.
  - destruct (range_ok ltk OK xs d m H) as (m' & E & L & _). eexists. exists m'. split; [reflexivity|]. auto.
  - destruct (range_ok ltk OK xs [] no_entry (nil_listing ltk)) as (m' & E & L & _). exists m'. split; auto. intros k x. apply (E k). auto.
Qed.

Theorem assign_spec : forall d m k x, listing ltk d m ->
  (m k = None -> dict_set ltk k x d = (Throw KeyNotFound, d)) /\
  (has m k -> exists d' m', dict_set ltk k x d = (Ok tt, d') /\ listing ltk d' m' /\ puts m k x m').
Proof.
  intros d m k x H. unfold dict_set. rewrite !update_eq. split.
  - intros N. rewrite (assign_absent ltk OK k x d m); auto.
  - intros P. destruct (puts_ex m k x) as (m' & Q). destruct (assign_present ltk OK k x d m m' H P Q) as (d' & -> & R & _). eauto.
Qed.

Theorem remove_ok : forall d m k, listing ltk d m ->
  exists b d' m', dict_remove ltk k d = (Ok b, d') /\ tells b (has m k) /\ listing ltk d' m' /\ drops m k m'.
Proof.
  intros d m k H. destruct (drops_ex m k) as (m' & P). destruct (erase_listing ltk OK k d m m' H P) as (A & B & _). unfold dict_remove.
  destruct (map_erase ltk k d) as (n, d'). cbn [fst snd] in *. exists (n =? 1), d', m'. auto.
Qed.

Theorem views_ok : forall d m, listing ltk d m -> len d <= INT_MAX ->
  (exists s, dict_keys ltk d = Ok s /\ enumerates ltk s (has m)) /\
  (exists s, dict_values ltv d = Ok s /\ enumerates ltv s (fun x => exists k, m k = Some x)) /\
  dict_items ltk ltv d = Ok d.
Proof.
  intros d m H L. split; [apply (keys_ok ltk OK); auto|]. split; [apply (values_ok ltk ltv OV); auto|]. apply (items_ok ltk ltv OK OV d m); auto.
Qed.

Theorem dict_extrema : forall d m, listing ltk d m -> len d <= INT_MAX ->
  (nothing (has m) -> dict_pop d = (Throw ContainerEmpty, d)) /\
  (~ nothing (has m) -> exists k x j d' m', dict_min d = Ok k /\ least ltk (has m) k /\ dict_max d = Ok j /\ greatest ltk (has m) j /\
     m k = Some x /\ dict_pop d = (Ok (k, x), d') /\ listing ltk d' m' /\ drops m k m').
Proof.
  intros d m H L. split; intros N.
  - apply (listing_nil _ _ H) in N. subst. auto.
  - assert (X: d <> []) by (intros X; apply N, (listing_nil _ _ H); auto). destruct (least_ex _ _ H X) as (k & x & A & B). destruct (greatest_ex _ _ H X) as (j & C).
    destruct (drops_ex m k) as (m' & P). destruct (dict_pop_ok _ _ _ _ _ H L A B P) as (d' & Q & R & _).
    exists k, x, j, d', m'. split; [eapply dict_min_ok; eauto|]. split; auto. split; [eapply dict_max_ok; eauto|]. auto.
Qed.
End Prog.

Theorem dict_empty_extrema : dict_min (@nil (Z * Z)) = UB BadDeref /\ dict_max (@nil (Z * Z)) = UB BadDeref.
Proof. split; reflexivity. Qed.

(** ** At the size limit *)
Lemma full_dict : exists d : list (Z * Z), increasing Z.ltb (map fst d) /\ len d = INT_MAX /\ forall k, In k (map fst d) -> 0 <= k.
Proof.
  destruct full_set as (l & I & L & B). exists (map (fun k => (k, 0)) l).
  assert (E: map fst (map (fun k => (k, 0)) l) = l) by (rewrite map_map; cbn; apply map_id). rewrite E. split; auto. split; auto.
  unfold len in *. rewrite map_length. auto.
Qed.

Theorem dict_add_full_witness : exists (d : list (Z * Z)) k, increasing Z.ltb (map fst d) /\ In k (map fst d) /\
  dict_add Z.ltb k 0 d = (Throw ContainerFull, d).
Proof.
  destruct full_dict as (d & I & L & _). destruct d as [|p d]; [rewrite len_nil in L; discriminate|]. exists (p :: d), (fst p).
  split; auto. split; [left; auto|]. unfold dict_add. rewrite size_ok by lia. rewrite full_throw by lia. auto.
Qed.

Theorem dict_extend_wraps : exists d : list (Z * Z), increasing Z.ltb (map fst d) /\ len d = INT_MAX /\
  size (snd (dict_extend Z.ltb [(-1, 0)] d)) = INT_MIN.
Proof.
  destruct full_dict as (d & I & L & B). exists d. split; auto. split; auto.
  assert (E: map_insert_range Z.ltb [(-1, 0)] d = (-1, 0) :: d).
  { unfold map_insert_range, map_insert. cbn [fold_left fst snd]. destruct d as [|(k, x) d]; auto. cbn [map_lower fst].
    assert (0 <= k) by (apply B; left; auto). destruct (Z.ltb_spec k (-1)); [lia|]. cbn [fst]. destruct (Z.ltb_spec (-1) k); [|lia]. reflexivity. }
  change (snd (dict_extend Z.ltb [(-1, 0)] d)) with (map_insert_range Z.ltb [(-1, 0)] d). rewrite E.
  assert (X: len ((-1, 0) :: d) = INT_MAX + 1) by (rewrite len_cons; lia). unfold size. rewrite X. reflexivity.
Qed.
