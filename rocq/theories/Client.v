(** Proofs about the client programs of ClientModel.v. *)
From Coq Require Import ZArith QArith List Bool Lia Permutation.
From Verif Require Import Outcome IntModel IntSpec IntBase IntMulDiv IntProg IntMore ListModel ListSpec ListFacts ListMore DequeModel DequeFacts SetModel SetSpec SetFacts SetMore
  DictModel DictSpec DictFacts DictProg FracModel FracSpec FracFacts FracMore StrModel StrSpec StrSum ClientModel ClientSpec.
Import ListNotations.
Open Scope Z_scope.

(** ** Counting *)
Section Tally.
Context {K : Type} (ltk eqk : K -> K -> bool).
Hypothesis OK : strict_total ltk.
Hypothesis DK : decides eqk.

Lemma occurs_nonneg : forall ws k, 0 <= occurrences eqk ws k.
Proof. intros. unfold occurrences. lia. Qed.
Lemma occurs_snoc : forall ws w k, occurrences eqk (ws ++ [w]) k = occurrences eqk ws k + (if eqk k w then 1 else 0).
Proof. intros. unfold occurrences. rewrite filter_app, app_length. cbn [filter]. destruct (eqk k w); cbn [length]; lia. Qed.
Lemma occurs_le : forall ws k, occurrences eqk ws k <= len ws.
Proof.
  intros. unfold occurrences, len. induction ws as [|w ws IH]; cbn [filter length]; [lia|]. destruct (eqk k w); cbn [length] in *; lia.
Qed.
Lemma eqk_refl : forall k, eqk k k = true.
Proof. intros. apply DK. auto. Qed.

Lemma counts_keys : forall ws d, listing ltk d (counts eqk ws) -> len d <= len ws.
Proof.
  intros ws d (I & L). assert (incl (map fst d) ws) as C.
  { intros k H. apply in_map_iff in H. destruct H as ((k', x) & <- & H). apply L in H. unfold counts in H. cbn [fst] in *.
    destruct (occurrences eqk ws k' =? 0) eqn:E; [discriminate|]. apply Z.eqb_neq in E. unfold occurrences in E.
    destruct (filter (eqk k') ws) as [|y f] eqn:F; [cbn in E; lia|]. assert (In y (filter (eqk k') ws)) as Y by (rewrite F; left; auto).
    apply filter_In in Y. destruct Y as (Y & Q). apply DK in Q. subst. auto. }
  pose proof (NoDup_incl_length (inc_nodup ltk OK _ I) C) as N. rewrite map_length in N. unfold len. lia.
Qed.

Lemma tally_from : forall ws pre d, listing ltk d (counts eqk pre) -> len (pre ++ ws) <= INT_MAX ->
  exists d', tally ltk ws d = Ok d' /\ listing ltk d' (counts eqk (pre ++ ws)).
Proof.
  induction ws as [|w ws IH]; intros pre d L B; cbn [tally].
  - exists d. rewrite app_nil_r. auto.
  - assert (len (pre ++ w :: ws) = len pre + 1 + len ws) as E by (unfold len; rewrite app_length; cbn [length]; lia).
    pose proof (len_nonneg _ ws). pose proof (counts_keys _ _ L) as C. pose proof (occurs_nonneg pre w) as N0. pose proof (occurs_le pre w) as N1.
    assert (exists b d1 m1, dict_add ltk w 0 d = (Ok b, d1) /\ listing ltk d1 m1 /\ m1 w = Some (occurrences eqk pre w) /\
      forall j, j <> w -> m1 j = counts eqk pre j) as (b & d1 & m1 & A & L1 & W & O).
    { destruct (DictProg.add_ok ltk OK d (counts eqk pre) w 0 L ltac:(lia)) as (_ & P & Q). destruct (counts eqk pre w) as [x|] eqn:X.
      - exists false, d, (counts eqk pre). split; [apply P; [lia|exists x; auto]|]. split; [auto|]. split; [|auto].
        unfold counts in *. destruct (occurrences eqk pre w =? 0); [discriminate|auto].
      - destruct (Q ltac:(lia) eq_refl) as (d' & m' & A & L' & (P1 & P2)). exists true, d', m'. split; [auto|]. split; [auto|]. split; [|auto].
        unfold counts in X. destruct (Z.eqb_spec (occurrences eqk pre w) 0) as [Z|]; [rewrite Z; auto|discriminate]. }
    rewrite A. destruct (lookup_ok ltk OK d1 m1 w 0 L1) as (AT & _). rewrite AT, W. cbn [bind].
    assert (chk32 (occurrences eqk pre w + 1) = Ok (occurrences eqk pre w + 1)) as CH by (apply chk32_ok; unfold INT_MIN, INT_MAX in *; lia).
    rewrite CH. cbn [bind].
    destruct (DictProg.assign_spec ltk OK d1 m1 w (occurrences eqk pre w + 1) L1) as (_ & SP). destruct (SP (ex_intro _ _ W)) as (d2 & m2 & S2 & L2 & (P1 & P2)).
    rewrite S2. destruct (IH (pre ++ [w]) d2) as (d' & T & L').
    + eapply listing_same; [exact L2|]. intros j. unfold counts. rewrite occurs_snoc. destruct (eqk j w) eqn:Q.
      * apply DK in Q. subst j. rewrite P1. destruct (Z.eqb_spec (occurrences eqk pre w + 1) 0); [lia|auto].
      * assert (j <> w) by (intros ->; rewrite eqk_refl in Q; discriminate). rewrite P2, O by auto. unfold counts. rewrite Z.add_0_r. auto.
    + rewrite <- app_assoc. exact B.
    + exists d'. rewrite <- app_assoc in L'. auto.
Qed.

Theorem tally_counts : forall ws, len ws <= INT_MAX -> exists d, tally ltk ws [] = Ok d /\ listing ltk d (counts eqk ws).
Proof.
  intros ws B. apply (tally_from ws []); [|exact B]. split; [apply (nil_inc ltk)|]. intros k x. cbn. split; [tauto|discriminate].
Qed.
End Tally.

Lemma glue_pieces : forall sep ps, sep <> [] -> len ps <= len (glue sep ps) + 1.
Proof.
  intros sep ps N. assert (1 <= len sep) by (destruct sep; [congruence|unfold len; cbn [length]; lia]).
  induction ps as [|x [|y ps] IH].
  - unfold len. cbn. lia.
  - unfold len. cbn [length]. lia.
  - change (glue sep (x :: y :: ps)) with (x ++ sep ++ glue sep (y :: ps)). unfold len in *. rewrite !app_length. cbn [length] in *. lia.
Qed.

Theorem words_counted : forall (ltk eqk : str -> str -> bool) s sep keep, strict_total ltk -> decides eqk -> len s < INT_MAX -> sep <> [] ->
  exists ps d, pieces sep s ps /\ count_words ltk s sep keep = Ok d /\ listing ltk d (counts eqk (if keep then ps else filter (fun x => negb (str_is_empty x)) ps)).
Proof.
  intros ltk eqk s sep keep OK DK L N. destruct (split_all s sep keep L N) as (ps & P & G & _ & E).
  pose proof (glue_pieces sep ps N) as B. rewrite G in B.
  assert (len (filter (fun x => negb (str_is_empty x)) ps) <= len ps) as F.
  { unfold len. clear. induction ps as [|x ps IH]; cbn [filter length]; [lia|]. destruct (negb (str_is_empty x)); cbn [length]; lia. }
  destruct (tally_counts ltk eqk OK DK (if keep then ps else filter (fun x => negb (str_is_empty x)) ps)) as (d & T & D); [destruct keep; lia|].
  exists ps, d. split; [auto|]. split; [|auto]. unfold count_words. rewrite E. cbn [bind]. exact T.
Qed.

(** ** Sorting and removing duplicates *)
Section Order.
Context {T : Type} (lt eqb : T -> T -> bool).
Hypothesis OT : strict_total lt.
Hypothesis DT : decides eqb.

Lemma total_weak : strict_weak lt.
Proof.
  split; [apply (lt_irr lt OT)|]. split; [apply (lt_tr lt OT)|]. intros x y z H.
  destruct (lt z y) eqn:B; [auto|]. left. eapply (lt_nlt lt OT); eauto.
Qed.

Lemma firsts_increasing : forall l, (forall a x b y c, l = a ++ x :: b ++ y :: c -> lt y x = false) -> increasing lt (firsts eqb l).
Proof.
  induction l as [|x l IH]; intros H; cbn [firsts]; [apply (nil_inc lt)|]. apply (inc_cons lt). split.
  - assert (increasing lt (firsts eqb l)) as I by (apply IH; intros a u b v c ->; exact (H (x :: a) u b v c eq_refl)).
    revert I. generalize (firsts eqb l). clear - OT. induction l as [|y l IH]; intros I; cbn [filter]; [auto|].
    apply (inc_cons lt) in I. destruct I as (I & L). destruct (negb (eqb x y)); [|auto]. apply (inc_cons lt). split; [auto|].
    intros z Z. apply filter_In in Z. apply L. tauto.
  - intros y Y. apply filter_In in Y. destruct Y as (Y & N). apply (proj1 (firsts_in _ _ DT l y)) in Y. apply in_split in Y. destruct Y as (b & c & ->).
    specialize (H [] x b y c eq_refl). destruct (lt_tot lt OT x y) as [A|[A|A]]; [auto| |congruence].
    subst y. rewrite (proj2 (DT x x) eq_refl) in N. discriminate.
Qed.

Theorem sort_uniquify_set : forall l, sort_uniquify lt eqb l = (Ok tt, set_of lt l).
Proof.
  intros l. unfold sort_uniquify. destruct (list_sort_spec _ lt l total_weak) as (r & E & P & S & _). rewrite E, (uniquify_spec _ _ _ DT). f_equal.
  apply (inc_unique lt OT).
  - apply firsts_increasing. exact S.
  - apply (of_enum lt OT).
  - intros x. rewrite (firsts_in _ _ DT). destruct (of_enum lt OT l) as (_ & Q). rewrite (Q x). split; intros H.
    + eapply Permutation_in; [apply Permutation_sym; exact P|exact H].
    + eapply Permutation_in; [exact P|exact H].
Qed.

(** uniquify alone keeps as many elements. *)
Theorem uniquify_set_size : forall l l', list_uniquify eqb l = (Ok tt, l') -> length l' = length (set_of lt l) /\ forall x, In x l' <-> In x (set_of lt l).
Proof.
  intros l l' E. rewrite (uniquify_spec _ _ _ DT) in E. injection E as <-. destruct (of_enum lt OT l) as (I & Q).
  assert (forall x, In x (firsts eqb l) <-> In x (set_of lt l)) as X by (intros x; rewrite (firsts_in _ _ DT), (Q x); tauto).
  split; [|exact X]. apply Permutation_length. apply NoDup_Permutation; [apply (firsts_nodup _ _ DT)|apply (inc_nodup lt OT); auto|exact X].
Qed.
End Order.

(** ** A sum of fractions *)
Lemma frac_make_pos : forall n d g, 0 < d <= INT_MAX -> - INT_MAX <= n <= INT_MAX -> Z.gcd n d = g -> frac_make n d = Ok (Frac (Z.quot n g) (Z.quot d g)).
Proof.
  intros n d g D N G. unfold frac_make, check_zero. destruct (Z.eqb_spec d 0); [lia|]. cbn [bind]. destruct (Z.ltb_spec d 0); [lia|]. cbn [bind fst snd].
  unfold std_gcd. destruct (Z.eqb_spec n INT_MIN); [unfold INT_MIN, INT_MAX in *; lia|]. destruct (Z.eqb_spec d INT_MIN); [unfold INT_MIN, INT_MAX in *; lia|].
  cbn [orb bind]. rewrite G. auto.
Qed.
Lemma gcd_1_r : forall n, Z.gcd 1 n = 1.
Proof. intros. apply Z.gcd_1_l. Qed.

Lemma telescope_S : forall n k s, telescope (S n) k s =
  (k1 <- chk32 (k + 1) ;; d <- chk32 (k * k1) ;; t <- frac_make 1 d ;; s' <- frac_add s t ;; telescope n k1 s').
Proof. reflexivity. Qed.

Lemma telescope_ok : forall k n, 1 <= k <= 1289 -> telescope (S n) k (Frac (k - 1) k) = telescope n (k + 1) (Frac (k + 1 - 1) (k + 1)).
Proof.
  intros k n K. rewrite telescope_S. assert (forall z, - INT_MAX <= z <= INT_MAX -> chk32 z = Ok z) as C by (intros; apply chk32_ok; unfold INT_MIN, INT_MAX in *; lia).
  assert (k * k * (k + 1) <= INT_MAX) as B by (unfold INT_MAX; nia).
  rewrite C by (unfold INT_MAX; lia). cbn [bind]. rewrite C by (unfold INT_MAX in *; nia). cbn [bind].
  rewrite (frac_make_pos 1 (k * (k + 1)) 1); [|unfold INT_MAX in *; nia|unfold INT_MAX; lia|apply gcd_1_r]. cbn [bind]. rewrite !Z.quot_1_r.
  unfold frac_add. cbn [num den]. rewrite C by (unfold INT_MAX in *; nia). cbn [bind]. rewrite C by (unfold INT_MAX in *; nia). cbn [bind].
  rewrite C by (unfold INT_MAX in *; nia). cbn [bind]. rewrite C by (unfold INT_MAX in *; nia). cbn [bind].
  replace ((k - 1) * (k * (k + 1)) + k * 1) with (k * (k * k)) by ring. replace (k * (k * (k + 1))) with ((k + 1) * (k * k)) by ring.
  assert (Z.gcd k (k + 1) = 1) as G by (rewrite Z.gcd_add_diag_r || (rewrite Z.add_comm, Z.gcd_comm; replace (1 + k) with (1 + 1 * k) by ring; rewrite Z.gcd_comm, Z.gcd_add_mult_diag_r; apply Z.gcd_1_r); try apply Z.gcd_1_r).
  rewrite (frac_make_pos _ _ (k * k)); [|unfold INT_MAX in *; nia|unfold INT_MAX in *; nia|].
  2:{ rewrite Z.gcd_mul_mono_r, G, Z.abs_eq by nia. ring. }
  cbn [bind]. rewrite !Z.quot_mul by nia. f_equal. f_equal. lia.
Qed.
Lemma telescope_bad : forall n, telescope (S n) 1290 (Frac 1289 1290) = UB SignedOverflow.
Proof. intros n. rewrite telescope_S. vm_compute. reflexivity. Qed.

Lemma telescope_from : forall n k, 1 <= k -> k + Z.of_nat n <= 1290 -> telescope n k (Frac (k - 1) k) = Ok (Frac (k + Z.of_nat n - 1) (k + Z.of_nat n)).
Proof.
  induction n as [|n IH]; intros k K L; [cbn [telescope]; do 2 f_equal; lia|]. rewrite telescope_ok by lia. rewrite IH by lia.
  do 2 f_equal; lia.
Qed.
Lemma telescope_over : forall n k, 1 <= k <= 1290 -> 1290 < k + Z.of_nat n -> telescope n k (Frac (k - 1) k) = UB SignedOverflow.
Proof.
  induction n as [|n IH]; intros k K L; [lia|]. destruct (Z.eq_dec k 1290) as [->|]; [apply telescope_bad|].
  rewrite telescope_ok by lia. apply IH; lia.
Qed.
Theorem telescope_exact : forall n, (Z.of_nat n <= 1289 -> telescope n 1 (Frac 0 1) = Ok (Frac (Z.of_nat n) (Z.of_nat n + 1))) /\
  (1289 < Z.of_nat n -> telescope n 1 (Frac 0 1) = UB SignedOverflow).
Proof.
  intros n. change (Frac 0 1) with (Frac (1 - 1) 1). split; intros H; [|apply telescope_over; lia]. rewrite telescope_from by lia. do 2 f_equal; lia.
Qed.

(** ** The circle *)
Lemma pop_back_ok : forall T (q : list T) x, len (q ++ [x]) <= INT_MAX -> deq_pop_back (q ++ [x]) = (Ok x, q).
Proof.
  intros T q x L. unfold deq_pop_back. rewrite size_ok by auto. unfold check_empty. assert (1 <= len (q ++ [x])) by (unfold len; rewrite app_length; cbn [length]; lia).
  destruct (Z.eqb_spec (len (q ++ [x])) 0); [lia|]. rewrite rev_app_distr. cbn [rev app]. rewrite removelast_last. auto.
Qed.

Lemma seat_range : forall k n, 0 <= seat k (S n) < Z.of_nat (S n).
Proof.
  intros k n. destruct n as [|n]; [cbn; lia|]. change (seat k (S (S n))) with ((seat k (S n) + k) mod Z.of_nat (S (S n))). apply Z.mod_pos_bound. lia.
Qed.

Theorem josephus_seat : forall T k n (q : list T), length q = S n -> len q <= INT_MAX ->
  exists x, nth_error q (Z.to_nat (seat k (S n))) = Some x /\ forall fuel, (n <= fuel)%nat -> josephus fuel k q = Ok [x].
Proof.
  intros T k. induction n as [|n IH]; intros q L B.
  - destruct q as [|x [|y q]]; try discriminate. exists x. split; [reflexivity|]. intros fuel _. destruct fuel; reflexivity.
  - destruct (deq_left _ q k B) as (r & E & (LR & R)).
    assert (r <> []) as NE by (intros ->; cbn in LR; lia). destruct (exists_last NE) as (q' & x & ->).
    assert (length q' = S n) as L' by (rewrite app_length in LR; cbn in LR; lia).
    destruct (IH q' L') as (y & Y & J). { unfold len in *. lia. }
    exists y. split.
    + change (seat k (S (S n))) with ((seat k (S n) + k) mod Z.of_nat (S (S n))). rewrite <- L, <- R.
      * pose proof (seat_range k n). rewrite nth_error_app1 by lia. auto.
      * pose proof (seat_range k n). lia.
    + intros fuel F. destruct fuel as [|fuel]; [lia|]. cbn [josephus]. rewrite size_ok by auto. assert (2 <= len q) by (unfold len; lia).
      destruct (Z.leb_spec (len q) 1); [lia|]. rewrite E. rewrite pop_back_ok by (unfold len in *; rewrite LR; lia). apply J. lia.
Qed.

(** Every second one: the binary digits turn. *)
Theorem seat_two : forall n j, (2 ^ j <= Z.of_nat n < 2 * 2 ^ j) -> 0 <= j -> seat 2 n = 2 * (Z.of_nat n - 2 ^ j).
Proof.
  assert (forall n j, 0 <= j -> 2 ^ j <= Z.of_nat (S n) < 2 * 2 ^ j -> seat 2 (S n) = 2 * (Z.of_nat (S n) - 2 ^ j)) as H.
  { induction n as [|n IH]; intros j J B.
    - assert (2 ^ j = 1) as -> by (pose proof (Z.pow_pos_nonneg 2 j); lia). reflexivity.
    - change (seat 2 (S (S n))) with ((seat 2 (S n) + 2) mod Z.of_nat (S (S n))). destruct (Z.eq_dec (2 ^ j) (Z.of_nat (S (S n)))) as [E|E].
      + assert (1 <= j) as J1 by (destruct (Z.eq_dec j 0) as [->|]; [rewrite Z.pow_0_r in E; lia|lia]).
        assert (2 ^ j = 2 * 2 ^ (j - 1)) as P by (rewrite <- Z.pow_succ_r by lia; f_equal; lia).
        rewrite (IH (j - 1)) by lia. rewrite E, Z.sub_diag, Z.mul_0_r.
        replace (2 * (Z.of_nat (S n) - 2 ^ (j - 1)) + 2) with (1 * Z.of_nat (S (S n))) by lia. apply Z.mod_mul. lia.
      + rewrite (IH j) by lia. rewrite Z.mod_small by lia. lia. }
  intros [|n] j B J; [pose proof (Z.pow_pos_nonneg 2 j); lia|]. apply H; auto.
Qed.

(** ** Digits *)
Lemma digits_loop : forall b c fuel n a acc, repr b c -> 2 <= c -> repr n a -> 0 <= a < 2 ^ Z.of_nat fuel ->
  exists ds zs, digits_of Benign fuel n b acc = Ok (acc ++ ds) /\ Forall2 repr ds zs /\ Forall (fun z => 0 <= z < c) zs /\ in_base c zs = a /\ last zs 1 <> 0.
Proof.
  intros b c. induction fuel as [|fuel IH]; intros n a acc B C N A.
  - assert (a = 0) as -> by (cbn in A; lia). exists [], []. cbn [digits_of]. rewrite (proj2 (is_zero_spec _ _ N) eq_refl), app_nil_r.
    split; [auto|]. split; [constructor|]. split; [constructor|]. split; [reflexivity|discriminate].
  - destruct (Z.eq_dec a 0) as [->|Z0].
    { exists [], []. cbn [digits_of]. rewrite (proj2 (is_zero_spec _ _ N) eq_refl), app_nil_r.
      split; [auto|]. split; [constructor|]. split; [constructor|]. split; [reflexivity|discriminate]. }
    cbn [digits_of]. destruct (is_zero n) eqn:IZ; [apply (is_zero_spec _ _ N) in IZ; lia|].
    destruct (division_identity_nonneg n b a c N B ltac:(lia) ltac:(lia)) as (q & r & (qi & Q & RQ) & (ri & R & RR) & E & L).
    rewrite R, Q. cbn [bind]. rewrite Nat2Z.inj_succ, Z.pow_succ_r in A by lia.
    destruct (IH qi q (acc ++ [ri]) B C RQ) as (ds & zs & D & F & G & V & NZ). { rewrite Z.abs_eq in L by lia. nia. }
    exists (ri :: ds), (r :: zs). rewrite D, <- app_assoc. split; [auto|]. split; [constructor; auto|]. split; [constructor; [lia|auto]|].
    split; [cbn [in_base fold_right]; fold (in_base c zs); rewrite V; lia|].
    destruct zs as [|z zs]; [cbn in V; cbn; subst q; lia|exact NZ].
Qed.

Theorem digits_ok : forall b c n a fuel, repr b c -> 2 <= c -> repr n a -> 0 <= a < 2 ^ Z.of_nat fuel ->
  exists ds zs, digits_of Benign fuel n b [] = Ok ds /\ Forall2 repr ds zs /\ Forall (fun z => 0 <= z < c) zs /\ in_base c zs = a /\ last zs 1 <> 0.
Proof. intros b c n a fuel B C N A. exact (digits_loop b c fuel n a [] B C N A). Qed.

Lemma in_base_unique : forall c zs ys, 2 <= c -> Forall (fun z => 0 <= z < c) zs -> Forall (fun z => 0 <= z < c) ys -> last zs 1 <> 0 -> last ys 1 <> 0 ->
  in_base c zs = in_base c ys -> zs = ys.
Proof.
  intros c zs ys C. assert (forall l, Forall (fun z => 0 <= z < c) l -> 0 <= in_base c l) as P.
  { induction l as [|z l IH]; intros F; cbn [in_base fold_right]; [lia|]. inversion F; subst. fold (in_base c l). specialize (IH ltac:(auto)). nia. }
  assert (forall l, Forall (fun z => 0 <= z < c) l -> last l 1 <> 0 -> in_base c l = 0 -> l = []) as Q.
  { induction l as [|z l IH]; intros F L E; [auto|]. exfalso. inversion F; subst. cbn [in_base fold_right] in E. fold (in_base c l) in E.
    pose proof (P l ltac:(auto)). assert (in_base c l = 0 /\ z = 0) as (E1 & ->) by nia. destruct l as [|y l]; [cbn in L; lia|].
    specialize (IH ltac:(auto) L E1). discriminate. }
  revert ys. induction zs as [|z zs IH]; intros ys F G L M E.
  - symmetry. apply Q; auto.
  - destruct ys as [|y ys]; [apply Q; auto|]. inversion F; inversion G; subst. cbn [in_base fold_right] in E. fold (in_base c zs) (in_base c ys) in E.
    assert (z = y) as <-. { pose proof (f_equal (fun t => t mod c) E) as X. cbv beta in X. rewrite !(Z.mul_comm c), !Z.mod_add, !Z.mod_small in X by lia. auto. }
    f_equal. apply IH; auto; [destruct zs; [discriminate|auto]|destruct ys; [discriminate|auto]|nia].
Qed.

(** The digits in base 10 are those of the text, from the right. *)
Theorem digits_ten : forall b n a fuel, repr b 10 -> repr n a -> 0 <= a < 2 ^ Z.of_nat fuel ->
  exists ds, digits_of Benign fuel n b [] = Ok ds /\ Forall2 repr ds (chunks n).
Proof.
  intros b n a fuel B N A. destruct (digits_ok b 10 n a fuel B ltac:(lia) N A) as (ds & zs & D & F & G & V & L). exists ds. split; [auto|].
  replace (chunks n) with zs; [auto|]. destruct N as ((CD & CL & CS & C0) & CV). apply (in_base_unique 10); auto; [lia| |].
  - eapply Forall_impl; [|exact CD]. intros z Z. unfold digit in Z. lia.
  - rewrite V. unfold value in CV. change (in_base 10 (chunks n)) with (val (chunks n)). destruct CS as [S|[S|S]].
    + exfalso. rewrite S in CV. assert (0 <= val (chunks n)). { clear - CD. induction CD; cbn [val fold_right]; [lia|]. fold (val l). unfold digit in *. lia. }
      assert (val (chunks n) = 0) as E by lia. assert (chunks n = []) as E1.
      { apply (in_base_unique 10); auto; [lia| |discriminate]. eapply Forall_impl; [|exact CD]. intros z Z. unfold digit in Z. lia. }
      apply C0 in E1. lia.
    + assert (chunks n = []) as E1 by (apply C0; auto). rewrite E1, S in *. cbn in *. lia.
    + rewrite S in CV. lia.
Qed.

(** Base 1 never ends; base 0 throws. *)
Theorem digits_one : forall b n a fuel acc, repr b 1 -> repr n a -> 0 < a -> digits_of Benign fuel n b acc = OutOfFuel.
Proof.
  intros b n a fuel. revert n. induction fuel as [|fuel IH]; intros n acc B N A; cbn [digits_of]; (destruct (is_zero n) eqn:IZ; [apply (is_zero_spec _ _ N) in IZ; lia|]); [auto|].
  destruct (division_identity_nonneg n b a 1 N B ltac:(lia) ltac:(lia)) as (q & r & (qi & Q & RQ) & (ri & R & RR) & E & L).
  rewrite R, Q. cbn [bind]. apply IH; auto. replace a with q by lia. auto.
Qed.
Theorem digits_zero : forall p b n a fuel acc, repr b 0 -> repr n a -> a <> 0 -> digits_of p (S fuel) n b acc = Throw DivideByZero.
Proof.
  intros p b n a fuel acc B N A. cbn [digits_of]. destruct (is_zero n) eqn:IZ; [apply (is_zero_spec _ _ N) in IZ; lia|].
  rewrite int_mod_zero by auto. reflexivity.
Qed.
