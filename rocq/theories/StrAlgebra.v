(** Laws relating the operations of Str to each other. *)
From Coq Require Import String Ascii ZArith List Bool Lia Arith.
From Verif Require Import Outcome ListModel ListSpec ListFacts ListMore ListAlgebra StrModel StrSpec StrFacts StrMore.
Import ListNotations.
Open Scope Z_scope.

Lemma slice_is : forall s a b c, str_slice s a b c = list_slice s a b c.
Proof. reflexivity. Qed.

(** ** Searching *)
Lemma count_pieces : forall s p ps, len s <= INT_MAX -> p <> [] -> pieces p s ps -> str_count s p = Ok (len ps - 1).
Proof.
  intros s p ps H P Q. destruct (count_spec s p H P) as (n & -> & (js & J & L) & M). f_equal.
  pose proof (pieces_most _ _ _ Q _ J). destruct (pieces_apart _ _ _ Q) as (js' & J' & L'). specialize (M js' J'). unfold len. lia.
Qed.

Lemma find_zero : forall s p i, len s <= INT_MAX -> str_find s p 0 INT_MAX = Ok i -> (str_starts_with s p = true <-> i = 0).
Proof.
  intros s p i H E. pose proof (len_nonneg _ s). destruct (find_spec s p 0 INT_MAX H ltac:(lia)) as (r & R & F).
  rewrite R in E. inversion E; subst r. clear E. rewrite starts_spec, <- occurs_0. rewrite Z.min_r in F by lia. split.
  - intros O. destruct F as [(A & B & C & D)|(A & D)].
    + specialize (D 0 ltac:(lia) O). lia.
    + exfalso. apply (D 0); auto; [lia|]. apply occurs_range in O. change (size_of p) with (len p). lia.
  - intros ->. destruct F as [(A & B & C & D)|(A & D)]; auto. lia.
Qed.

Lemma search_laws : forall s p, len s < INT_MAX -> p <> [] -> exists n i b l,
  str_count s p = Ok n /\ str_find s p 0 INT_MAX = Ok i /\ str_contains s p 0 INT_MAX = Ok b /\ str_split s p true = Ok l /\
  len l = n + 1 /\ (b = true <-> 0 < n) /\ (i = -1 <-> n = 0) /\ (str_starts_with s p = true <-> i = 0) /\ (n = 0 <-> l = [s]).
Proof.
  intros s p H P. pose proof (len_nonneg _ s). destruct (split_spec s p true H P) as (l & Q & S).
  pose proof (count_pieces s p l ltac:(lia) P Q) as C.
  destruct (find_spec s p 0 INT_MAX ltac:(lia) ltac:(lia)) as (i & F & FO).
  destruct (contains_spec s p 0 INT_MAX ltac:(lia) ltac:(lia)) as (b & B & BO). rewrite Z.min_r in FO, BO by lia.
  exists (len l - 1), i, b, l. split; auto. split; auto. split; auto. split; [exact S|]. split; [lia|].
  assert (ND: len l - 1 = 0 <-> l = [s]).
  { inversion Q as [? N|a t ps M K]; subst.
    - rewrite len_cons, len_nil. split; auto. 
    - rewrite len_cons. assert (1 <= len ps).
      { destruct ps; [apply pieces_nonnil in K; contradiction|rewrite len_cons; pose proof (len_nonneg _ ps); lia]. }
      split; [lia|]. intros E. inversion E; subst. rewrite len_nil in *. lia. }
  assert (ON: len l - 1 = 0 <-> forall j, ~ occurs s p j).
  { inversion Q as [? N|a t ps M K]; subst.
    - rewrite len_cons, len_nil. split; auto.
    - rewrite len_cons. assert (1 <= len ps).
      { destruct ps; [apply pieces_nonnil in K; contradiction|rewrite len_cons; pose proof (len_nonneg _ ps); lia]. }
      split; [lia|]. intros E. exfalso. apply (E (size_of a)). exists a, t. auto. }
  assert (PL: 1 <= len l).
  { destruct l; [apply pieces_nonnil in Q; contradiction|rewrite len_cons; pose proof (len_nonneg _ l0); lia]. }
  assert (BI: i = -1 <-> len l - 1 = 0).
  { rewrite ON. destruct FO as [(A1 & A2 & A3 & A4)|(A1 & A2)].
    - split; [lia|]. intros N. exfalso. apply (N i); auto.
    - split; auto. intros _ j O. pose proof (occurs_range _ _ _ O). apply (A2 j); auto; [lia|]. change (size_of p) with (len p). lia. }
  split; [|split; [exact BI|split; [apply find_zero; auto; lia|exact ND]]].
  rewrite BO. destruct FO as [(A1 & A2 & A3 & A4)|(A1 & A2)].
  - split; [lia|]. intros _. exists i. change (size_of p) with (len p) in A2. auto.
  - split; [|lia]. intros (j & J1 & J2 & J3). exfalso. apply (A2 j); auto.
Qed.

(** ** Replacing *)
Lemma glue_len : forall sep l, l <> [] -> len (glue sep l) + len sep = fold_right (fun x n => len x + len sep + n) 0 l.
Proof.
  intros sep. induction l as [|x l IH]; [contradiction|]. intros _. destruct l as [|y l].
  - cbn. lia.
  - rewrite glue_cons by discriminate. rewrite !len_app. cbn [fold_right] in *. specialize (IH ltac:(discriminate)). lia.
Qed.
Lemma glue_len_diff : forall a b l, l <> [] -> len (glue b l) - len (glue a l) = (len l - 1) * (len b - len a).
Proof.
  intros a b l N. pose proof (glue_len a l N). pose proof (glue_len b l N).
  assert (G: forall sep : str, fold_right (fun (x : str) n => len x + len sep + n) 0 l = len l * len sep + fold_right (fun (x : str) n => len x + n) 0 l).
  { intros sep. clear. induction l as [|x l IH]; cbn [fold_right]; [cbn; lia|]. rewrite IH, len_cons. lia. }
  rewrite G in *. lia.
Qed.

Lemma replace_laws : forall s old new, len s < INT_MAX -> old <> [] -> exists n r,
  str_count s old = Ok n /\ str_replace s old new = Ok r /\ len r = len s + n * (len new - len old) /\ (n = 0 -> r = s) /\
  (l <- str_split s old true ;; str_join new l) = Ok r /\ str_replace s old old = Ok s.
Proof.
  intros s old new H P. pose proof (len_nonneg _ s). destruct (replace_spec s old new ltac:(lia) P) as (ps & Q & R).
  destruct (replace_spec s old old ltac:(lia) P) as (ps' & Q' & R'). destruct (split_spec s old true H P) as (l & Q'' & S).
  rewrite (pieces_unique _ _ _ _ Q' Q) in R'. assert (l = ps) by (eapply pieces_unique; eauto). subst l. cbn [kept] in S.
  exists (len ps - 1), (glue new ps). split; [apply count_pieces; auto; lia|]. split; auto.
  pose proof (pieces_nonnil _ _ _ Q) as NN. pose proof (pieces_glue _ _ _ Q) as G. 
  assert (PC: len ps <= len s + 1) by (eapply pieces_count; eauto).
  split; [pose proof (glue_len_diff old new ps NN) as D; rewrite G in D; lia|]. split; [|split].
  - intros Z. destruct ps as [|x [|y ps]]; [contradiction| |rewrite !len_cons in Z; pose proof (len_nonneg _ ps); lia]. cbn in *. auto.
  - rewrite S. cbn [bind]. apply join_spec. lia.
  - rewrite R'. f_equal. auto.
Qed.

(** Replacing a character by one that does not occur can be undone. *)
Lemma replace_back : forall s c d, len s < INT_MAX -> ~ In d s ->
  (r <- str_replace s [c] [d] ;; str_replace r [d] [c]) = Ok s.
Proof.
  intros s c d H N. destruct (replace_spec s [c] [d] ltac:(lia) ltac:(discriminate)) as (ps & Q & ->). cbn [bind].
  pose proof (pieces_nonnil _ _ _ Q) as NN. pose proof (pieces_glue _ _ _ Q) as G.
  pose proof (glue_len_diff [c] [d] ps NN) as D. rewrite G in D. change (len [d] - len [c]) with 0 in D.
  destruct (replace_spec (glue [d] ps) [d] [c] ltac:(lia) ltac:(discriminate)) as (qs & K & ->). f_equal.
  assert (pieces [d] (glue [d] ps) ps).
  { apply pieces_of_glue; auto. rewrite Forall_forall. intros x X I. apply N. rewrite <- G. clear -X I.
    induction ps as [|y ps IH]; [destruct X|]. destruct ps as [|z ps].
    - destruct X as [->|[]]. auto.
    - rewrite glue_cons by discriminate. destruct X as [->|X].
      + apply in_or_app. auto.
      + apply in_or_app. right. apply in_or_app. right. auto. }
  rewrite (pieces_unique _ _ _ _ K H0). auto.
Qed.

(** ** Reversal, rotation, slices, repetition *)
Lemma rev_plus : forall s t : str, len s + len t <= INT_MAX ->
  str_reverse (str_plus s t) = (t' <- str_reverse t ;; s' <- str_reverse s ;; Ok (str_plus t' s')).
Proof.
  intros s t H. pose proof (len_nonneg _ s). pose proof (len_nonneg _ t). unfold str_reverse, str_plus.
  rewrite !into_buffer_ok by (rewrite ?len_app; lia). cbn [bind]. rewrite rev_app_distr. auto.
Qed.

Lemma rev_ends : forall s p : str, len s <= INT_MAX -> len p <= INT_MAX ->
  exists s' p', str_reverse s = Ok s' /\ str_reverse p = Ok p' /\ str_ends_with s p = str_starts_with s' p' /\ str_starts_with s p = str_ends_with s' p'.
Proof.
  intros s p H P. exists (rev s), (rev p). unfold str_reverse. rewrite !into_buffer_ok by auto. split; auto. split; auto. split.
  - apply eq_true_iff_eq. rewrite ends_spec, starts_spec. split; intros (a & E).
    + exists (rev a). subst s. apply rev_app_distr.
    + exists (rev a). rewrite <- (rev_involutive s), E, rev_app_distr, rev_involutive. auto.
  - apply eq_true_iff_eq. rewrite ends_spec, starts_spec. split; intros (a & E).
    + exists (rev a). subst s. apply rev_app_distr.
    + exists (rev a). rewrite <- (rev_involutive s), E, rev_app_distr, rev_involutive. auto.
Qed.

Lemma str_slices : forall s k, len s <= INT_MAX - 1 -> 0 <= k < len s ->
  (a <- str_slice s 0 k 1 ;; b <- str_slice s k (len s) 1 ;; Ok (str_plus a b)) = Ok s /\
  (b <- str_slice s k (len s) 1 ;; a <- str_slice s 0 k 1 ;; Ok (str_plus b a)) = str_shl s k /\
  str_slice s (-1) (- len s - 1) (-1) = str_reverse s /\
  (forall j, 0 <= j <= k -> (a <- str_slice s 0 j 1 ;; b <- str_slice s k (len s) 1 ;; Ok (str_plus a b)) = str_erase s j k).
Proof.
  intros s k H K. change str_slice with (@list_slice ascii). rewrite !slice_1 by lia. cbn [bind]. rewrite !Z.sub_0_r. cbn [Z.to_nat skipn]. unfold str_plus.
  assert (FA: firstn (Z.to_nat (len s - k)) (skipn (Z.to_nat k) s) = skipn (Z.to_nat k) s).
  { apply firstn_all2. rewrite skipn_length. unfold len. lia. }
  rewrite FA. split; [rewrite firstn_skipn; auto|]. split; [|split].
  - unfold str_shl. rewrite size_ok by lia. destruct (Z.leb_spec (len s) 1); cbn [orb].
    + assert (k = 0) by lia. subst k. cbn [Z.to_nat firstn skipn]. rewrite app_nil_r. auto.
    + destruct (Z.eqb_spec k 0); [subst k; cbn [Z.to_nat firstn skipn]; rewrite app_nil_r; auto|].
      rewrite Z.rem_small by lia. destruct (Z.ltb_spec k 0); [lia|]. cbn [bind]. rewrite into_buffer_ok by lia.
      unfold std_rotate. destruct (Z.ltb_spec k 0); [lia|]. destruct (Z.ltb_spec (len s) k); [lia|]. auto.
  - rewrite slice_backward by lia. unfold str_reverse. rewrite into_buffer_ok by lia. reflexivity.
  - intros j J. rewrite !slice_1 by lia. cbn [bind]. rewrite Z.sub_0_r. cbn [Z.to_nat skipn]. rewrite ?FA.
    unfold str_erase. rewrite size_ok by lia. rewrite chk32_ok by (unfold INT_MIN, INT_MAX in *; lia). cbn [bind].
    rewrite check_bounds_ok by lia. cbn [bind]. rewrite check_bounds_ok by lia. cbn [bind].
    unfold verase. destruct (Z.ltb_spec j 0); [lia|]. destruct (Z.ltb_spec k j); [lia|]. destruct (Z.ltb_spec (len s) k); [lia|]. reflexivity.
Qed.

Lemma str_shl_compose : forall s m n, len s <= INT_MAX ->
  (s' <- str_shl s m ;; str_shl s' n) = str_shl s (m + n) /\ exists r, str_shl s (m + n) = Ok r.
Proof.
  intros s m n H. destruct (str_shl_spec s m H) as (r & -> & R). cbn [bind].
  assert (L: len r = len s) by (destruct R as (R & _); unfold len; rewrite R; auto).
  destruct (str_shl_spec r n) as (q & -> & Q); [lia|]. destruct (str_shl_spec s (m + n) H) as (t & -> & TT). split; [|eauto]. f_equal.
  apply (rotated_unique _ s q t (m + n) (m + n)); auto. eapply rotated_trans; eauto.
Qed.

Lemma str_times_laws : forall s m n, len s <= INT_MAX -> 0 <= m -> 0 <= n -> len s * m <= INT_MAX -> len s * (m * n) <= INT_MAX ->
  str_times s 0 = Ok [] /\ str_times s 1 = Ok s /\ (sm <- str_times s m ;; str_times sm n) = str_times s (m * n) /\
  (len s * (m + n) <= INT_MAX -> (sm <- str_times s m ;; sn <- str_times s n ;; Ok (str_plus sm sn)) = str_times s (m + n)) /\
  (n <= INT_MAX -> len s * n <= INT_MAX -> str_join [] (repeat s (Z.to_nat n)) = str_times s n) /\
  exists r, str_times s (m * n) = Ok r.
Proof.
  intros s m n H M N A B. pose proof (len_nonneg _ s).
  assert (ST: forall t k, len t <= INT_MAX -> 0 <= k -> len t * k <= INT_MAX -> str_times t k = Ok (concat (repeat t (Z.to_nat k)))).
  { intros t k. intros. apply str_times_spec; auto. }
  rewrite (ST s 0), (ST s 1), (ST s m), (ST s (m * n)) by nia.
  cbn [Z.to_nat repeat concat bind]. change (Pos.to_nat 1) with 1%nat. cbn [repeat concat]. rewrite app_nil_r.
  split; auto. split; auto. split; [|split; [|split; [|eauto]]].
  - assert (L: len (concat (repeat s (Z.to_nat m))) = len s * m).
    { rewrite concat_repeat_len. rewrite Z2Nat.id by lia. auto. }
    rewrite ST; try (rewrite L; nia); auto. f_equal. rewrite repeat_mul. f_equal. f_equal. nia.
  - intros C. rewrite (ST s n), (ST s (m + n)) by (unfold INT_MAX in *; nia). cbn [bind]. unfold str_plus.
    rewrite <- concat_app, <- repeat_app. do 3 f_equal. lia.
  - intros NP C. rewrite (ST s n) by lia.
    rewrite join_spec by (unfold len; rewrite repeat_length; lia). f_equal.
    clear. induction (Z.to_nat n) as [|k IH]; auto. cbn [repeat concat]. rewrite <- IH. destruct k; [cbn; rewrite app_nil_r; auto|].
    cbn [repeat]. rewrite glue_cons by discriminate. auto.
Qed.

(** ** strip, lower, upper *)
Lemma strip_idem : forall s ch r, len s <= INT_MAX -> str_strip s ch = Ok r -> str_strip r ch = Ok r.
Proof.
  intros s ch r LS E. destruct (strip_spec s ch LS) as (r' & E' & T). rewrite E in E'. inversion E'; subst r'. clear E'.
  assert (len r <= INT_MAX) as LR.
  { destruct T as (a & b & -> & _). rewrite !len_app in LS. pose proof (len_nonneg _ a). pose proof (len_nonneg _ b). lia. }
  destruct (strip_spec r ch LR) as (q & -> & Q). f_equal.
  eapply trimmed_unique; [|exact Q|].
  - intros c. cbv beta. destruct (stripped_char ch c); [left; reflexivity|right; discriminate].
  - destruct T as (a & b & _ & _ & _ & X & Y). exists [], []. rewrite app_nil_r. repeat split; auto.
Qed.

Lemma case_laws : forall s t, str_lower (str_plus s t) = str_plus (str_lower s) (str_lower t) /\
  str_upper (str_plus s t) = str_plus (str_upper s) (str_upper t) /\
  str_upper (str_lower s) = str_upper s /\ str_lower (str_upper s) = str_lower s.
Proof.
  intros s t. unfold str_lower, str_upper, str_plus. rewrite !map_app, !map_map. split; [auto|split; [auto|]].
  split; apply map_ext; intros [a b c d e f g h]; destruct a, b, c, d, e, f, g, h; vm_compute; reflexivity.
Qed.
