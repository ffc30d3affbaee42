(** Proofs about searching, splitting, joining and replacing. *)
From Coq Require Import String Ascii ZArith List Bool Lia.
From Verif Require Import Outcome IntModel ListModel ListSpec ListFacts ListMore StreamModel FloatModel StrModel StrSpec.
Import ListNotations.
Open Scope Z_scope.

Ltac szl := repeat match goal with
  | |- context [size_of ?x] => change (size_of x) with (len x)
  | H : context [size_of ?x] |- _ => change (size_of x) with (len x) in H
  end.

Lemma len_0 : forall T (l : list T), len l = 0 -> l = [].
Proof. intros T [|x l]; auto. rewrite len_cons. pose proof (len_nonneg _ l). lia. Qed.

Lemma prefixb_spec : forall p v, prefixb p v = true <-> exists b, v = p ++ b.
Proof.
  induction p as [|c p IH]; intros v; cbn [prefixb].
  - split; intros; [exists v|]; auto.
  - destruct v as [|d v]; [split; [discriminate|intros (b & E); discriminate]|].
    rewrite andb_true_iff, Ascii.eqb_eq, IH. split.
    + intros (-> & b & ->). exists b. auto.
    + intros (b & E). injection E as -> ->. eauto.
Qed.

Lemma occurs_0 : forall s p, occurs s p 0 <-> exists b, s = p ++ b.
Proof.
  intros s p. split.
  - intros (a & b & -> & E). destruct a; [exists b; auto|]. unfold size_of in E. cbn [length] in E. lia.
  - intros (b & ->). exists [], b. auto.
Qed.

Lemma occurs_range : forall s p i, occurs s p i -> 0 <= i /\ i + len p <= len s.
Proof.
  intros s p i (a & b & -> & <-). (szl; rewrite !len_app). pose proof (len_nonneg _ a). pose proof (len_nonneg _ b). lia.
Qed.

Lemma occurs_S : forall c s p i, 0 <= i -> occurs (c :: s) p (i + 1) <-> occurs s p i.
Proof.
  intros c s p i I. split.
  - intros (a & b & E & L). destruct a as [|x a]; [unfold size_of in L; cbn [length] in L; lia|].
    injection E as -> ->. exists a, b. split; auto. unfold size_of in *. cbn [length] in L. lia.
  - intros (a & b & -> & L). exists (c :: a), b. split; auto. unfold size_of in *. cbn [length]. lia.
Qed.

Lemma view_find_some : forall v p k, view_find v p = Some k ->
  occurs v p (Z.of_nat k) /\ forall j, occurs v p j -> Z.of_nat k <= j.
Proof.
  induction v as [|c v IH]; intros p k; cbn [view_find]; destruct (prefixb p _) eqn:E.
  1,3: intros X; injection X as <-; apply prefixb_spec in E; split; [apply occurs_0; exact E|intros j J; apply occurs_range in J; lia].
  - discriminate.
  - destruct (view_find v p) as [i|] eqn:F; [|discriminate]. intros X; injection X as <-. destruct (IH _ _ F) as (O & M).
    replace (Z.of_nat (S i)) with (Z.of_nat i + 1) by lia. split; [apply occurs_S; auto; lia|].
    intros j J. destruct (Z.eq_dec j 0) as [->|N].
    + apply occurs_0 in J. apply prefixb_spec in J. congruence.
    + pose proof (occurs_range _ _ _ J). replace j with (j - 1 + 1) in J by lia. assert (0 <= j - 1) as J0 by lia. apply (occurs_S c v p _ J0) in J. specialize (M _ J). lia.
Qed.

Lemma view_find_none : forall v p, view_find v p = None -> forall j, ~ occurs v p j.
Proof.
  induction v as [|c v IH]; intros p; cbn [view_find]; destruct (prefixb p _) eqn:E; try discriminate; intros F j J.
  - pose proof (occurs_range _ _ _ J). rewrite len_nil in *. pose proof (len_nonneg _ p). assert (j = 0) by lia. subst j.
    apply occurs_0, prefixb_spec in J. congruence.
  - destruct (view_find v p) eqn:G; [discriminate|]. destruct (Z.eq_dec j 0) as [->|N].
    + apply occurs_0, prefixb_spec in J. congruence.
    + pose proof (occurs_range _ _ _ J). replace j with (j - 1 + 1) in J by lia. assert (0 <= j - 1) as J0 by lia. apply (occurs_S c v p _ J0) in J. exact (IH _ G _ J).
Qed.

Lemma occurs_shift : forall x w y p j, occurs w p j -> occurs (x ++ w ++ y) p (len x + j).
Proof.
  intros x w y p j (a & b & -> & <-). exists (x ++ a), (b ++ y). split.
  - rewrite <- !app_assoc. auto.
  - (szl; rewrite len_app). auto.
Qed.

Lemma occurs_window : forall x w y p i, occurs (x ++ w ++ y) p i -> len x <= i -> i + len p <= len x + len w -> occurs w p (i - len x).
Proof.
  intros x w y p i (a & b & E & <-) A B. change (size_of a) with (len a) in *.
  apply app_eq_app in E as (l & [(-> & E)|(-> & E)]).
  - rewrite len_app in A. pose proof (len_nonneg _ l). assert (l = []) as -> by (apply len_0; lia).
    rewrite app_nil_r in *. cbn [app] in E. replace (len a - len a) with 0 by lia.
    apply app_eq_app in E as (m & [(-> & E)|(-> & E)]).
    + rewrite len_app in B. pose proof (len_nonneg _ m). assert (m = []) as -> by (apply len_0; lia).
      rewrite app_nil_r. apply occurs_0. exists []. rewrite app_nil_r. auto.
    + apply occurs_0. exists m. auto.
  - rewrite len_app in *. replace (len x + len l - len x) with (len l) by lia.
    rewrite app_assoc in E. apply app_eq_app in E as (m & [(-> & E)|(E & ->)]).
    + exists l, m. rewrite <- app_assoc. auto.
    + assert (len (l ++ p) = len (w ++ m)) as L by congruence. rewrite !len_app in L. pose proof (len_nonneg _ m).
      assert (m = []) as -> by (apply len_0; lia).
      rewrite app_nil_r in E. exists l, []. rewrite app_nil_r. auto.
Qed.

Lemma find_spec : forall s p start stop, len s <= INT_MAX -> 0 <= start <= Z.min stop (len s) ->
  exists r, str_find s p start stop = Ok r /\ first_occurrence s p start (Z.min stop (len s)) r.
Proof.
  intros s p start stop H B. unfold str_find. rewrite size_ok by auto. destruct (Z.ltb_spec (len s) start); [lia|].
  replace (if len s <? stop then len s else stop) with (Z.min stop (len s)) by (destruct (Z.ltb_spec (len s) stop); lia).
  set (e := Z.min stop (len s)) in *. assert (e <= len s) by (unfold e; lia). clearbody e. destruct (Z.ltb_spec start 0); [lia|].
  rewrite chk32_ok by (unfold INT_MIN; lia). cbn [bind]. destruct (Z.ltb_spec (e - start) 0); [lia|].
  destruct (cut_at _ s start) as (x & t & -> & Lx); [lia|]. fold (len x) in Lx. rewrite len_app in *.
  replace (Z.to_nat start) with (Z.to_nat (len x)) by (rewrite Lx; auto). rewrite skipn_len.
  destruct (cut_at _ t (e - start)) as (w & y & -> & Lw); [lia|]. fold (len w) in Lw. rewrite len_app in *.
  rewrite <- Lw, firstn_len. pose proof (len_nonneg _ y).
  destruct (view_find w p) as [k|] eqn:F.
  - apply view_find_some in F as (O & M). pose proof (occurs_range _ _ _ O). pose proof (len_nonneg _ p).
    rewrite wrap32_id by (unfold INT_MIN; lia). rewrite chk32_ok by (unfold INT_MIN; lia). eexists; split; [reflexivity|].
    left. szl. split; [lia|split; [lia|split]].
    + rewrite <- Lx. apply occurs_shift. auto.
    + intros j J1 J2. destruct (Z_le_gt_dec (j + len p) (len x + len w)) as [C|C]; [|lia].
      apply occurs_window in J2; try lia. specialize (M _ J2). lia.
  - eexists; split; [reflexivity|]. right. split; auto. szl. intros j J1 J2 J3.
    apply occurs_window in J3; try lia. exact (view_find_none _ _ F _ J3).
Qed.

Lemma find_beyond : forall s p start stop, len s <= INT_MAX -> len s < start -> str_find s p start stop = Ok (-1).
Proof. intros s p start stop H B. unfold str_find. rewrite size_ok by auto. destruct (Z.ltb_spec (len s) start); [auto|lia]. Qed.

Lemma find_undefined : forall s p start stop, len s <= INT_MAX -> start <= len s -> start < 0 \/ stop < start ->
  exists u, str_find s p start stop = UB u.
Proof.
  intros s p start stop H B C. pose proof (len_nonneg _ s). unfold str_find. rewrite size_ok by auto. destruct (Z.ltb_spec (len s) start); [lia|].
  destruct (Z.ltb_spec start 0); [eauto|]. destruct C as [C|C]; [lia|].
  destruct (Z.ltb_spec (len s) stop); [lia|]. destruct (chk32_cases (stop - start)) as [(_ & ->)| ->]; cbn [bind]; [|eauto].
  destruct (Z.ltb_spec (stop - start) 0); [eauto|lia].
Qed.

Lemma first_occurrence_unique : forall s p start stop r r', 0 <= start -> first_occurrence s p start stop r -> first_occurrence s p start stop r' -> r = r'.
Proof.
  intros s p start stop r r' Z0 [(A & B & C & D)|(A & B)] [(A' & B' & C' & D')|(A' & B')]; try lia.
  - specialize (D _ A' C'). specialize (D' _ A C). lia.
  - exfalso. eapply B'; eauto.
  - exfalso. eapply B; eauto.
Qed.

Lemma contains_spec : forall s p start stop, len s <= INT_MAX -> 0 <= start <= Z.min stop (len s) ->
  exists b, str_contains s p start stop = Ok b /\
    (b = true <-> exists j, start <= j /\ j + len p <= Z.min stop (len s) /\ occurs s p j).
Proof.
  intros s p start stop H B. destruct (find_spec s p start stop H B) as (r & E & F). unfold str_contains. rewrite E. cbn [bind].
  eexists; split; [reflexivity|]. destruct F as [(A & C & D & _)|(-> & N)].
  - destruct (Z.eqb_spec r (-1)); [lia|]. split; auto. intros _. exists r. auto.
  - change (-1 =? -1) with true. cbn [negb]. split; [discriminate|]. intros (j & J1 & J2 & J3). exfalso. eapply N; eauto.
Qed.

(** ** The pieces of a string *)

Lemma pieces_exists : forall p, p <> [] -> forall s, exists ps, pieces p s ps.
Proof.
  intros p P s. remember (length s) as n eqn:L. revert s L. induction n as [n IH] using lt_wf_ind. intros s ->.
  destruct (view_find s p) as [k|] eqn:F.
  - apply view_find_some in F as ((a & b & -> & A) & M). destruct (IH (length b)) with (s := b) as (ps & Q); auto.
    { rewrite !app_length. destruct p; [contradiction|]. cbn [length]. lia. }
    exists (a :: ps). constructor; auto. rewrite A. exact M.
  - exists [s]. constructor. apply view_find_none. auto.
Qed.

Lemma pieces_unique : forall p, forall s ps ps', pieces p s ps -> pieces p s ps' -> ps = ps'.
Proof.
  intros p s ps ps' H. revert ps'. induction H as [s N|a b ps M H IH]; intros ps' H'.
  - remember s as s0 eqn:Es in H'. destruct H' as [s0 N'|a b ps M H].
    + subst. auto.
    + exfalso. apply (N (size_of a)). rewrite <- Es. exists a, b. auto.
  - remember (a ++ p ++ b) as s0 eqn:Es in H'. destruct H' as [s0 N'|a' b' ps' M' H'].
    + exfalso. apply (N' (size_of a)). rewrite Es. exists a, b. auto.
    + assert (size_of a = size_of a') as L.
      { apply Z.le_antisymm; [apply M|apply M'].
        - rewrite <- Es. exists a', b'. auto.
        - rewrite Es. exists a, b. auto. }
      destruct (cut_unique _ (a ++ p ++ b) a (p ++ b) a' (p ++ b') (size_of a)) as (<- & E); [split; auto|split; auto|].
      apply app_inv_head in E. subst b'. f_equal. auto.
Qed.

Lemma pieces_nonnil : forall p s ps, pieces p s ps -> ps <> [].
Proof. intros p s ps []; discriminate. Qed.

Lemma glue_cons : forall sep x l, l <> [] -> glue sep (x :: l) = x ++ sep ++ glue sep l.
Proof. intros sep x [|y l] N; [contradiction|auto]. Qed.

Lemma pieces_glue : forall p s ps, pieces p s ps -> glue p ps = s.
Proof.
  intros p s ps H. induction H as [s N|a b ps M H IH]; auto. rewrite glue_cons by (eapply pieces_nonnil; eauto). rewrite IH. auto.
Qed.

Lemma pieces_free : forall p s ps, p <> [] -> pieces p s ps -> Forall (fun x => ~ contains x p) ps.
Proof.
  intros p s ps P H. induction H as [s N|a b ps M H IH]; constructor; auto.
  - intros (j & J). exact (N j J).
  - intros (j & J). pose proof (occurs_range _ _ _ J) as (J1 & J2).
    apply (occurs_shift [] a (p ++ b) p j) in J. cbn [app] in J. rewrite len_nil in J. apply M in J.
    szl. destruct p; [contradiction|]. rewrite len_cons in J2. pose proof (len_nonneg _ p). lia.
Qed.

Lemma pieces_len : forall p s ps, pieces p s ps -> (len ps - 1) * len p + 0 <= len s.
Proof.
  intros p s ps H. induction H as [s N|a b ps M H IH].
  - rewrite len_cons, len_nil. pose proof (len_nonneg _ s). lia.
  - rewrite len_cons, !len_app. pose proof (len_nonneg _ a). lia.
Qed.

Lemma pieces_count : forall p s ps, p <> [] -> pieces p s ps -> len ps <= len s + 1.
Proof.
  intros p s ps P H. pose proof (pieces_len _ _ _ H). destruct p; [contradiction|]. rewrite len_cons in *. pose proof (len_nonneg _ p).
  assert (1 <= len ps) by (destruct ps; [apply pieces_nonnil in H; contradiction|rewrite len_cons; pose proof (len_nonneg _ ps); lia]). nia.
Qed.

Lemma find_rest_none : forall d r p, len (d ++ r) <= INT_MAX -> (forall j, ~ occurs r p j) ->
  str_find (d ++ r) p (len d) INT_MAX = Ok (-1).
Proof.
  intros d r p H N. rewrite len_app in *. pose proof (len_nonneg _ d). pose proof (len_nonneg _ r).
  destruct (find_spec (d ++ r) p (len d) INT_MAX) as (x & E & [(A & B & C & _)|(-> & _)]); rewrite ?len_app; try lia; auto.
  exfalso. (szl; rewrite len_app in B). rewrite <- (app_nil_r r) in C. apply occurs_window in C; try lia. exact (N _ C).
Qed.

Lemma find_rest_some : forall d a b p, len (d ++ a ++ p ++ b) <= INT_MAX -> (forall j, occurs (a ++ p ++ b) p j -> size_of a <= j) ->
  str_find (d ++ a ++ p ++ b) p (len d) INT_MAX = Ok (len d + len a).
Proof.
  intros d a b p H M. pose proof H as H0. rewrite !len_app in H. pose proof (len_nonneg _ d). pose proof (len_nonneg _ a). pose proof (len_nonneg _ p). pose proof (len_nonneg _ b).
  destruct (find_spec (d ++ a ++ p ++ b) p (len d) INT_MAX) as (x & E & F); rewrite ?len_app; try lia.
  rewrite E. f_equal. symmetry. apply (first_occurrence_unique (d ++ a ++ p ++ b) p (len d) (Z.min INT_MAX (len (d ++ a ++ p ++ b)))); auto. left. change (size_of p) with (len p). rewrite !len_app.
  split; [lia|split; [lia|split]].
  - exists (d ++ a), b. (szl; rewrite <- app_assoc, len_app). auto.
  - intros j J1 J2. pose proof (occurs_range _ _ _ J2) as J3. rewrite !len_app in J3.
    rewrite <- (app_nil_r (a ++ p ++ b)) in J2. apply occurs_window in J2; rewrite ?len_app; try lia. apply M in J2. szl. lia.
Qed.

(** ** count *)

Lemma apart_weaken : forall s p js lo lo', lo' <= lo -> apart s p lo js -> apart s p lo' js.
Proof. intros s p [|j js] lo lo' L; auto. intros (A & B). split; [lia|auto]. Qed.

Lemma apart_shift : forall x s p js lo, apart s p lo js -> apart (x ++ s) p (len x + lo) (map (Z.add (len x)) js).
Proof.
  induction js as [|j js IH]; intros lo; auto. intros (A & B & C). cbn [map apart]. split; [lia|]. split.
  - apply (occurs_shift x s [] p j) in B. rewrite app_nil_r in B. auto.
  - specialize (IH _ C). rewrite <- Z.add_assoc. auto.
Qed.

Lemma apart_unshift : forall x s p js lo, len x <= lo -> apart (x ++ s) p lo js -> apart s p (lo - len x) (map (fun j => j - len x) js).
Proof.
  induction js as [|j js IH]; intros lo L; auto. intros (A & B & C). cbn [map apart]. split; [lia|].
  pose proof (occurs_range _ _ _ B) as R. rewrite len_app in R. split.
  - rewrite <- (app_nil_r s) in B. apply occurs_window in B; auto; lia.
  - replace (j - len x + size_of p) with (j + size_of p - len x) by lia. apply IH; auto. szl. pose proof (len_nonneg _ p). lia.
Qed.

Lemma pieces_most : forall p s ps, pieces p s ps -> forall js, apart s p 0 js -> (S (length js) <= length ps)%nat.
Proof.
  intros p s ps H. induction H as [s N|a b ps M H IH]; intros js J.
  - destruct js as [|j js]; auto. destruct J as (_ & O & _). exfalso. exact (N _ O).
  - destruct js as [|j js]; [cbn [length]; lia|]. destruct J as (A & B & C). apply M in B.
    rewrite app_assoc in C. apply (apart_unshift (a ++ p)) in C.
    + cbn [length]. apply le_n_S. rewrite <- (map_length (fun j => j - len (a ++ p)) js). apply IH.
      eapply apart_weaken; [|exact C]. (szl; rewrite len_app in *). lia.
    + (szl; rewrite len_app in *). lia.
Qed.

Lemma pieces_apart : forall p s ps, pieces p s ps -> exists js, apart s p 0 js /\ length ps = S (length js).
Proof.
  intros p s ps H. induction H as [s N|a b ps M H (js & J & L)].
  - exists []. split; [exact I|auto].
  - exists (len a :: map (Z.add (len (a ++ p))) js). split.
    + split; [apply len_nonneg|]. split.
      * exists a, b. auto.
      * rewrite app_assoc. replace (len a + size_of p) with (len (a ++ p) + 0) by ((szl; rewrite len_app); lia).
        apply apart_shift. auto.
    + cbn [length]. rewrite map_length, L. auto.
Qed.

Lemma count_loop_S : forall s p f start cnt, count_loop s p (S f) start cnt =
  (i <- str_find s p start INT_MAX ;;
      if i =? -1 then Ok cnt
      else cnt <- chk32 (cnt + 1) ;; start <- chk32 (i + size p) ;; count_loop s p f start cnt).
Proof. reflexivity. Qed.

Lemma count_loop_ok : forall p, p <> [] -> forall r ps, pieces p r ps -> forall d fuel cnt,
  len (d ++ r) <= INT_MAX -> (length r < fuel)%nat -> 0 <= cnt -> cnt + len ps - 1 <= INT_MAX ->
  count_loop (d ++ r) p fuel (len d) cnt = Ok (cnt + len ps - 1).
Proof.
  intros p P r ps H. induction H as [s N|a b ps M H IH]; intros d fuel cnt L F C B.
  - destruct fuel as [|f]; [lia|]. rewrite count_loop_S, find_rest_none by auto. cbn [bind]. change (-1 =? -1) with true. cbv iota.
    rewrite len_cons, len_nil. f_equal. lia.
  - pose proof L as L0. rewrite !len_app in L. pose proof (len_nonneg _ d). pose proof (len_nonneg _ a). pose proof (len_nonneg _ p). pose proof (len_nonneg _ b).
    assert (1 <= len ps) by (destruct ps; [apply pieces_nonnil in H; contradiction|rewrite len_cons; pose proof (len_nonneg _ ps); lia]).
    rewrite len_cons in *.
    destruct fuel as [|f]; [lia|]. rewrite count_loop_S, find_rest_some by auto. cbn [bind].
    destruct (Z.eqb_spec (len d + len a) (-1)); [lia|].
    rewrite (chk32_ok (cnt + 1)) by (unfold INT_MIN; lia). cbn [bind]. rewrite size_ok by lia.
    rewrite (chk32_ok (len d + len a + len p)) by (unfold INT_MIN; lia). cbn [bind].
    replace (len d + len a + len p) with (len (d ++ a ++ p)) by (rewrite !len_app; lia).
    replace (d ++ a ++ p ++ b) with ((d ++ a ++ p) ++ b) by (rewrite <- !app_assoc; auto). rewrite IH.
    + f_equal. lia.
    + rewrite <- !app_assoc. auto.
    + rewrite !app_length in F. destruct p; [contradiction|]. cbn [length] in F. lia.
    + lia.
    + lia.
Qed.

Lemma count_spec : forall s p, len s <= INT_MAX -> p <> [] ->
  exists n, str_count s p = Ok (Z.of_nat n) /\ (exists js, apart s p 0 js /\ length js = n) /\
    forall js, apart s p 0 js -> (length js <= n)%nat.
Proof.
  intros s p H P. destruct (pieces_exists p P s) as (ps & Q). destruct (pieces_apart _ _ _ Q) as (js & J & L).
  pose proof (pieces_count _ _ _ P Q).
  exists (length js). split; [|split].
  - unfold str_count. destruct p as [|c p]; [contradiction|]. cbn [str_is_empty].
    change 0 with (@len ascii []) at 1. change s with ([] ++ s) at 1. rewrite (count_loop_ok _ P _ _ Q).
    + f_equal. unfold len. rewrite L. lia.
    + auto.
    + lia.
    + lia.
    + lia.
  - exists js. auto.
  - intros js' J'. pose proof (pieces_most _ _ _ Q _ J'). lia.
Qed.

Lemma count_empty : forall s, len s < INT_MAX -> str_count s [] = Ok (len s + 1).
Proof. intros s H. unfold str_count. cbn [str_is_empty]. rewrite size_ok by lia. apply chk32_ok. pose proof (len_nonneg _ s). unfold INT_MIN; lia. Qed.
Lemma count_empty_full : forall s, len s = INT_MAX -> str_count s [] = UB SignedOverflow.
Proof. intros s H. unfold str_count. cbn [str_is_empty]. rewrite size_ok by lia. apply chk32_ub. lia. Qed.

(** ** replace *)

Lemma substr_ok : forall d r, substr (d ++ r) (len d) = Ok r.
Proof.
  intros d r. unfold substr. rewrite len_app. pose proof (len_nonneg _ d). pose proof (len_nonneg _ r).
  destruct (Z.ltb_spec (len d) 0); [lia|]. destruct (Z.ltb_spec (len d + len r) (len d)); [lia|]. cbn [orb]. rewrite skipn_len. auto.
Qed.

Lemma substr_n_ok : forall d a r, substr_n (d ++ a ++ r) (len d) (len a) = Ok a.
Proof. intros d a r. unfold substr_n. rewrite substr_ok. cbn [bind]. rewrite firstn_len. auto. Qed.

Lemma replace_loop_S : forall s o n f this_start buffer, replace_loop s o n (S f) this_start buffer =
  (patt_start <- str_find s o this_start INT_MAX ;;
      if patt_start =? -1 then r <- substr s this_start ;; Ok (buffer ++ r)
      else
        k <- chk32 (patt_start - this_start) ;; r <- substr_n s this_start k ;;
        next <- chk32 (patt_start + size o) ;;
        replace_loop s o n f next (buffer ++ r ++ n)).
Proof. reflexivity. Qed.

Lemma replace_loop_ok : forall p, p <> [] -> forall r ps, pieces p r ps -> forall d new fuel buf,
  len (d ++ r) <= INT_MAX -> (length r < fuel)%nat ->
  replace_loop (d ++ r) p new fuel (len d) buf = Ok (buf ++ glue new ps).
Proof.
  intros p P r ps H. induction H as [s N|a b ps M H IH]; intros d new fuel buf L F.
  - destruct fuel as [|f]; [lia|]. rewrite replace_loop_S, find_rest_none by auto. cbn [bind]. change (-1 =? -1) with true. cbv iota. rewrite substr_ok. auto.
  - pose proof L as L0. rewrite !len_app in L. pose proof (len_nonneg _ d). pose proof (len_nonneg _ a). pose proof (len_nonneg _ p). pose proof (len_nonneg _ b).
    destruct fuel as [|f]; [lia|]. rewrite replace_loop_S, find_rest_some by auto. cbn [bind].
    destruct (Z.eqb_spec (len d + len a) (-1)); [lia|].
    replace (len d + len a - len d) with (len a) by lia.
    rewrite (chk32_ok (len a)) by (unfold INT_MIN; lia). cbn [bind]. rewrite substr_n_ok. cbn [bind]. rewrite size_ok by lia.
    rewrite (chk32_ok (len d + len a + len p)) by (unfold INT_MIN; lia). cbn [bind].
    replace (len d + len a + len p) with (len (d ++ a ++ p)) by (rewrite !len_app; lia).
    replace (d ++ a ++ p ++ b) with ((d ++ a ++ p) ++ b) by (rewrite <- !app_assoc; auto). rewrite IH.
    + rewrite glue_cons by (eapply pieces_nonnil; eauto). rewrite <- !app_assoc. auto.
    + rewrite <- !app_assoc. auto.
    + rewrite !app_length in F. destruct p; [contradiction|]. cbn [length] in F. lia.
Qed.

Lemma replace_spec : forall s old new, len s <= INT_MAX -> old <> [] ->
  exists ps, pieces old s ps /\ str_replace s old new = Ok (glue new ps).
Proof.
  intros s p new H P. destruct (pieces_exists p P s) as (ps & Q). exists ps. split; auto.
  unfold str_replace. destruct p as [|c p]; [contradiction|]. cbn [str_is_empty].
  apply (replace_loop_ok _ P _ _ Q [] new (S (length s)) []); auto.
Qed.

Lemma take_while_all : forall f l, forallb f l = true -> take_while f l = l.
Proof. induction l as [|c l IH]; auto. cbn [forallb take_while]. intros H. apply andb_true_iff in H as (-> & H). f_equal. auto. Qed.

Lemma c_str_id : forall s, (forall c, In c s -> byte c <> 0) -> c_str s = s.
Proof.
  intros s H. apply take_while_all. apply forallb_forall. intros c C. specialize (H c C). change (code c) with (byte c).
  destruct (Z.eqb_spec (byte c) 0); [contradiction|auto].
Qed.

Lemma replace_empty_any : forall s new, str_replace s [] new = Ok (new ++ concat (map (fun c => c :: c_str new) s)).
Proof. intros s new. unfold str_replace. cbn [str_is_empty]. rewrite flat_map_concat_map. auto. Qed.

Lemma replace_empty : forall s new, (forall c, In c new -> byte c <> 0) ->
  str_replace s [] new = Ok (new ++ concat (map (fun c => c :: new) s)).
Proof. intros s new H. rewrite replace_empty_any, c_str_id; auto. Qed.

(** ** split *)

Lemma push_ok : forall l x, len l < INT_MAX -> push l x = Ok (l ++ [x]).
Proof.
  intros l x H. unfold push, on_copy, list_append, update. rewrite size_ok by lia. rewrite full_ok by lia. auto.
Qed.

Definition kept (keep : bool) (ps : list (list ascii)) : list (list ascii) :=
  if keep then ps else filter (fun x => negb (str_is_empty x)) ps.

Lemma kept_cons : forall keep a ps, kept keep (a :: ps) = (if negb keep && str_is_empty a then [] else [a]) ++ kept keep ps.
Proof. intros [] a ps; cbn [kept negb andb]; auto. cbn [filter]. destruct a; auto. Qed.

Lemma split_loop_S : forall s sep keep f this_start l, split_loop s sep keep (S f) this_start l =
  (patt_start <- str_find s sep this_start INT_MAX ;;
      if patt_start =? -1 then
        if keep || negb (this_start =? size s) then r <- substr s this_start ;; push l r else Ok l
      else
        l' <- (if negb keep && (patt_start =? this_start) then Ok l
               else n <- chk32 (patt_start - this_start) ;; r <- substr_n s this_start n ;; push l r) ;;
        next <- chk32 (patt_start + size sep) ;;
        split_loop s sep keep f next l').
Proof. reflexivity. Qed.

Lemma split_loop_ok : forall p keep, p <> [] -> forall r ps, pieces p r ps -> forall d fuel l,
  len (d ++ r) <= INT_MAX -> (length r < fuel)%nat -> len l + len ps <= INT_MAX ->
  split_loop (d ++ r) p keep fuel (len d) l = Ok (l ++ kept keep ps).
Proof.
  intros p keep P r ps H. induction H as [s N|a b ps M H IH]; intros d fuel l L F B.
  - destruct fuel as [|f]; [lia|]. rewrite split_loop_S, find_rest_none by auto. cbn [bind]. change (-1 =? -1) with true. cbv iota.
    rewrite size_ok by auto. rewrite kept_cons. replace (kept keep []) with (@nil (list ascii)) by (destruct keep; auto). rewrite app_nil_r.
    rewrite len_cons, len_nil in B. rewrite len_app.
    assert (keep || negb (len d =? len d + len s) = negb (negb keep && str_is_empty s)) as ->.
    { destruct keep; auto. cbn [negb orb andb]. f_equal. destruct s; [rewrite len_nil; apply Z.eqb_eq; lia|].
      rewrite len_cons. pose proof (len_nonneg _ s). apply Z.eqb_neq. lia. }
    destruct (negb keep && str_is_empty s); cbn [negb].
    + rewrite app_nil_r. auto.
    + rewrite substr_ok. cbn [bind]. apply push_ok. lia.
  - pose proof L as L0. rewrite !len_app in L. pose proof (len_nonneg _ d). pose proof (len_nonneg _ a). pose proof (len_nonneg _ p). pose proof (len_nonneg _ b).
    pose proof (len_nonneg _ ps). rewrite len_cons in *.
    destruct fuel as [|f]; [lia|]. rewrite split_loop_S, find_rest_some by auto. cbn [bind].
    destruct (Z.eqb_spec (len d + len a) (-1)); [lia|].
    replace (len d + len a - len d) with (len a) by lia.
    rewrite (chk32_ok (len a)) by (unfold INT_MIN; lia). cbn [bind]. rewrite substr_n_ok. cbn [bind]. rewrite size_ok by lia.
    rewrite kept_cons.
    assert ((len d + len a =? len d) = str_is_empty a) as ->.
    { destruct a; [rewrite len_nil; apply Z.eqb_eq; lia|]. rewrite len_cons. pose proof (len_nonneg _ a0). apply Z.eqb_neq. lia. }
    assert ((if negb keep && str_is_empty a then Ok l else push l a) = Ok (l ++ (if negb keep && str_is_empty a then [] else [a]))) as ->.
    { destruct (negb keep && str_is_empty a); [rewrite app_nil_r; auto|]. apply push_ok. lia. }
    cbn [bind].
    rewrite (chk32_ok (len d + len a + len p)) by (unfold INT_MIN; lia). cbn [bind].
    replace (len d + len a + len p) with (len (d ++ a ++ p)) by (rewrite !len_app; lia).
    replace (d ++ a ++ p ++ b) with ((d ++ a ++ p) ++ b) by (rewrite <- !app_assoc; auto). rewrite IH.
    + rewrite <- !app_assoc. auto.
    + rewrite <- !app_assoc. auto.
    + rewrite !app_length in F. destruct p; [contradiction|]. cbn [length] in F. lia.
    + rewrite len_app. destruct (negb keep && str_is_empty a); rewrite ?len_cons, len_nil; lia.
Qed.

Lemma split_spec : forall s sep keep, len s < INT_MAX -> sep <> [] ->
  exists ps, pieces sep s ps /\ str_split s sep keep = Ok (kept keep ps).
Proof.
  intros s p keep H P. destruct (pieces_exists p P s) as (ps & Q). exists ps. split; auto.
  unfold str_split. destruct p as [|c p]; [contradiction|]. cbn [str_is_empty].
  apply (split_loop_ok _ keep P _ _ Q [] (S (length s)) []); auto.
  - cbn [app]. lia.
  - rewrite len_nil. pose proof (pieces_count _ _ _ P Q). lia.
Qed.

Lemma split_empty_sep : forall s keep, str_split s [] keep = Throw EmptySeparator.
Proof. reflexivity. Qed.

(** ** join *)

Lemma join_loop_ok : forall sep r l d n buf, l = d ++ r -> len l <= INT_MAX -> n = length r -> 
  join_loop sep l n (len d) buf = Ok (buf ++ concat (map (fun x => sep ++ x) r)).
Proof.
  induction r as [|x r IH]; intros l d n buf -> L ->; cbn [length join_loop map concat].
  - rewrite app_nil_r. auto.
  - pose proof (len_nonneg _ d). rewrite len_app, len_cons in L. pose proof (len_nonneg _ r).
    assert (list_at (d ++ x :: r) (len d) = Ok x) as ->.
    { unfold list_at. rewrite neg_size, size_ok by (rewrite len_app, len_cons; lia). cbn [bind].
      rewrite check_bounds_ok by (rewrite len_app, len_cons; lia). cbn [bind]. rewrite from_end_ok by (rewrite len_app, len_cons; lia).
      unfold from_back. destruct (Z.ltb_spec (len d) 0); [lia|]. cbn [bind]. apply vat_ok. }
    cbn [bind]. replace (len d + 1) with (len (d ++ [x])) by (rewrite len_app, len_cons, len_nil; lia).
    rewrite (IH (d ++ x :: r) (d ++ [x])); auto.
    + rewrite <- !app_assoc. auto.
    + rewrite <- app_assoc. auto.
    + rewrite len_app, len_cons. lia.
Qed.

Lemma glue_concat : forall sep x l, glue sep (x :: l) = x ++ concat (map (fun y => sep ++ y) l).
Proof.
  intros sep x l. revert x. induction l as [|y l IH]; intros x; [cbn; rewrite app_nil_r; auto|].
  rewrite glue_cons by discriminate. rewrite IH. cbn [map concat]. rewrite <- !app_assoc. auto.
Qed.

Lemma join_spec : forall sep l, len l <= INT_MAX -> str_join sep l = Ok (glue sep l).
Proof.
  intros sep [|x l] H; auto. unfold str_join. cbn [list_is_empty].
  pose proof (len_nonneg _ l). rewrite len_cons in H.
  assert (list_at (x :: l) 0 = Ok x) as ->.
  { unfold list_at. rewrite neg_size, size_ok by (rewrite len_cons; lia). cbn [bind].
    rewrite check_bounds_ok by (rewrite len_cons; lia). reflexivity. }
  cbn [bind]. rewrite size_ok by (rewrite len_cons; lia). rewrite len_cons.
  replace (Z.to_nat (1 + len l - 1)) with (length l) by (unfold len; lia).
  change 1 with (len [x]). rewrite (join_loop_ok sep l (x :: l) [x]); auto.
  - rewrite glue_concat. auto.
  - rewrite len_cons. lia.
Qed.

Lemma occurs_one : forall s c, contains s [c] <-> In c s.
Proof.
  intros s c. split.
  - intros (j & a & b & -> & _). apply in_or_app. right. left. auto.
  - intros I. apply in_split in I as (a & b & ->). exists (size_of a), a, b. auto.
Qed.

Lemma pieces_of_glue : forall c l, l <> [] -> Forall (fun x => ~ In c x) l -> pieces [c] (glue [c] l) l.
Proof.
  intros c l N F. induction F as [|x l X F IH]; [contradiction|]. destruct l as [|y l].
  - constructor. intros j J. apply X. apply occurs_one. exists j. auto.
  - rewrite glue_cons by discriminate. constructor; [|apply IH; discriminate].
    intros j (a & b & E & <-). szl. destruct (Z_le_gt_dec (len x) (len a)); auto. exfalso. apply X.
    apply app_eq_app in E as (m & [(-> & E)|(-> & E)]).
    + destruct m; [rewrite app_nil_r in *; lia|]. injection E as <- E. apply in_or_app. right. left. auto.
    + rewrite len_app in *. pose proof (len_nonneg _ m). lia.
Qed.

Lemma split_join : forall c l, l <> [] -> Forall (fun x => ~ In c x) l -> len (glue [c] l) < INT_MAX ->
  str_split (glue [c] l) [c] true = Ok l.
Proof.
  intros c l N F B. destruct (split_spec (glue [c] l) [c] true B) as (ps & Q & ->); [discriminate|].
  f_equal. eapply pieces_unique; [exact Q|]. apply pieces_of_glue; auto.
Qed.

Lemma join_split : forall s sep, len s < INT_MAX -> sep <> [] ->
  exists l, str_split s sep true = Ok l /\ str_join sep l = Ok s.
Proof.
  intros s sep H P. destruct (split_spec s sep true H P) as (ps & Q & E). exists ps. split; auto.
  rewrite join_spec.
  - f_equal. eapply pieces_glue; eauto.
  - pose proof (pieces_count _ _ _ P Q). lia.
Qed.
