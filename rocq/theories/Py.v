(** The library's operations and those of the Python types. *)
From Coq Require Import String Ascii ZArith QArith List Bool Lia Lqa.
From Verif Require Import Outcome IntModel IntSpec IntBase IntAddSub IntMulDiv IntMore ListModel ListSpec ListFacts ListMore DequeModel StrModel StrSpec StrFacts StrMore StrNum StrSum IntIO IntProg FracModel FracSpec FracFacts FracMore PySpec.
Import ListNotations.
Open Scope Z_scope.

(** ** Positions *)

Lemma item_position {T} (l : list T) i : py_item l i = match position (len l) i with Some k => nth_error l k | None => None end.
Proof.
  unfold py_item, py_from_end, position, len. set (n := Z.of_nat (length l)).
  assert (0 <= n) by (unfold n; lia).
  destruct (Z.ltb_spec i 0).
  - replace (0 <=? i) with false by (symmetry; apply Z.leb_gt; lia). cbn [andb].
    destruct (Z.leb_spec (- n) i); cbn [andb].
    + destruct (Z.ltb_spec (n + i) 0); [lia|]. reflexivity.
    + destruct (Z.ltb_spec (n + i) 0); [reflexivity|lia].
  - destruct (Z.ltb_spec i 0); [lia|]. destruct (Z.leb_spec 0 i); [|lia]. cbn [andb].
    destruct (Z.ltb_spec i n); [reflexivity|]. rewrite andb_false_r.
    apply nth_error_None. unfold n in *; lia.
Qed.

Lemma at_python {T} (l : list T) i : len l <= INT_MAX ->
  match py_item l i with Some x => list_at l i = Ok x | None => list_at l i = Throw IndexOutOfRange end.
Proof.
  intros H. pose proof (at_spec T l i H) as A. rewrite item_position. destruct (position (len l) i) as [k|].
  - destruct A as (x & E & R). rewrite E. exact R.
  - exact A.
Qed.

Lemma split_at {T} (l : list T) k : 0 <= k <= len l -> cut l (firstn (Z.to_nat k) l) (skipn (Z.to_nat k) l) k.
Proof. intros H. split; [symmetry; apply firstn_skipn|]. rewrite firstn_length_le; unfold len in *; lia. Qed.

Lemma bound_inside n i : - n <= i <= n -> py_bound n 1 i = from_back n i.
Proof. intros H. unfold py_bound, py_from_end, from_back. cbn. destruct (Z.ltb_spec i 0); lia. Qed.

Lemma insert_python {T} (l : list T) i y : len l < INT_MAX -> - len l <= i <= len l ->
  list_insert i y l = (Ok tt, py_insert l i y).
Proof.
  intros H B. destruct (insert_spec T l i y ltac:(lia)) as (_ & _ & A).
  unfold py_insert. fold (len l). rewrite bound_inside by assumption.
  apply (A H B). apply split_at. unfold from_back, len in *. destruct (Z.ltb_spec i 0); lia.
Qed.

Lemma insert_python_only {T} (l : list T) i y l' : len l <= INT_MAX -> list_insert i y l = (Ok tt, l') ->
  l' = py_insert l i y.
Proof.
  intros H E. destruct (insert_spec T l i y H) as (F & O & _).
  destruct (Z.eq_dec (len l) INT_MAX) as [e|e]; [rewrite (F e) in E; discriminate|].
  destruct (Z_le_dec (- len l) i), (Z_le_dec i (len l));
    try (rewrite O in E by lia; discriminate).
  rewrite insert_python in E by lia. congruence.
Qed.

Lemma nth_error_cut {T} (l : list T) k x : nth_error l k = Some x -> l = firstn k l ++ x :: skipn (S k) l.
Proof.
  revert k. induction l as [|a l IH]; intros [|k] E; cbn in *; try discriminate; [congruence|].
  f_equal. apply IH, E.
Qed.

Lemma remove_python {T} (l : list T) i : len l <= INT_MAX ->
  match py_pop l i with
  | Some (x, l') => list_remove i l = (Ok x, l')
  | None => exists e, list_remove i l = (Throw e, l)
  end.
Proof.
  intros H. destruct (remove_spec T l i H) as (E & O & A). unfold py_pop. rewrite item_position.
  destruct l as [|a0 l0] eqn:L.
  - rewrite (E eq_refl). destruct (position _ i) as [[|k]|]; cbn; eexists; reflexivity.
  - rewrite <- L in *. assert (N : l <> []) by (rewrite L; discriminate). clear L a0 l0.
    destruct (position (len l) i) as [k|] eqn:P.
    + assert (K : (k < length l)%nat /\ Z.to_nat (py_from_end (len l) i) = k).
      { unfold position, py_from_end, len in *. destruct (Z.leb_spec 0 i); cbn [andb] in P.
        - destruct (Z.ltb_spec i (Z.of_nat (length l))); cbn in P.
          + injection P as <-. destruct (Z.ltb_spec i 0); lia.
          + destruct (Z.leb_spec (- Z.of_nat (length l)) i); cbn in P; [|discriminate]. destruct (Z.ltb_spec i 0); [lia|discriminate].
        - destruct (Z.leb_spec (- Z.of_nat (length l)) i); cbn in P; [|discriminate]. destruct (Z.ltb_spec i 0); [|discriminate].
          injection P as <-. lia. }
      destruct K as (K & K').
      destruct (nth_error l k) as [x|] eqn:X; [|apply nth_error_None in X; lia].
      unfold len in K'. rewrite K'. apply (A k eq_refl).
      split; [apply nth_error_cut, X|]. rewrite firstn_length_le; lia.
    + exists IndexOutOfRange. auto.
Qed.

Lemma times_python {T} (d : T) l n r : len l <= INT_MAX -> list_times d l n = Ok r -> r = py_times l n.
Proof.
  intros H E. destruct (times_spec T d l n H) as (A & B & C & D). unfold py_times.
  destruct (Z_lt_le_dec n 0); [rewrite A in E by assumption; discriminate|].
  destruct (Z_lt_le_dec (len l * n) INT_MAX); [rewrite B in E by assumption; congruence|].
  destruct (Z.eq_dec (len l * n) INT_MAX); [rewrite C in E by assumption; discriminate|].
  rewrite D in E by lia. discriminate.
Qed.

Lemma skipn_app_exact {T} (a b : list T) k : k = length a -> skipn k (a ++ b) = b.
Proof. intros ->. rewrite skipn_app, skipn_all, Nat.sub_diag. reflexivity. Qed.
Lemma firstn_app_exact {T} (a b : list T) k : k = length a -> firstn k (a ++ b) = a.
Proof. intros ->. rewrite firstn_app, firstn_all, Nat.sub_diag. apply app_nil_r. Qed.

Lemma del_parts {T} (a m b : list T) start stop : len a = start -> len m = stop - start ->
  py_del (a ++ m ++ b) start stop = a ++ b.
Proof.
  intros A M. unfold py_del. rewrite !app_length.
  assert (0 <= len a /\ 0 <= len m /\ 0 <= len b) by (unfold len; lia).
  rewrite !bound_inside by (unfold len in *; lia).
  unfold from_back. unfold len in *.
  destruct (Z.ltb_spec start 0); [lia|]. destruct (Z.ltb_spec stop 0); [lia|].
  rewrite firstn_app_exact by lia. f_equal.
  rewrite app_assoc. apply skipn_app_exact. rewrite app_length. lia.
Qed.

Lemma erase_python {T} (l l' : list T) start stop : len l < INT_MAX -> list_erase start stop l = (Ok tt, l') ->
  l' = py_del l start stop.
Proof.
  intros H E. destruct (erase_spec T l start stop H) as (A & B & C).
  assert (R : 0 <= start <= len l /\ 0 <= stop <= len l).
  { destruct (Z_le_dec 0 start), (Z_le_dec start (len l)), (Z_le_dec 0 stop), (Z_le_dec stop (len l)); try lia;
      rewrite A in E by lia; discriminate. }
  destruct (Z_lt_le_dec stop start); [rewrite B in E by lia; discriminate|].
  destruct (erase_cut T l start stop) as (a & m & b & -> & Ea & Em); try lia.
  rewrite (C a m b eq_refl Ea Em) in E. rewrite del_parts by assumption. congruence.
Qed.

(** ** Slices *)

Lemma range_length a b s k : s <> 0 ->
  (k < Z.to_nat (if (0 <? s)%Z then (b - a + s - 1) / s else (a - b - s - 1) / - s))%nat <->
  beforeb s b (a + Z.of_nat k * s) = true.
Proof.
  intros N. unfold beforeb. destruct (Z.ltb_spec 0 s).
  - rewrite Z.ltb_lt. set (q := (b - a + s - 1) / s).
    pose proof (Z.mul_div_le (b - a + s - 1) s H) as L. pose proof (Z.mul_succ_div_gt (b - a + s - 1) s H) as U.
    fold q in L, U. split; intros.
    + assert (Z.of_nat k + 1 <= q) by lia. nia.
    + assert (Z.of_nat k < q) by nia. lia.
  - rewrite Z.ltb_lt. assert (P : 0 < - s) by lia. set (q := (a - b - s - 1) / - s).
    pose proof (Z.mul_div_le (a - b - s - 1) (- s) P) as L. pose proof (Z.mul_succ_div_gt (a - b - s - 1) (- s) P) as U.
    fold q in L, U. split; intros.
    + assert (Z.of_nat k + 1 <= q) by lia. nia.
    + assert (Z.of_nat k < q) by nia. lia.
Qed.

Lemma nth_items {T} (l : list T) (f : nat -> Z) n : forall o k,
  (forall j, (o <= j < o + n)%nat -> nth_error l (Z.to_nat (f j)) <> None) ->
  nth_error (flat_map (fun i => match nth_error l (Z.to_nat i) with Some x => [x] | None => [] end) (map f (seq o n))) k =
  if (k <? n)%nat then nth_error l (Z.to_nat (f (o + k)%nat)) else None.
Proof.
  induction n as [|n IH]; intros o k A.
  - cbn. destruct k; reflexivity.
  - cbn [seq map flat_map]. destruct (nth_error l (Z.to_nat (f o))) as [x|] eqn:X; [|exfalso; apply (A o); [lia|assumption]].
    cbn [app]. destruct k as [|k].
    + cbn. rewrite Nat.add_0_r. auto.
    + cbn [nth_error]. rewrite IH.
      * rewrite Nat.add_succ_r. reflexivity.
      * intros j B. apply A. lia.
Qed.

Lemma slice_sliced {T} (l : list T) a b s : s <> 0 -> 0 <= a < len l -> -1 <= b <= len l ->
  sliced l (flat_map (fun i => match nth_error l (Z.to_nat i) with Some x => [x] | None => [] end) (py_range a b s)) a b s.
Proof.
  intros N A B k. unfold py_range. rewrite nth_items.
  - cbn [Nat.add]. set (n := Z.to_nat _). destruct (beforeb s b (a + Z.of_nat k * s)) eqn:E.
    + apply range_length in E; [|assumption]. fold n in E. apply Nat.ltb_lt in E. rewrite E. reflexivity.
    + destruct (Nat.ltb_spec k n) as [H|H]; [|reflexivity].
      unfold n in H. apply range_length in H; [congruence|assumption].
  - intros j (_ & J). cbn [Nat.add] in J. apply range_length in J; [|assumption].
    intros C. apply nth_error_None in C. unfold beforeb in J. unfold len in *.
    destruct (Z.ltb_spec 0 s); apply Z.ltb_lt in J; nia.
Qed.

(** Within the bounds of the library, clipping changes nothing that matters. *)
Lemma slice_bounds {T} (l : list T) start stop s : s <> 0 -> - len l <= start < len l -> - len l - 1 <= stop <= len l ->
  py_range (py_bound (len l) s start) (py_bound (len l) s stop) s = py_range (from_back (len l) start) (from_back (len l) stop) s.
Proof.
  intros N A B. unfold py_bound, py_from_end, from_back.
  assert (E : forall a b b', (forall k, beforeb s b (a + Z.of_nat k * s) = beforeb s b' (a + Z.of_nat k * s)) -> py_range a b s = py_range a b' s).
  { intros a b b' H. unfold py_range. f_equal. f_equal.
    set (n := Z.to_nat (if 0 <? s then (b - a + s - 1) / s else _)). set (m := Z.to_nat _).
    assert (forall k, (k < n)%nat <-> (k < m)%nat).
    { intros k. unfold n, m. rewrite !range_length by assumption. rewrite H. reflexivity. }
    destruct (Nat.lt_trichotomy n m) as [C|[C|C]]; [|assumption|]; exfalso.
    - apply H0 in C. lia.
    - apply H0 in C. lia. }
  destruct (Z.ltb_spec 0 s).
  - replace (Z.max 0 (Z.min (len l) (if start <? 0 then len l + start else start))) with (if start <? 0 then start + len l else start)
      by (destruct (Z.ltb_spec start 0); lia).
    apply E. intros k. unfold beforeb. destruct (Z.ltb_spec 0 s); [|lia].
    destruct (Z.ltb_spec start 0), (Z.ltb_spec stop 0);
    match goal with |- (?x <? ?a)%Z = (?x <? ?b)%Z => destruct (Z.ltb_spec x a), (Z.ltb_spec x b); try reflexivity; nia end.
  - replace (Z.max (-1) (Z.min (len l - 1) (if start <? 0 then len l + start else start))) with (if start <? 0 then start + len l else start)
      by (destruct (Z.ltb_spec start 0); lia).
    apply E. intros k. unfold beforeb. destruct (Z.ltb_spec 0 s); [lia|].
    destruct (Z.ltb_spec start 0), (Z.ltb_spec stop 0);
    match goal with |- (?a <? ?x)%Z = (?b <? ?x)%Z => destruct (Z.ltb_spec a x), (Z.ltb_spec b x); try reflexivity; nia end.
Qed.

Lemma slice_python {T} (l : list T) start stop s r : len l < INT_MAX -> list_slice l start stop s = Ok r ->
  py_slice l start stop s = Some r.
Proof.
  intros H E. destruct (slice_spec T l start stop s H) as (Z0 & O & A). unfold py_slice.
  destruct (Z.eqb_spec s 0) as [e|N]; [rewrite (Z0 e) in E; discriminate|].
  assert (R : - len l <= start < len l /\ - len l - 1 <= stop <= len l).
  { destruct (Z_le_dec (- len l) start), (Z_lt_dec start (len l)), (Z_le_dec (- len l - 1) stop), (Z_le_dec stop (len l)); try lia;
      rewrite O in E by lia; discriminate. }
  destruct R as (R1 & R2). destruct (A N R1 R2) as [(_ & r' & E' & S')|(_ & E')]; [|congruence].
  f_equal. rewrite E' in E. injection E as <-. fold (len l). rewrite slice_bounds by assumption.
  eapply sliced_unique; [|exact S']. apply slice_sliced; try assumption; unfold from_back;
    [destruct (Z.ltb_spec start 0)|destruct (Z.ltb_spec stop 0)]; lia.
Qed.

Lemma slice_python_domain {T} (l : list T) start stop s : len l < INT_MAX -> s <> 0 ->
  - len l <= start < len l -> - len l - 1 <= stop <= len l -> INT_MIN <= s <= INT_MAX - len l ->
  exists r, list_slice l start stop s = Ok r /\ py_slice l start stop s = Some r.
Proof.
  intros H N R1 R2 B. destruct (slice_spec T l start stop s H) as (_ & _ & A).
  destruct (A N R1 R2) as [(_ & r & E & _)|(F & _)].
  - exists r. split; [assumption|]. apply slice_python; assumption.
  - exfalso. apply F. apply (slice_fits_small (len l)); unfold from_back;
      [destruct (Z.ltb_spec start 0)|destruct (Z.ltb_spec stop 0)| | | |]; lia.
Qed.

(** ** Searching *)

Lemma index_python {T} (eqb : T -> T -> bool) l x start stop r : len l <= INT_MAX ->
  list_index eqb l x start stop = Ok r -> py_index eqb l x start stop r.
Proof.
  intros H E. destruct (index_spec T eqb l x start stop H) as (A & B).
  destruct (Z_le_dec 0 start), (Z_le_dec start (Z.min stop (len l))); try (rewrite B in E by lia; discriminate).
  destruct A as (r' & E' & F); [lia|]. rewrite E' in E. injection E as <-.
  unfold py_index. fold (len l). unfold py_bound, py_from_end. cbn.
  destruct (Z.ltb_spec start 0); [lia|]. destruct (Z.ltb_spec stop 0); [lia|].
  replace (Z.max 0 start) with start by lia. replace (Z.max 0 (Z.min (len l) stop)) with (Z.min stop (len l)) by lia. exact F.
Qed.

Lemma find_python s p start stop r : len s <= INT_MAX -> str_find s p start stop = Ok r -> py_find s p start stop r.
Proof.
  intros H E. unfold py_find. fold (len s). change (size_of s) with (len s). unfold py_bound, py_from_end. cbn.
  destruct (Z_lt_le_dec (len s) start) as [B|B].
  - rewrite find_beyond in E by assumption. injection E as <-. right. split; [reflexivity|].
    intros j J K. assert (0 <= len s) by (unfold len; lia). destruct (Z.ltb_spec start 0); [lia|].
    assert (0 <= size_of p) by (unfold size_of; lia). lia.
  - destruct (Z_lt_le_dec start 0) as [C|C].
    { destruct (find_undefined s p start stop H B (or_introl C)) as (u & U). congruence. }
    destruct (Z_lt_le_dec stop start) as [D|D].
    { destruct (find_undefined s p start stop H B (or_intror D)) as (u & U). congruence. }
    destruct (find_spec s p start stop H ltac:(lia)) as (r' & E' & F). rewrite E' in E. injection E as <-.
    destruct (Z.ltb_spec start 0); [lia|]. destruct (Z.ltb_spec stop 0); [lia|].
    replace (Z.max 0 start) with start by lia. replace (Z.max 0 (Z.min (len s) stop)) with (Z.min stop (len s)) by lia. exact F.
Qed.

(** ** Str *)

Lemma str_at_python (s : str) i : len s <= INT_MAX ->
  match py_item s i with Some x => str_at s i = Ok x | None => str_at s i = Throw IndexOutOfRange end.
Proof.
  intros H. pose proof (str_at_spec s i H) as A. rewrite item_position. destruct (position (len s) i) as [k|].
  - destruct A as (x & E & R). rewrite E. exact R.
  - exact A.
Qed.

Lemma str_slice_python (l : str) start stop s r : len l < INT_MAX -> str_slice l start stop s = Ok r ->
  py_slice l start stop s = Some r.
Proof.
  intros H E. destruct (str_slice_spec l start stop s H) as (Z0 & O & A). unfold py_slice.
  destruct (Z.eqb_spec s 0) as [e|N]; [rewrite (Z0 e) in E; discriminate|].
  assert (R : - len l <= start < len l /\ - len l - 1 <= stop <= len l).
  { destruct (Z_le_dec (- len l) start), (Z_lt_dec start (len l)), (Z_le_dec (- len l - 1) stop), (Z_le_dec stop (len l)); try lia;
      rewrite O in E by lia; discriminate. }
  destruct R as (R1 & R2). destruct (A N R1 R2) as [(_ & r' & E' & S')|(_ & E')]; [|congruence].
  f_equal. rewrite E' in E. injection E as <-. fold (len l). rewrite slice_bounds by assumption.
  eapply sliced_unique; [|exact S']. apply slice_sliced; try assumption; unfold from_back;
    [destruct (Z.ltb_spec start 0)|destruct (Z.ltb_spec stop 0)]; lia.
Qed.

Lemma str_slice_python_domain (l : str) start stop s : len l < INT_MAX -> s <> 0 ->
  - len l <= start < len l -> - len l - 1 <= stop <= len l -> INT_MIN <= s <= INT_MAX - len l ->
  exists r, str_slice l start stop s = Ok r /\ py_slice l start stop s = Some r.
Proof.
  intros H N R1 R2 B. destruct (str_slice_spec l start stop s H) as (_ & _ & A).
  destruct (A N R1 R2) as [(_ & r & E & _)|(F & _)].
  - exists r. split; [assumption|]. apply str_slice_python; assumption.
  - exfalso. apply F. apply (slice_fits_small (len l)); unfold from_back;
      [destruct (Z.ltb_spec start 0)|destruct (Z.ltb_spec stop 0)| | | |]; lia.
Qed.

Lemma str_times_python (s : str) n r : len s <= INT_MAX -> str_times s n = Ok r -> r = py_times s n.
Proof.
  intros H E. destruct (str_times_spec s n H) as (A & B & C). unfold py_times.
  destruct (Z_lt_le_dec n 0); [rewrite A in E by assumption; discriminate|].
  destruct (Z_le_dec (len s * n) INT_MAX); [rewrite B in E by assumption; congruence|].
  rewrite C in E by lia. discriminate.
Qed.

Lemma str_erase_python (s r : str) start stop : len s < INT_MAX -> str_erase s start stop = Ok r ->
  r = py_del s start stop.
Proof.
  intros H E. destruct (str_erase_spec s start stop H) as (A & B & C).
  assert (R : 0 <= start <= len s /\ 0 <= stop <= len s).
  { destruct (Z_le_dec 0 start), (Z_le_dec start (len s)), (Z_le_dec 0 stop), (Z_le_dec stop (len s)); try lia;
      rewrite A in E by lia; discriminate. }
  destruct (Z_lt_le_dec stop start); [rewrite C in E by lia; discriminate|].
  destruct B as (a & m & b & -> & Ea & Em & E'); try lia.
  rewrite E' in E. rewrite del_parts by lia. congruence.
Qed.

(** ** split *)

Notation isblank := (Ascii.eqb " ").

Lemma runs_nil f cur s : Forall (fun c => f c = false) s -> runs f cur s = match cur ++ s with [] => [] | w => [w] end.
Proof.
  revert cur. induction s as [|c s IH]; intros cur H; cbn.
  - rewrite app_nil_r. destruct cur; reflexivity.
  - inversion H; subst. rewrite H2, IH by assumption. rewrite <- app_assoc. reflexivity.
Qed.

Lemma runs_app f cur a c b : Forall (fun c => f c = false) a -> f c = true ->
  runs f cur (a ++ c :: b) = match cur ++ a with [] => runs f [] b | w => w :: runs f [] b end.
Proof.
  revert cur. induction a as [|x a IH]; intros cur H C; cbn.
  - rewrite C, app_nil_r. destruct cur; reflexivity.
  - inversion H; subst. rewrite H2, IH by assumption. rewrite <- app_assoc. reflexivity.
Qed.

Lemma occurs_in s c j : occurs s [c] j -> In c s.
Proof. intros (a & b & -> & _). apply in_or_app. right. left. reflexivity. Qed.

Lemma in_occurs s c : In c s -> exists j, occurs s [c] j.
Proof. intros H. apply in_split in H as (a & b & ->). exists (size_of a). exists a, b. auto. Qed.

Lemma no_blank (s : text) : (forall j, ~ occurs s [" "%char] j) -> Forall (fun c => isblank c = false) s.
Proof.
  intros H. apply Forall_forall. intros c I. destruct (Ascii.eqb_spec " " c) as [<-|]; [|reflexivity].
  exfalso. destruct (in_occurs s " "%char I) as (j & J). apply (H j J).
Qed.

Lemma pieces_runs s ps : pieces [" "%char] s ps -> filter (fun x => negb (str_is_empty x)) ps = runs isblank [] s.
Proof.
  induction 1 as [s H|a b ps H P IH].
  - rewrite runs_nil by (apply no_blank; assumption). cbn. destruct s; reflexivity.
  - change (a ++ [" "%char] ++ b) with (a ++ " "%char :: b). rewrite runs_app; [|apply no_blank|reflexivity].
    + cbn. rewrite IH. destruct a; reflexivity.
    + intros j (u & v & E & _). subst a.
      specialize (H (size_of u)). assert (size_of (u ++ [" "%char] ++ v) <= size_of u).
      { apply H. exists u, (v ++ [" "%char] ++ b). split; [|reflexivity]. rewrite <- !app_assoc. reflexivity. }
      unfold size_of in H0. rewrite !app_length in H0. cbn in H0. lia.
Qed.

Lemma split_default s : len s < INT_MAX -> str_split s [" "%char] false = Ok (runs isblank [] s).
Proof.
  intros H. destruct (split_all s [" "%char] false H) as (ps & P & _ & _ & E); [discriminate|].
  rewrite E. f_equal. apply pieces_runs, P.
Qed.

Lemma runs_ext f g cur s : Forall (fun c => f c = g c) s -> runs f cur s = runs g cur s.
Proof.
  revert cur. induction s as [|c s IH]; intros cur H; cbn; [reflexivity|].
  inversion H; subst. rewrite H2. destruct (g c); [destruct cur; [|f_equal]|]; apply IH; assumption.
Qed.

Lemma runs_free f cur s c : f c = true -> ~ In c cur -> ~ In c (concat (runs f cur s)).
Proof.
  intros F. revert cur. induction s as [|x s IH]; intros cur H; cbn.
  - destruct cur; [auto|]. cbn. rewrite app_nil_r. exact H.
  - destruct (f x) eqn:X.
    + destruct cur as [|y cur]; [apply IH; auto|]. cbn [concat]. intros I. apply in_app_or in I as [I|I]; [auto|]. revert I. apply IH. auto.
    + apply IH. intros I. apply in_app_or in I as [I|[<-|[]]]; [auto|congruence].
Qed.

Lemma runs_keep f cur s c : f c = false -> In c cur \/ In c s -> In c (concat (runs f cur s)).
Proof.
  intros F. revert cur. induction s as [|x s IH]; intros cur H; cbn.
  - destruct H as [H|[]]. destruct cur; [destruct H|]. cbn. rewrite app_nil_r. exact H.
  - destruct (f x) eqn:X.
    + destruct H as [H|[<-|H]]; [|congruence|].
      * destruct cur as [|y cur]; [destruct H|]. cbn [concat]. apply in_or_app. auto.
      * destruct cur as [|y cur]; [apply IH; auto|]. cbn [concat]. apply in_or_app. right. apply IH. auto.
    + apply IH. destruct H as [H|[<-|H]]; [left; apply in_or_app; auto|left; apply in_or_app; right; left; reflexivity|auto].
Qed.

Lemma split_python_exact s : len s < INT_MAX ->
  (str_split s [" "%char] false = Ok (py_split s) <-> forall c, In c s -> py_space c = true -> c = " "%char).
Proof.
  intros H. rewrite split_default by assumption. unfold py_split. split.
  - intros E c I P. assert (Q : runs isblank [] s = runs py_space [] s) by congruence.
    destruct (Ascii.eqb_spec " " c) as [<-|N]; [reflexivity|]. exfalso.
    apply (runs_free py_space [] s c P); [auto|]. rewrite <- Q. apply runs_keep; [|auto].
    destruct (Ascii.eqb_spec " " c); congruence.
  - intros A. f_equal. apply runs_ext. apply Forall_forall. intros c I.
    destruct (Ascii.eqb_spec " " c) as [<-|N]; [reflexivity|].
    destruct (py_space c) eqn:P; [|reflexivity]. exfalso. apply N. symmetry. apply A; assumption.
Qed.

(** ** strip *)

Lemma space_low c : py_space c = true -> byte c <= 32.
Proof. unfold py_space. intros H. apply orb_true_iff in H as [H|H]; apply andb_true_iff in H as (A & B); apply Z.leb_le in A, B; lia. Qed.

Lemma strip_python_exact s r : len s <= INT_MAX -> Forall (fun c => byte c < 128) s -> py_strip s r ->
  (str_strip s (-1) = Ok r <->
   (forall c r', r = c :: r' -> 32 < byte c) /\ (forall c r', r = r' ++ [c] -> 32 < byte c)).
Proof.
  intros H L (a & b & E & A & B & F & G). destruct (strip_blank s H L) as (r0 & E0 & T0). rewrite E0. split.
  - intros e. injection e as ->. destruct T0 as (_ & _ & _ & _ & _ & F0 & G0).
    split; intros c r' e; [apply F0 in e|apply G0 in e]; lia.
  - intros (P & Q). f_equal. apply (trimmed_unique (fun c => byte c <= 32) s); [intros c; lia|exact T0|].
    exists a, b. split; [exact E|]. split; [eapply Forall_impl; [|exact A]; intros c; apply space_low|].
    split; [eapply Forall_impl; [|exact B]; intros c; apply space_low|].
    split; intros c r' e; [apply P in e|apply Q in e]; lia.
Qed.

(** Nothing that Python strips is left. *)
Lemma strip_python_more s : len s <= INT_MAX -> Forall (fun c => byte c < 128) s ->
  exists r, str_strip s (-1) = Ok r /\
    (forall c r', r = c :: r' -> py_space c = false) /\ (forall c r', r = r' ++ [c] -> py_space c = false).
Proof.
  intros H L. destruct (strip_blank s H L) as (r & E & _ & _ & _ & _ & _ & F & G). exists r. split; [exact E|].
  split; intros c r' e; (destruct (py_space c) eqn:P; [|reflexivity]); exfalso; apply space_low in P; [apply F in e|apply G in e]; lia.
Qed.

(** ** int *)

Lemma blank_space c : StrSpec.blank c -> py_trim c = true.
Proof. intros [->|[->|[->| ->]]]; reflexivity. Qed.

Lemma digits_python base t ds : digits_text base t ds -> ds <> [] -> py_digits base t ds.
Proof.
  induction 1 as [|c d t ds D H IH]; intros N; [congruence|].
  destruct ds as [|d' ds].
  - inversion H; subst. constructor. assumption.
  - apply digits_more; [assumption|]. apply IH. discriminate.
Qed.

Lemma literal_python base s z : int_literal base s z -> py_int base s z.
Proof.
  intros (b1 & sg & t & b2 & n & ds & -> & B1 & B2 & SG & D & N & ->).
  exists b1, sg, [], t, b2, n, ds. split; [reflexivity|].
  split; [eapply Forall_impl; [|exact B1]; apply blank_space|]. split; [eapply Forall_impl; [|exact B2]; apply blank_space|].
  split; [assumption|]. split; [constructor|]. split; [apply digits_python; assumption|reflexivity].
Qed.

Lemma to_integer_literal p base s r : len s < INT_MAX -> str_to_integer p s base = Ok r -> int_literal base s (value r).
Proof.
  intros H E. unfold str_to_integer in E. destruct (Z.ltb_spec base 2); [discriminate|]. destruct (Z.ltb_spec 36 base); [discriminate|].
  cbn [orb] in E. assert (B : 2 <= base <= 36) by lia.
  assert (exists z, int_literal base s z) as (z & L).
  { destruct (integer_loop_sound p base (size s) s S_START [] true (MkInt 0 []) B) as (st & nn & x & E' & I).
    - rewrite size_ok by lia. pose proof (len_nonneg _ s). lia.
    - split; auto. split; auto. apply repr_zero.
    - discriminate.
    - rewrite E' in E. cbn [bind app] in *. destruct st; try discriminate.
      + destruct I as (b1 & sg & t & ds & -> & I1 & I2 & I3 & I4 & I5). eexists. exists b1, sg, t, [], (negb nn), ds. rewrite app_nil_r. repeat split; eauto.
      + destruct I as (b1 & sg & t & ds & b2 & -> & I1 & I2 & I3 & I4 & I5 & I6). eexists. exists b1, sg, t, b2, (negb nn), ds. repeat split; eauto. }
  destruct (to_integer_ok p base s z B L) as (r' & E' & _ & V).
  unfold str_to_integer in E'. destruct (Z.ltb_spec base 2); [discriminate|]. destruct (Z.ltb_spec 36 base); [discriminate|]. cbn [orb] in E'.
  rewrite E' in E. injection E as <-. rewrite V. exact L.
Qed.

Lemma to_integer_python p base s r : len s < INT_MAX -> str_to_integer p s base = Ok r -> py_int base s (value r).
Proof. intros H E. apply literal_python. eapply to_integer_literal; eassumption. Qed.

Lemma digit_of_val c d : digit_of c = Some d -> digit_val 10 c d.
Proof. destruct c as [[] [] [] [] [] [] [] []]; cbn; intros E; try discriminate; injection E as <-; (split; [lia|left; split; [lia|reflexivity]]). Qed.

Lemma dec_of_digits t : forall acc z, dec_of acc t = Some z ->
  exists ds, digits_text 10 t ds /\ length ds = length t /\ z = acc * 10 ^ Z.of_nat (length t) + positional 10 ds.
Proof.
  induction t as [|c t IH]; intros acc z E; cbn [dec_of] in E.
  - injection E as <-. exists []. split; [constructor|]. cbn. split; [reflexivity|lia].
  - destruct (digit_of c) as [d|] eqn:D; [|discriminate]. destruct (IH _ _ E) as (ds & F & L & ->).
    exists (d :: ds). split; [constructor; [apply digit_of_val|]; assumption|]. cbn [length]. split; [congruence|].
    cbn [positional]. rewrite L, Nat2Z.inj_succ, Z.pow_succ_r by lia. lia.
Qed.

Lemma dec_of_python t z : t <> [] -> dec_of 0 t = Some z -> exists ds, py_digits 10 t ds /\ z = positional 10 ds.
Proof.
  intros N E. destruct (dec_of_digits t 0 z E) as (ds & D & L & ->). exists ds. split; [|lia].
  apply digits_python; [assumption|]. intros ->. destruct t; [congruence|discriminate].
Qed.

Lemma python_literal s z : literal s = Some z -> py_int 10 s z.
Proof.
  intros E.
  assert (G : forall sg neg t y, t <> [] -> dec_of 0 t = Some y -> sign_text sg neg -> s = sg ++ t -> z = (if neg then - y else y) -> py_int 10 s z).
  { intros sg neg t y N D SG -> ->. destruct (dec_of_python t y N D) as (ds & P & ->).
    exists [], sg, [], t, [], neg, ds. cbn [app]. rewrite app_nil_r. repeat split; auto. constructor. }
  destruct s as [|c t]; [discriminate|].
  assert (D : (exists d, c = "+"%char /\ t = d) \/ (exists d, c = "-"%char /\ t = d) \/ dec_of 0 (c :: t) = Some z).
  { destruct (Ascii.eqb_spec c "+"); [left; eauto|]. destruct (Ascii.eqb_spec c "-"); [right; left; eauto|].
    right. right. rewrite <- E. destruct c as [[] [] [] [] [] [] [] []]; try reflexivity; congruence. }
  destruct D as [(d & -> & <-)|[(d & -> & <-)|D]].
  - cbn [literal] in E. destruct t as [|c t]; [discriminate|]. apply (G ["+"%char] false (c :: t) z); auto; [discriminate|cbn; auto].
  - cbn [literal] in E. destruct t as [|c t]; [discriminate|].
    destruct (dec_of 0 (c :: t)) as [y|] eqn:Y; [|discriminate]. injection E as <-.
    apply (G ["-"%char] true (c :: t) y); auto; [discriminate|reflexivity].
  - apply (G [] false (c :: t) z); auto; [discriminate|cbn; auto].
Qed.

Lemma int_of_chars_python cs r : int_of_chars cs = Ok r -> py_int 10 cs (value r).
Proof.
  intros E. pose proof (string_constructor cs) as A. destruct (literal cs) as [z|] eqn:L; [|congruence].
  destruct A as (r' & E' & _ & V). rewrite E' in E. injection E as <-. rewrite V. apply python_literal, L.
Qed.

(** Texts that only Python takes. *)
Lemma not_all_texts : exists s z, py_int 10 s z /\ int_of_chars s = Throw WrongIntegerLiteral /\ forall p, str_to_integer p s 10 = Throw BadIntegerLiteral.
Proof.
  exists ["1"; "_"; "0"]%char, 10. split; [|split].
  - exists [], [], [], ["1"; "_"; "0"]%char, [], false, [1; 0]. cbn [app]. split; [reflexivity|]. split; [constructor|]. split; [constructor|].
    split; [left; reflexivity|]. split; [constructor|]. split; [|reflexivity].
    apply digits_under; [|apply digits_one]; (split; [lia|left; split; [lia|reflexivity]]).
  - reflexivity.
  - intros p. reflexivity.
Qed.

Lemma prefix_only : exists s z, py_int 16 s z /\ forall p, str_to_integer p s 16 = Throw BadIntegerLiteral.
Proof.
  exists ["0"; "x"; "f"]%char, 15. split.
  - exists [], [], ["0"; "x"]%char, ["f"%char], [], false, [15]. cbn [app]. split; [reflexivity|]. split; [constructor|]. split; [constructor|].
    split; [left; reflexivity|]. split; [apply (prefix_some 16 "x"%char); auto; right; right; auto|].
    split; [|reflexivity]. constructor. split; [lia|right; split; [lia|right; reflexivity]].
  - intros p. reflexivity.
Qed.

Lemma blanks_only : exists s z, py_int 10 s z /\ int_of_chars s = Throw WrongIntegerLiteral /\ exists r, str_to_integer Benign s 10 = Ok r.
Proof.
  exists [" "; "7"]%char, 7. split; [|split].
  - exists [" "%char], [], [], ["7"%char], [], false, [7]. cbn [app]. split; [reflexivity|]. split; [repeat constructor|]. split; [constructor|].
    split; [left; reflexivity|]. split; [constructor|]. split; [|reflexivity].
    apply digits_one; split; [lia|left; split; [lia|reflexivity]].
  - reflexivity.
  - eexists. reflexivity.
Qed.

(** ** Division *)

Lemma divmod_floor a b q r : b <> 0 -> (py_divmod a b q r <-> q = a / b /\ r = a mod b).
Proof.
  intros N. unfold py_divmod. split.
  - intros (E & B). split; [apply (Z.div_unique a b q r)|apply (Z.mod_unique a b q r)]; lia.
  - intros (-> & ->). pose proof (Z.div_mod a b N). split; [lia|].
    destruct (Z_lt_le_dec 0 b); [left; apply Z.mod_pos_bound; lia|right; apply Z.mod_neg_bound; lia].
Qed.

Lemma quot_floor a b : b <> 0 -> (Z.quot a b = a / b <-> 0 <= a * b \/ (b | a)).
Proof.
  intros N. pose proof (Z.quot_rem a b N) as Q. pose proof (Z.div_mod a b N) as D.
  split.
  - intros E. rewrite <- E in D. assert (R : Z.rem a b = a mod b) by lia.
    destruct (Z.eq_dec (a mod b) 0) as [Z0|NZ]; [right; apply Z.mod_divide; assumption|].
    left. pose proof (Z.rem_sign_nz a b N ltac:(lia)) as S1.
    destruct (Z_lt_le_dec 0 b).
    + pose proof (Z.mod_pos_bound a b l). assert (0 < Z.rem a b) by lia.
      pose proof (Z.rem_nonneg a b N). destruct (Z_lt_le_dec a 0); [|nia].
      pose proof (Z.rem_nonpos a b N ltac:(lia)). lia.
    + pose proof (Z.mod_neg_bound a b ltac:(lia)). assert (Z.rem a b < 0) by lia.
      destruct (Z_lt_le_dec a 0); [nia|]. pose proof (Z.rem_nonneg a b N ltac:(lia)). lia.
  - intros [S|(k & ->)].
    + destruct (Z_lt_le_dec 0 b).
      * apply Z.quot_div_nonneg; nia.
      * rewrite <- (Z.quot_opp_opp a b N), <- (Z.div_opp_opp a b N). apply Z.quot_div_nonneg; nia.
    + rewrite Z.quot_mul, Z.div_mul by assumption. reflexivity.
Qed.

Lemma div_python x y a b : repr x a -> repr y b -> b <> 0 ->
  exists q, returns (int_div Benign x y) q /\ ((exists r, py_divmod a b q r) <-> 0 <= a * b \/ (b | a)).
Proof.
  intros X Y N. exists (Z.quot a b). split; [apply (proj1 (div_trunc x y a b X Y) N)|].
  rewrite <- quot_floor by assumption. split.
  - intros (r & D). apply divmod_floor in D; [|assumption]. tauto.
  - intros E. exists (a mod b). apply divmod_floor; auto.
Qed.

Lemma mod_python x y a b : repr x a -> repr y b -> b <> 0 ->
  let fewer := exists k, 0 <= k /\ Z.abs a < 10 ^ k <= Z.abs b in
  exists r, returns (int_mod Benign x y) r /\
    ((exists q, py_divmod a b q r) <->
     0 <= a /\ 0 < b \/ (b | a) \/ a < 0 /\ b < 0 /\ fewer \/ a < 0 /\ 0 < b /\ ~ fewer /\ 2 * (a mod b) = b).
Proof.
  intros X Y N fewer. destruct (mod_value x y a b X Y) as (A & _). destruct (A N) as (r & R & (F & G) & _ & P).
  exists r. split; [exact R|]. fold fewer in F, G.
  assert (M : forall r, (exists q, py_divmod a b q r) <-> r = a mod b).
  { intros r'. split.
    - intros (q & D). apply divmod_floor in D; tauto.
    - intros ->. exists (a / b). apply divmod_floor; auto. }
  rewrite M. clear M A R.
  assert (D : (b | a) <-> a mod b = 0) by (split; [intros; apply Z.mod_divide|intros; apply Z.mod_divide]; assumption).
  assert (small : fewer -> Z.abs a < Z.abs b) by (intros (k & ? & ?); lia).
  assert (dec : fewer \/ ~ fewer).
  { pose proof (fewer_digits_dec a b N) as [H|H]; [left|right]; exact H. }
  destruct dec as [fw|nf].
  - rewrite (F fw). specialize (small fw). clear F G P.
    destruct (Z_lt_le_dec a 0) as [a0|a0], (Z_lt_le_dec b 0) as [b0|b0].
    + assert (a mod b = a) by (symmetry; apply (Z.mod_unique a b 0 a); lia). intuition lia.
    + pose proof (Z.mod_pos_bound a b ltac:(lia)). split; [lia|]. intros [K|[K|[K|K]]]; try lia.
      * pose proof (Znumtheory.Zdivide_bounds b a K ltac:(lia)). lia.
      * tauto.
    + pose proof (Z.mod_neg_bound a b ltac:(lia)). split.
      * intros E. right. left. apply D. lia.
      * intros [K|[K|[K|K]]]; try lia. destruct (Z.eq_dec a 0) as [->|]; [rewrite Z.mod_0_l by lia; reflexivity|].
        pose proof (Znumtheory.Zdivide_bounds b a K ltac:(lia)). lia.
    + rewrite Z.mod_small by lia. split; [intros _|reflexivity]. left. lia.
  - rewrite (G nf). clear F G P.
    destruct (Z_lt_le_dec a 0) as [a0|a0], (Z_lt_le_dec b 0) as [b0|b0].
    + rewrite !Z.abs_neq by lia. rewrite Z.mod_opp_opp by assumption. rewrite D.
      pose proof (Z.mod_neg_bound a b ltac:(lia)). split; [intros; right; left; lia|].
      intros [K|[K|[K|K]]]; try lia. tauto.
    + rewrite (Z.abs_neq a), (Z.abs_eq b) by lia. rewrite D.
      pose proof (Z.mod_pos_bound a b ltac:(lia)).
      destruct (Z.eq_dec (a mod b) 0) as [Z0|NZ].
      * rewrite Z.mod_opp_l_z by assumption. rewrite Z0. tauto.
      * rewrite Z.mod_opp_l_nz by assumption. split; [intros; right; right; right; repeat split; try assumption; lia|].
        intros [K|[K|[K|K]]]; try lia.
    + rewrite (Z.abs_neq b), (Z.abs_eq a) by lia. rewrite D.
      pose proof (Z.mod_neg_bound a b ltac:(lia)). pose proof (Z.mod_pos_bound a (- b) ltac:(lia)).
      split; [intros; right; left; lia|]. intros [K|[K|[K|K]]]; try lia. rewrite Z.mod_opp_r_z by assumption. congruence.
    + rewrite !Z.abs_eq by lia. split; [intros; left; lia|reflexivity].
Qed.

(** ** Fractions *)

Lemma inject_one t : (inject_Z t < 1)%Q -> (t <= 0)%Z.
Proof. intros H. change 1%Q with (inject_Z 1) in H. rewrite <- Zlt_Qlt in H. lia. Qed.
Lemma inject_zero t : (0 < inject_Z t)%Q -> (1 <= t)%Z.
Proof. intros H. change 0%Q with (inject_Z 0) in H. rewrite <- Zlt_Qlt in H. lia. Qed.

Lemma no_multiple t b r : (0 == inject_Z t * b + r)%Q -> (0 < r < b)%Q \/ (b < r < 0)%Q \/ (0 < - r < b)%Q \/ (b < - r < 0)%Q -> False.
Proof.
  intros E B.
  assert (G : forall t b r, (r == inject_Z t * b)%Q -> (0 < r < b)%Q -> False).
  { clear. intros t b r E (B1 & B2). assert (0 < b)%Q by lra.
    assert (inject_Z t < 1)%Q by nra. assert (0 < inject_Z t)%Q by nra.
    apply inject_one in H0. apply inject_zero in H1. lia. }
  destruct B as [B|[B|[B|B]]].
  - apply (G (- t)%Z b r); [|lra]. rewrite inject_Z_opp. lra.
  - apply (G (- t)%Z (- b)%Q (- r)%Q); [|lra]. rewrite inject_Z_opp. lra.
  - apply (G t b (- r)%Q); lra.
  - apply (G t (- b)%Q r); lra.
Qed.

Lemma rem_python a b r : ~ (b == 0)%Q -> qrem a b r -> (py_frac_mod a b r <-> (0 <= a * b)%Q \/ (r == 0)%Q).
Proof.
  intros N (t & E & A & S). split.
  - intros (t' & E' & B). destruct (Qeq_dec r 0) as [Z0|NZ]; [right; exact Z0|left].
    destruct B as [(B1 & B2)|(B1 & B2)].
    + assert (0 < r)%Q by (destruct (Qlt_le_dec 0 r); [assumption|exfalso; apply NZ; lra]). assert (0 <= a)%Q by nra. nra.
    + assert (r < 0)%Q by (destruct (Qlt_le_dec r 0); [assumption|exfalso; apply NZ; lra]). assert (a <= 0)%Q by nra. nra.
  - intros [P|Z0].
    + exists t. split; [exact E|]. apply Qabs.Qabs_Qlt_condition in A.
      destruct (Qlt_le_dec 0 b) as [b0|b0].
      * rewrite Qabs.Qabs_pos in A by lra. left. split; [|lra].
        destruct (Qlt_le_dec r 0) as [r0|]; [exfalso|assumption].
        assert (0 <= a)%Q by nra. assert (a == 0)%Q by nra. apply (no_multiple t b r); [lra|]. right. right. left. lra.
      * assert (b < 0)%Q by (destruct (Qlt_le_dec b 0); [assumption|exfalso; apply N; lra]). rewrite Qabs.Qabs_neg in A by lra.
        right. split; [lra|]. destruct (Qlt_le_dec 0 r) as [r0|]; [exfalso|assumption].
        assert (a <= 0)%Q by nra. assert (a == 0)%Q by nra. apply (no_multiple t b r); [lra|]. right. right. right. lra.
    + exists t. split; [exact E|]. destruct (Qlt_le_dec 0 b); [left|right]; split; try lra.
Qed.

Lemma frac_mod_python x y r : valid x -> valid y -> frac_mod x y = Ok r ->
  (py_frac_mod (qval x) (qval y) (qval r) <-> (0 <= qval x * qval y)%Q \/ (qval r == 0)%Q).
Proof.
  intros X Y E. destruct (remainder x y X Y) as (A & B & C).
  destruct (Qeq_dec (qval y) 0) as [Z0|NZ]; [rewrite (A Z0) in E; discriminate|].
  set (safe := _ /\ _ /\ _ /\ _) in *.
  assert (dec : safe \/ ~ safe).
  { unfold safe, FracSpec.fits, INT_MIN, INT_MAX. lia. }
  destruct dec as [S|S]; [|rewrite (C NZ S) in E; discriminate].
  destruct (B NZ S) as (r' & E' & _ & Q). rewrite E' in E. injection E as <-. apply rem_python; assumption.
Qed.

(** ** deque *)

Lemma extendleft_rev {T} (w d : list T) : py_extendleft d w = rev w ++ d.
Proof.
  unfold py_extendleft. revert d. induction w as [|x w IH]; intros d; cbn; [reflexivity|].
  rewrite IH, <- app_assoc. reflexivity.
Qed.

Lemma extend_front_python {T} (w d : list T) : deq_extend_front w d = (Ok tt, py_extendleft d w) <-> rev w = w.
Proof.
  rewrite extendleft_rev. unfold deq_extend_front, update. split.
  - intros E. injection E as E. apply app_inv_tail in E. auto.
  - intros ->. reflexivity.
Qed.

(** ** Calls that Python accepts *)

Lemma accepts_more :
  (list_slice [1; 2; 3] 0 10 1 = Throw IndexOutOfRange /\ py_slice [1; 2; 3] 0 10 1 = Some [1; 2; 3]) /\
  (list_slice (@nil Z) 0 0 1 = Throw IndexOutOfRange /\ py_slice (@nil Z) 0 0 1 = Some []) /\
  (list_insert 5 9 [1; 2; 3] = (Throw IndexOutOfRange, [1; 2; 3]) /\ py_insert [1; 2; 3] 5 9 = [1; 2; 3; 9]) /\
  (list_times 0 [1; 2] (-1) = Throw NegativeTimes /\ py_times [1; 2] (-1) = []) /\
  (list_erase (-1) 3 [1; 2; 3] = (Throw IndexOutOfRange, [1; 2; 3]) /\ py_del [1; 2; 3] (-1) 3 = [1; 2]) /\
  (list_erase 2 1 [1; 2; 3] = (UB InvalidRange, [1; 2; 3]) /\ py_del [1; 2; 3] 2 1 = [1; 2; 3]) /\
  (list_index Z.eqb [7; 8] 8 (-1) 2 = UB InvalidRange /\ py_index Z.eqb [7; 8] 8 (-1) 2 1).
Proof.
  repeat split; try reflexivity.
  - right. split; [cbn; lia|]. exists 8. split; reflexivity.
  - intros k y K. cbn in K. lia.
Qed.

Lemma str_accepts_more :
  let s := ["a"; "b"]%char in
  (str_slice s 0 10 1 = Throw IndexOutOfRange /\ py_slice s 0 10 1 = Some s) /\
  (str_times s (-1) = Throw NegativeTimes /\ py_times s (-1) = []) /\
  (str_erase s (-1) 2 = Throw IndexOutOfRange /\ py_del s (-1) 2 = ["a"%char]) /\
  ((exists u, str_find s ["b"%char] (-1) 2 = UB u) /\ py_find s ["b"%char] (-1) 2 1).
Proof.
  repeat split; try reflexivity.
  - apply find_undefined; cbn; unfold INT_MAX; lia.
  - left. cbn. split; [lia|]. split; [lia|]. split; [exists ["a"%char], []; split; reflexivity|]. intros j J _. lia.
Qed.

Lemma split_python_refuted : exists s, str_split s [" "%char] false <> Ok (py_split s).
Proof. exists ["a"; "009"; "b"]%char. vm_compute. discriminate. Qed.

Lemma strip_python_refuted : exists s r, Forall (fun c => byte c < 128) s /\ py_strip s r /\ str_strip s (-1) <> Ok r.
Proof.
  exists ["000"; "a"]%char, ["000"; "a"]%char. split; [repeat constructor|]. split.
  - exists [], []. rewrite app_nil_r. split; [reflexivity|]. split; [constructor|]. split; [constructor|]. split.
    + intros c r' e. injection e as <- _. discriminate.
    + intros c r' e. change (["000"; "a"]%char) with (["000"%char] ++ ["a"%char]) in e. apply app_inj_tail in e as (_ & <-). discriminate.
  - vm_compute. discriminate.
Qed.

Lemma div_python_refuted : exists x y q, repr x (-7) /\ repr y 2 /\ int_div Benign x y = Ok q /\ value q = -3 /\ py_divmod (-7) 2 (-4) 1.
Proof.
  exists (MkInt (-1) [7]), (MkInt 1 [2]), (MkInt (-1) [3]).
  assert (R : repr (MkInt (-1) [7]) (-7) /\ repr (MkInt 1 [2]) 2).
  { pose proof (string_constructor ["-"; "7"]%char) as (a & A & ?). pose proof (string_constructor ["2"]%char) as (b & B & ?).
    vm_compute in A, B. injection A as <-. injection B as <-. auto. }
  destruct R as (R1 & R2). split; [exact R1|]. split; [exact R2|]. repeat split; lia.
Qed.

Lemma mod_python_refuted : exists x y r, repr x (-7) /\ repr y 5 /\ int_mod Benign x y = Ok r /\ value r = 2 /\ py_divmod (-7) 5 (-2) 3.
Proof.
  exists (MkInt (-1) [7]), (MkInt 1 [5]), (MkInt 1 [2]).
  assert (R : repr (MkInt (-1) [7]) (-7) /\ repr (MkInt 1 [5]) 5).
  { pose proof (string_constructor ["-"; "7"]%char) as (a & A & ?). pose proof (string_constructor ["5"]%char) as (b & B & ?).
    vm_compute in A, B. injection A as <-. injection B as <-. auto. }
  destruct R as (R1 & R2). split; [exact R1|]. split; [exact R2|]. repeat split; lia.
Qed.

Lemma frac_mod_python_refuted : exists x y r, valid x /\ valid y /\ frac_mod x y = Ok r /\ ~ py_frac_mod (qval x) (qval y) (qval r).
Proof.
  assert (X : valid {| num := -1; den := 2 |}) by (repeat split; try (unfold INT_MIN, INT_MAX; cbn; lia)).
  assert (Y : valid {| num := 1; den := 3 |}) by (repeat split; try (unfold INT_MIN, INT_MAX; cbn; lia)).
  exists {| num := -1; den := 2 |}, {| num := 1; den := 3 |}, {| num := -1; den := 6 |}.
  assert (E : frac_mod {| num := -1; den := 2 |} {| num := 1; den := 3 |} = Ok {| num := -1; den := 6 |}) by reflexivity.
  split; [exact X|]. split; [exact Y|]. split; [exact E|].
  rewrite (frac_mod_python _ _ _ X Y E). intros [C|C]; vm_compute in C; [apply C; reflexivity|discriminate].
Qed.

Lemma extend_front_python_refuted : exists w d : list Z, deq_extend_front w d <> (Ok tt, py_extendleft d w).
Proof. exists [1; 2], [3]. discriminate. Qed.
