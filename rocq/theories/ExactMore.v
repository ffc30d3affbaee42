(** Exactly where C109, C110, C114 and C150 hold: proofs. *)
From Coq Require Import ZArith QArith List Bool Lia.
From Verif Require Import Outcome ListModel ListSpec ListFacts ListMore SetModel SetSpec SetFacts SetMore DequeModel FracModel FracSpec FracFacts FracMore FracExpr Exact.
Import ListNotations.
Open Scope Z_scope.

(** ** += of Lists *)

Lemma append_exact : forall T (l w : list T), len l <= INT_MAX -> len w <= INT_MAX ->
  let accepted := len l + len w <= INT_MAX - 2 \/ len l + len w = INT_MAX - 1 /\ Z.odd (len l) = true in
  (accepted -> list_append_list w false l = (Ok tt, l ++ w)) /\ (~ accepted -> list_append_list w false l = (Throw ContainerFull, l)).
Proof.
  intros T l w L W. cbv zeta. pose proof (len_nonneg _ l). pose proof (len_nonneg _ w).
  destruct (append_list_spec _ l w L W) as (A & B). change (INT_MAX / 2) with 1073741823 in A, B. unfold INT_MAX in *.
  pose proof (Zodd_mod (len l)) as O. pose proof (Z_div_mod_eq_full (len l) 2) as E1. pose proof (Z_div_mod_eq_full (len w) 2) as E2.
  pose proof (Z.mod_pos_bound (len l) 2 ltac:(lia)). pose proof (Z.mod_pos_bound (len w) 2 ltac:(lia)).
  rewrite Zodd_mod. split; intros H'.
  - apply B. destruct H' as [H'|(H' & D)]; [lia|]. apply Zeq_bool_eq in D. lia.
  - apply A. assert (N: 2147483647 - 2 < len l + len w) by lia.
    destruct (Z.eq_dec (len l + len w) 2147483646) as [E|]; [|lia].
    destruct (Z.eq_dec (len l mod 2) 1) as [D|]; [|lia]. exfalso. apply H'. right. split; [lia|]. rewrite D. reflexivity.
Qed.

(** ** size() of Deques and Sets *)

Lemma deq_extend_truthful : forall T (q w : list T), len q + len w < 2 ^ 32 ->
  (size (snd (deq_extend_back w q)) = len q + len w <-> len q + len w <= INT_MAX) /\
  (size (snd (deq_extend_front w q)) = len q + len w <-> len q + len w <= INT_MAX).
Proof.
  intros T q w L. assert (A: len (q ++ w) = len q + len w) by (unfold len; rewrite app_length; lia).
  split.
  - unfold deq_extend_back, update. cbn [snd]. rewrite <- A in L |- *. apply size_truthful; auto.
  - assert (B: len (snd (deq_extend_front w q)) = len q + len w).
    { unfold deq_extend_front, update. cbn [snd]. unfold len in *. rewrite ?app_length, ?rev_length. lia. }
    rewrite <- B in L |- *. apply size_truthful; auto.
Qed.

Lemma set_sizes_truthful : forall T (lt : T -> T -> bool), strict_total lt -> forall a b P Q xs n, enumerates lt a P -> enumerates lt b Q -> n < 2 ^ 32 ->
  (card (fun x => P x \/ Q x) n -> (size (set_or lt a b) = n <-> n <= INT_MAX)) /\
  (card (fun x => (P x /\ ~ Q x) \/ (~ P x /\ Q x)) n -> (size (set_xor lt a b) = n <-> n <= INT_MAX)) /\
  (card (fun x => P x \/ In x xs) n -> (size (snd (set_extend lt xs a)) = n <-> n <= INT_MAX)).
Proof.
  intros T lt O a b P Q xs n A B N. split; [|split]; intros C.
  - pose proof (or_ok lt O a b P Q A B) as E. rewrite (enum_len lt O _ _ n E C) in N |- *. apply size_truthful; auto.
  - pose proof (xor_ok lt O a b P Q A B) as E. assert (C': card (one P Q) n).
    { destruct C as (l & D & M & Z). exists l. split; auto. split; auto. intros x. rewrite (M x). unfold one. tauto. }
    rewrite (enum_len lt O _ _ n E C') in N |- *. apply size_truthful; auto.
  - pose proof (range_enum lt O xs a P A) as E. cbn [set_extend update snd]. assert (C': card (either P (fun y => In y xs)) n) by exact C.
    rewrite (enum_len lt O _ _ n E C') in N |- *. apply size_truthful; auto.
Qed.

(** ** Grouping sums of Fractions *)

Lemma fits_dec : forall a, {fits a} + {~ fits a}.
Proof. intros a. unfold fits. destruct (Z_le_dec INT_MIN a); [|right; lia]. destruct (Z_le_dec a INT_MAX); [left; lia|right; lia]. Qed.
Lemma fits1_dec : forall a, {fits1 a} + {~ fits1 a}.
Proof. intros a. unfold fits1. destruct (Z_le_dec (- INT_MAX) a); [|right; lia]. destruct (Z_le_dec a INT_MAX); [left; lia|right; lia]. Qed.

Lemma regroup_exact : forall x y z r, valid x -> valid y -> valid z -> (s <- frac_add y z ;; frac_add x s) = Ok r ->
  let safe := fun x y => fits (num x * den y) /\ fits (den x * num y) /\ fits1 (num x * den y + den x * num y) /\ fits (den x * den y) in
  let right := safe x y /\ forall w, valid w -> (qval w == qval x + qval y)%Q -> safe w z in
  (right -> (t <- frac_add x y ;; frac_add t z) = Ok r) /\ (~ right -> (t <- frac_add x y ;; frac_add t z) = UB SignedOverflow).
Proof.
  intros x y z r X Y Z E safe right.
  assert (D: forall a b, {safe a b} + {~ safe a b}).
  { intros a b. unfold safe.
    destruct (fits_dec (num a * den b)); [|right; tauto]. destruct (fits_dec (den a * num b)); [|right; tauto].
    destruct (fits1_dec (num a * den b + den a * num b)); [|right; tauto]. destruct (fits_dec (den a * den b)); [left; tauto|right; tauto]. }
  destruct (add_exact y z Y Z) as (YZ & NYZ). fold (safe y z) in YZ, NYZ.
  destruct (D y z) as [S1|S1]; [|rewrite (NYZ S1) in E; discriminate]. destruct (YZ S1) as (s & Es & Vs & Qs). rewrite Es in E. cbn [bind] in E.
  destruct (add_exact x s X Vs) as (XS & NXS). fold (safe x s) in XS, NXS.
  destruct (D x s) as [S2|S2]; [|rewrite (NXS S2) in E; discriminate]. destruct (XS S2) as (r' & Er & Vr & Qr). rewrite Er in E. inversion E; subst r'. clear E.
  destruct (add_exact x y X Y) as (XY & NXY). fold (safe x y) in XY, NXY.
  destruct (D x y) as [S3|S3].
  - destruct (XY S3) as (t & Et & Vt & Qt). rewrite Et. cbn [bind].
    destruct (add_exact t z Vt Z) as (TZ & NTZ). fold (safe t z) in TZ, NTZ. split; intros R.
    + destruct R as (_ & R). destruct (TZ (R t Vt Qt)) as (r2 & E2 & V2 & Q2). rewrite E2. f_equal. apply valid_qval; auto. rewrite Q2, Qr, Qt, Qs. ring.
    + apply NTZ. intros S4. apply R. split; auto. intros w Vw Qw. replace w with t; auto. apply valid_qval; auto. rewrite Qt, Qw. reflexivity.
  - rewrite (NXY S3). cbn [bind]. split; [intros (R & _); contradiction|auto].
Qed.
