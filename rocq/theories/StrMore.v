(** Proofs about indexing, slicing, rotation, case, stripping, formatting, streams, order. *)
From Coq Require Import String Ascii ZArith List Bool Lia.
From Verif Require Import Outcome IntModel ListModel ListSpec ListFacts ListMore StreamModel FloatModel StrModel StrSpec StrFacts.
Import ListNotations.
Open Scope Z_scope.

(** ** Indexing, slicing, erasing, repeating *)

Lemma str_at_spec : forall (s : str) i, len s <= INT_MAX ->
  match position (len s) i with
  | Some k => exists c, nth_error s k = Some c /\ str_at s i = Ok c
  | None => str_at s i = Throw IndexOutOfRange
  end.
Proof. exact (at_spec ascii). Qed.

Lemma str_slice_spec : forall (s : str) start stop step, len s < INT_MAX ->
  let a := from_back (len s) start in let b := from_back (len s) stop in
  (step = 0 -> str_slice s start stop step = Throw SliceStepZero) /\
  (step <> 0 -> ~ (- len s <= start < len s) \/ ~ (- len s - 1 <= stop <= len s) ->
     str_slice s start stop step = Throw IndexOutOfRange) /\
  (step <> 0 -> - len s <= start < len s -> - len s - 1 <= stop <= len s ->
     (slice_fits a b step /\ exists r, str_slice s start stop step = Ok r /\ sliced s r a b step) \/
     (~ slice_fits a b step /\ str_slice s start stop step = UB SignedOverflow)).
Proof. exact (slice_spec ascii). Qed.

Lemma str_erase_spec : forall (s : str) start stop, len s < INT_MAX ->
  (~ (0 <= start <= len s) \/ ~ (0 <= stop <= len s) -> str_erase s start stop = Throw IndexOutOfRange) /\
  (0 <= start <= stop -> stop <= len s -> exists a m b, s = a ++ m ++ b /\ len a = start /\ len a + len m = stop /\ str_erase s start stop = Ok (a ++ b)) /\
  (0 <= stop < start -> start <= len s -> str_erase s start stop = UB InvalidRange).
Proof.
  intros s start stop H. pose proof (len_nonneg _ s). unfold str_erase. rewrite size_ok by lia.
  rewrite (chk32_ok (len s + 1)) by (unfold INT_MIN; lia). cbn [bind]. split; [|split].
  - intros [B|B].
    + rewrite check_bounds_throw by lia. auto.
    + destruct (Z_le_dec 0 start); [destruct (Z_le_dec start (len s))|].
      1: rewrite (check_bounds_ok start) by lia; cbn [bind].
      all: rewrite check_bounds_throw by lia; auto.
  - intros A B. rewrite (check_bounds_ok start), (check_bounds_ok stop) by lia. cbn [bind].
    destruct (cut_at _ s start) as (a & t & -> & La); [lia|]. fold (len a) in La. rewrite len_app in *.
    destruct (cut_at _ t (stop - start)) as (m & b & -> & Lm); [lia|]. fold (len m) in Lm.
    exists a, m, b. split; auto. split; auto. split; [lia|].
    replace start with (len a) by lia. replace stop with (len a + len m) by lia. apply verase_ok.
  - intros A B. rewrite (check_bounds_ok start), (check_bounds_ok stop) by lia. cbn [bind].
    unfold verase. destruct (Z.ltb_spec start 0); [lia|]. destruct (Z.ltb_spec stop start); [auto|lia].
Qed.

Lemma str_erase_full : forall (s : str) start stop, len s = INT_MAX -> str_erase s start stop = UB SignedOverflow.
Proof. intros s start stop H. unfold str_erase. rewrite size_ok by lia. rewrite chk32_ub by lia. auto. Qed.

Lemma str_times_spec : forall (s : str) n, len s <= INT_MAX ->
  (n < 0 -> str_times s n = Throw NegativeTimes) /\
  (0 <= n -> len s * n <= INT_MAX -> str_times s n = Ok (concat (repeat s (Z.to_nat n)))) /\
  (0 <= n -> INT_MAX < len s * n -> str_times s n = UB SignedOverflow).
Proof.
  intros s n H. pose proof (len_nonneg _ s). unfold str_times. rewrite size_ok by auto.
  split; [|split]; intros N; destruct (Z.ltb_spec n 0); try lia; auto; intros B.
  - rewrite chk32_ok by (unfold INT_MIN; nia). cbn [bind]. destruct (Z.ltb_spec (len s * n) 0); [nia|].
    apply (times_loop_ok ascii s (Z.to_nat n) 0 (repeat NUL (Z.to_nat (len s * n)))); auto.
    + unfold len at 1. rewrite repeat_length. nia.
    + lia.
  - rewrite chk32_ub by lia. auto.
Qed.

(** ** Rotation and reversal *)

Lemma into_buffer_ok : forall s r, len s <= INT_MAX -> into_buffer s r = r.
Proof.
  intros s r H. pose proof (len_nonneg _ s). unfold into_buffer. rewrite size_ok by auto.
  destruct (Z.ltb_spec (len s) 0); [lia|]. rewrite Z.eqb_refl. auto.
Qed.

Lemma shl_is : forall s n, len s <= INT_MAX -> list_shl n s = match str_shl s n with Ok r => (Ok tt, r) | Throw e => (Throw e, s) | UB u => (UB u, s) | OutOfFuel => (OutOfFuel, s) end.
Proof.
  intros s n H. unfold list_shl, str_shl, update. destruct ((size s <=? 1) || (n =? 0)); auto. cbv zeta.
  match goal with |- context [bind ?o] => destruct o end; cbn [bind]; auto. rewrite into_buffer_ok by auto. reflexivity.
Qed.

Lemma str_shl_spec : forall s n, len s <= INT_MAX -> exists r, str_shl s n = Ok r /\ rotated s r n.
Proof.
  intros s n H. destruct (shl_spec _ s n H) as (r & E & R). exists r. split; auto.
  rewrite shl_is in E by auto. destruct (str_shl s n); inversion E. auto.
Qed.

Lemma shr_is : forall s n, len s <= INT_MAX -> list_shr n s = match str_shr s n with Ok r => (Ok tt, r) | Throw e => (Throw e, s) | UB u => (UB u, s) | OutOfFuel => (OutOfFuel, s) end.
Proof.
  intros s n H. unfold list_shr, str_shr. destruct ((size s <=? 1) || (n =? 0)); auto.
  destruct (n <? 0); match goal with |- context [chk32 ?z] => destruct (chk32 z) end; cbn [bind]; auto; apply shl_is; auto.
Qed.

Lemma str_shr_spec : forall s n, len s <= INT_MAX -> INT_MIN < n <= INT_MAX -> exists r, str_shr s n = Ok r /\ rotated s r (- n).
Proof.
  intros s n H N. destruct (shr_spec _ s n H N) as (r & E & R). exists r. split; auto.
  rewrite shr_is in E by auto. destruct (str_shr s n); inversion E. auto.
Qed.

Lemma str_shr_min : forall s, len s <= INT_MAX -> 1 < len s -> str_shr s INT_MIN = UB SignedOverflow.
Proof.
  intros s H L. unfold str_shr. rewrite size_ok by auto. destruct (Z.leb_spec (len s) 1); [lia|]. reflexivity.
Qed.

Lemma str_undo : forall s n, len s <= INT_MAX -> INT_MIN < n <= INT_MAX ->
  (exists r, str_shl s n = Ok r /\ str_shr r n = Ok s) /\ (exists r, str_shr s n = Ok r /\ str_shl r n = Ok s).
Proof.
  intros s n H N. split.
  - destruct (str_shl_spec s n H) as (r & E & R). exists r. split; auto.
    assert (len r = len s) as L by (unfold len; destruct R; congruence).
    destruct (str_shr_spec r n) as (q & F & Q); [lia|auto|]. rewrite F. f_equal.
    eapply (rotated_unique _ s q s (n + - n) 0); [f_equal; lia| |apply rotated_0].
    eapply rotated_trans; eauto.
  - destruct (str_shr_spec s n H N) as (r & E & R). exists r. split; auto.
    assert (len r = len s) as L by (unfold len; destruct R; congruence).
    destruct (str_shl_spec r n) as (q & F & Q); [lia|]. rewrite F. f_equal.
    eapply (rotated_unique _ s q s (- n + n) 0); [f_equal; lia| |apply rotated_0].
    eapply rotated_trans; eauto.
Qed.

Lemma str_reverse_spec : forall s : str, len s <= INT_MAX -> exists r, str_reverse s = Ok r /\ str_reverse r = Ok s /\ length r = length s /\
  forall i, (i < length s)%nat -> nth_error r i = nth_error s (length s - 1 - i).
Proof.
  intros s H. exists (rev s). assert (len (rev s) <= INT_MAX) by (unfold len; rewrite rev_length; exact H).
  unfold str_reverse. rewrite !into_buffer_ok by auto. rewrite rev_involutive. split; [auto|]. split; [auto|].
  split; [apply rev_length|]. intros i I.
  destruct (nth_error s (length s - 1 - i)) as [c|] eqn:E.
  - apply nth_error_nth with (d := c) in E. rewrite <- E at 1. rewrite (nth_error_nth' _ c) by (rewrite rev_length; lia). f_equal.
    rewrite rev_nth by lia. f_equal. lia.
  - apply nth_error_None in E. lia.
Qed.

(** ** Case *)

Lemma lower_char : forall c, letter c -> lower_form c (to_char (Z.lor (schar c) 32)).
Proof.
  intros c L. unfold lower_form, letter, upper_letter, lower_letter in *.
  destruct c as [[] [] [] [] [] [] [] []]; vm_compute in L |- *; try (destruct L as [[A B]|[A B]]; congruence);
  first [left; split; [split; discriminate|reflexivity]|right; split; [split; discriminate|reflexivity]].
Qed.
Lemma upper_char : forall c, letter c -> upper_form c (to_char (Z.land (schar c) 223)).
Proof.
  intros c L. unfold upper_form, letter, upper_letter, lower_letter in *.
  destruct c as [[] [] [] [] [] [] [] []]; vm_compute in L |- *; try (destruct L as [[A B]|[A B]]; congruence);
  first [left; split; [split; discriminate|reflexivity]|right; split; [split; discriminate|reflexivity]].
Qed.
Lemma lower_idem_char : forall c, to_char (Z.lor (schar (to_char (Z.lor (schar c) 32))) 32) = to_char (Z.lor (schar c) 32).
Proof. destruct c as [[] [] [] [] [] [] [] []]; reflexivity. Qed.
Lemma upper_idem_char : forall c, to_char (Z.land (schar (to_char (Z.land (schar c) 223))) 223) = to_char (Z.land (schar c) 223).
Proof. destruct c as [[] [] [] [] [] [] [] []]; reflexivity. Qed.

Lemma forall2_map : forall (A B : Type) (P : A -> Prop) (R : A -> B -> Prop) f, (forall x, P x -> R x (f x)) -> forall l, Forall P l -> Forall2 R l (map f l).
Proof. intros A B P R f H l F. induction F; constructor; auto. Qed.

Lemma case_letters : forall s, Forall letter s -> Forall2 lower_form s (str_lower s) /\ Forall2 upper_form s (str_upper s).
Proof. intros s F. split; (eapply forall2_map; [|exact F]); [apply lower_char|apply upper_char]. Qed.

Lemma case_idem : forall s, str_lower (str_lower s) = str_lower s /\ str_upper (str_upper s) = str_upper s.
Proof.
  intros s. unfold str_lower, str_upper. rewrite !map_map. split; apply map_ext; [apply lower_idem_char|apply upper_idem_char].
Qed.

(** Exactly which bytes change, and into what: bit 5 is set, or cleared. *)
Lemma lower_bytes : forall s, Forall2 (fun c d => byte d = if Z.testbit (byte c) 5 then byte c else byte c + 32) s (str_lower s).
Proof.
  intros s. apply (forall2_map _ _ (fun _ => True)); [|apply Forall_forall; auto]. intros c _.
  destruct c as [[] [] [] [] [] [] [] []]; reflexivity.
Qed.
Lemma upper_bytes : forall s, Forall2 (fun c d => byte d = if Z.testbit (byte c) 5 then byte c - 32 else byte c) s (str_upper s).
Proof.
  intros s. apply (forall2_map _ _ (fun _ => True)); [|apply Forall_forall; auto]. intros c _.
  destruct c as [[] [] [] [] [] [] [] []]; reflexivity.
Qed.

Lemma case_others_witness : str_upper ["1"%char] = ["017"%char] /\ str_lower ["["%char] = ["{"%char] /\
  ~ letter "1"%char /\ ~ letter "["%char.
Proof. split; [reflexivity|]. split; [reflexivity|]. unfold letter, upper_letter, lower_letter. vm_compute. split; intros [[A B]|[A B]]; congruence. Qed.

(** ** strip *)

Lemma lead_split : forall f v, exists a b, v = a ++ b /\ lead f v = len a /\ Forall (fun c => f c = true) a /\
  (forall c b', b = c :: b' -> f c = false).
Proof.
  induction v as [|c v (a & b & -> & L & F & N)]; cbn [lead].
  - exists [], []. repeat split; auto. discriminate.
  - destruct (f c) eqn:E.
    + exists (c :: a), b. rewrite L, len_cons. repeat split; auto.
    + exists [], (c :: a ++ b). repeat split; auto. intros d b' X. injection X as <- _. auto.
Qed.

Lemma trail_split : forall f v, exists b a, v = b ++ a /\ trail f v (length v) = Ok (len b - 1) /\ Forall (fun c => f c = true) a /\
  (forall c b', b = b' ++ [c] -> f c = false).
Proof.
  intros f v. assert (forall n, (n <= length v)%nat -> exists b a, firstn n v = b ++ a /\ trail f v n = Ok (len b - 1) /\ Forall (fun c => f c = true) a /\
    (forall c b', b = b' ++ [c] -> f c = false)) as G.
  { induction n as [|n IH]; intros N; cbn [trail].
    - exists [], []. repeat split; auto. intros c [|]; discriminate.
    - destruct (nth_error v n) as [c|] eqn:E; [|apply nth_error_None in E; lia].
      unfold vat. destruct (Z.ltb_spec (Z.of_nat n) 0); [lia|]. rewrite Nat2Z.id, E. cbn [bind].
      assert (firstn (S n) v = firstn n v ++ [c]) as S1.
      { apply nth_error_split in E as (l1 & l2 & -> & <-). rewrite firstn_app, firstn_all2 by lia.
        replace (S (length l1) - length l1)%nat with 1%nat by lia. cbn [firstn]. rewrite firstn_app, firstn_all, Nat.sub_diag. cbn [firstn]. rewrite app_nil_r. auto. }
      destruct (f c) eqn:D.
      + destruct IH as (b & a & B & T & F & X); [lia|]. exists b, (a ++ [c]). rewrite S1, B, <- app_assoc. repeat split; auto.
        apply Forall_app. auto.
      + exists (firstn n v ++ [c]), []. rewrite app_nil_r. split; auto. split; [|split; auto].
        * f_equal. rewrite len_app, len_cons, len_nil. unfold len. rewrite firstn_length. lia.
        * intros d b' Y. apply app_inj_tail in Y as (_ & <-). auto. }
  destruct (G (length v)) as (b & a & B & R); auto. rewrite firstn_all in B. exists b, a. auto.
Qed.

Lemma strip_spec : forall s ch, len s <= INT_MAX -> exists r, str_strip s ch = Ok r /\ trimmed (fun c => stripped_char ch c = true) s r.
Proof.
  intros s ch LS. unfold str_strip. set (f := stripped_char ch). rewrite size_ok by auto. rewrite firstn_all2 by (unfold len in *; lia).
  destruct (lead_split f s) as (a & t & -> & L & F & N). rewrite len_app in LS. pose proof (len_nonneg _ a). pose proof (len_nonneg _ t).
  rewrite L. assert (verase (a ++ t) 0 (len a) = Ok t) as ->. { apply (verase_ok _ [] a t). } cbn [bind].
  assert ((if wrap32 (len t - 1) <? 0 then Ok (wrap32 (len t - 1)) else trail f t (Z.to_nat (wrap32 (len t - 1) + 1))) = trail f t (length t)) as ->.
  { rewrite wrap32_id by (unfold INT_MIN, INT_MAX in *; lia). destruct (Z.ltb_spec (len t - 1) 0) as [Q|Q].
    - destruct t; [reflexivity|]. rewrite len_cons in Q. pose proof (len_nonneg _ t). lia.
    - replace (len t - 1 + 1) with (len t) by lia. unfold len. rewrite Nat2Z.id. auto. }
  destruct (trail_split f t) as (r & b & -> & T & G & X). rewrite T. cbn [bind].
  replace (len r - 1 + 1) with (len r) by lia. rewrite erase_tail. exists r. split; auto.
  exists a, b. repeat split; auto.
  - intros c r' -> C. rewrite (N c (r' ++ b)) in C; auto. discriminate.
  - intros c r' -> C. rewrite (X c r') in C; auto. discriminate.
Qed.

Lemma trimmed_ext : forall (f g : ascii -> Prop) s r, (forall c, In c s -> f c <-> g c) -> trimmed f s r -> trimmed g s r.
Proof.
  intros f g s r E (a & b & -> & A & B & C & D). exists a, b. split; auto.
  assert (forall c, In c (a ++ r ++ b) -> f c -> g c) as FG by (intros c I; apply E; auto).
  split; [|split; [|split]].
  - rewrite Forall_forall in *. intros c I. apply FG; auto. apply in_or_app. auto.
  - rewrite Forall_forall in *. intros c I. apply FG; auto. apply in_or_app. right. apply in_or_app. auto.
  - intros c r' -> G. apply (C c r'); auto. apply E; auto. apply in_or_app. right. left. auto.
  - intros c r' -> G. apply (D c r'); auto. apply E; auto. apply in_or_app. right. apply in_or_app. left. apply in_or_app. right. left. auto.
Qed.

Lemma schar_byte : forall c, byte c < 128 -> schar c = byte c.
Proof. intros c H. unfold schar. change (code c) with (byte c). destruct (Z.ltb_spec (byte c) 128); auto; lia. Qed.

Lemma strip_char : forall s ch, len s <= INT_MAX -> Forall (fun c => byte c < 128) s -> 0 <= ch < 128 ->
  exists r, str_strip s ch = Ok r /\ trimmed (fun c => byte c = ch) s r.
Proof.
  intros s ch LS F C. destruct (strip_spec s ch LS) as (r & E & T). exists r. split; auto. eapply trimmed_ext; [|exact T].
  intros c I. rewrite Forall_forall in F. specialize (F c I). cbn beta. unfold stripped_char. destruct (Z.eqb_spec ch (-1)); [lia|].
  rewrite schar_byte by auto. apply Z.eqb_eq.
Qed.
Lemma strip_blank : forall s, len s <= INT_MAX -> Forall (fun c => byte c < 128) s ->
  exists r, str_strip s (-1) = Ok r /\ trimmed (fun c => byte c <= 32) s r.
Proof.
  intros s LS F. destruct (strip_spec s (-1) LS) as (r & E & T). exists r. split; auto. eapply trimmed_ext; [|exact T].
  intros c I. rewrite Forall_forall in F. specialize (F c I). cbn beta. unfold stripped_char. change (-1 =? -1) with true. cbv iota.
  rewrite schar_byte by auto. apply Z.leb_le.
Qed.
(** strip() on any bytes: those above 127 count as blanks. *)
Lemma byte_range : forall c, 0 <= byte c < 256.
Proof. intros c. destruct c as [[] [] [] [] [] [] [] []]; vm_compute; split; congruence. Qed.
Lemma strip_any : forall s, len s <= INT_MAX -> exists r, str_strip s (-1) = Ok r /\ trimmed (fun c => byte c <= 32 \/ 128 <= byte c) s r.
Proof.
  intros s LS. destruct (strip_spec s (-1) LS) as (r & E & T). exists r. split; auto. eapply trimmed_ext; [|exact T].
  intros c I. cbn beta. unfold stripped_char. change (-1 =? -1) with true. cbv iota.
  pose proof (byte_range c). unfold schar. change (code c) with (byte c). destruct (Z.ltb_spec (byte c) 128); rewrite Z.leb_le; lia.
Qed.

Lemma trimmed_unique : forall f s r r', (forall c, f c \/ ~ f c) -> trimmed f s r -> trimmed f s r' -> r = r'.
Proof.
  assert (forall f (s a t a' t' : str), s = a ++ t -> s = a' ++ t' -> Forall f a -> Forall f a' ->
    (forall c r, t = c :: r -> ~ f c) -> (forall c r, t' = c :: r -> ~ f c) -> t = t') as K.
  { intros f s a. revert s. induction a as [|x a IH]; intros s t a' t' -> E A A' T T'.
    - destruct a' as [|y a']; auto. cbn [app] in E. inversion A'; subst. exfalso. eapply T; [reflexivity|]; auto.
    - destruct a' as [|y a']; cbn [app] in E.
      + inversion A; subst. exfalso. eapply T'; [reflexivity|]; auto.
      + injection E as <- E. inversion A; inversion A'; subst. eapply (IH (a ++ t)); eauto. }
  intros f s r r' D (a & b & E & A & B & C1 & C2) (a' & b' & E' & A' & B' & C1' & C2').
  (* drop the front: compare r ++ b with r' ++ b' after the f-prefix *)
  destruct r as [|c r].
  - (* everything is f *)
    destruct r' as [|c' r']; auto. exfalso. apply (C1' c' r'); auto.
    assert (Forall f s) as F. { rewrite E. cbn [app]. apply Forall_app. auto. }
    rewrite E' in F. apply Forall_app in F as (_ & F). inversion F. auto.
  - destruct r' as [|c' r'].
    + exfalso. apply (C1 c r); auto. assert (Forall f s) as F. { rewrite E'. cbn [app]. apply Forall_app. auto. }
      rewrite E in F. apply Forall_app in F as (_ & F). inversion F. auto.
    + assert ((c :: r) ++ b = (c' :: r') ++ b') as G.
      { eapply (K f s a _ a'); eauto; intros x y Z; injection Z as <- _; eauto. }
      apply (f_equal (@rev ascii)) in G. rewrite !rev_app_distr in G.
      assert (rev (c :: r) = rev (c' :: r')) as R.
      { eapply (K f _ (rev b) _ (rev b')); [reflexivity|exact G| | | |].
        - apply Forall_rev; auto.
        - apply Forall_rev; auto.
        - intros x y Z. apply (C2 x (rev y)). rewrite <- (rev_involutive (c :: r)), Z. auto.
        - intros x y Z. apply (C2' x (rev y)). rewrite <- (rev_involutive (c' :: r')), Z. auto. }
      apply (f_equal (@rev ascii)) in R. rewrite !rev_involutive in R. auto.
Qed.

(** ** Prefixes and suffixes *)

Lemma starts_spec : forall s p, str_starts_with s p = true <-> exists b, s = p ++ b.
Proof. intros s p. apply prefixb_spec. Qed.
Lemma ends_spec : forall s p, str_ends_with s p = true <-> exists a, s = a ++ p.
Proof.
  intros s p. unfold str_ends_with, ends_with. rewrite andb_true_iff, Z.leb_le. split.
  - intros (L & P). apply prefixb_spec in P as (b & P). 
    assert (length (skipn (length s - length p) s) = length (p ++ b)) as K by congruence.
    rewrite skipn_length, app_length in K. unfold len in L. assert (b = []) as -> by (apply length_zero_iff_nil; lia).
    rewrite app_nil_r in P. exists (firstn (length s - length p) s). rewrite <- P at 2. symmetry. apply firstn_skipn.
  - intros (a & ->). rewrite len_app. split; [pose proof (len_nonneg _ a); lia|]. apply prefixb_spec. exists [].
    rewrite app_nil_r, app_length. replace (length a + length p - length p)%nat with (length a) by lia.
    rewrite skipn_app, skipn_all, Nat.sub_diag. reflexivity.
Qed.

(** ** format *)

Lemma find_char_some : forall v c i, find_char v c = Some i -> exists a b, v = a ++ c :: b /\ length a = i /\ ~ In c a.
Proof.
  induction v as [|d v IH]; intros c i; cbn [find_char]; [discriminate|]. destruct (Ascii.eqb_spec d c) as [->|N].
  - intros X; injection X as <-. exists [], v. auto.
  - destruct (find_char v c) as [j|] eqn:E; [|discriminate]. intros X; injection X as <-. destruct (IH _ _ E) as (a & b & -> & L & I).
    exists (d :: a), b. split; auto. split; [cbn [length]; lia|]. intros [J|J]; auto.
Qed.
Lemma find_char_none : forall v c, find_char v c = None -> ~ In c v.
Proof.
  induction v as [|d v IH]; intros c; cbn [find_char]; auto. destruct (Ascii.eqb_spec d c) as [->|N]; [discriminate|].
  destruct (find_char v c) eqn:E; [discriminate|]. intros _ [J|J]; [auto|exact (IH _ E J)].
Qed.

Lemma format_helper_spec : forall oss view value,
  (exists a b, placeholder view a b /\ format_helper oss view value = (oss ++ a ++ value, b)) \/
  ((forall a b, ~ placeholder view a b) /\ format_helper oss view value = (oss, view)).
Proof.
  intros oss view value. unfold format_helper. destruct (find_char view "{") as [i|] eqn:O.
  - apply find_char_some in O as (a & t & -> & <- & A). unfold find_char_from.
    assert (skipn (S (length a)) (a ++ "{"%char :: t) = t) as K.
    { change (a ++ "{"%char :: t) with (a ++ ["{"%char] ++ t). rewrite app_assoc. rewrite skipn_app, skipn_all2 by (rewrite app_length; cbn [length]; lia).
      rewrite app_length. cbn [length]. replace (S (length a) - (length a + 1))%nat with O by lia. reflexivity. }
    rewrite K. destruct (find_char t "}") as [j|] eqn:C; cbn [option_map].
    + left. apply find_char_some in C as (m & b & -> & <- & M). exists a, b. split; [exists m; auto|].
      f_equal.
      * f_equal. rewrite firstn_app, firstn_all, Nat.sub_diag. cbn [firstn]. rewrite app_nil_r. auto.
      * change (a ++ "{"%char :: m ++ "}"%char :: b) with (a ++ ["{"%char] ++ m ++ ["}"%char] ++ b). rewrite !app_assoc.
        rewrite skipn_app, skipn_all2 by (rewrite !app_length; cbn [length]; lia). rewrite !app_length. cbn [length].
        replace (S (S (length a) + length m) - (length a + 1 + length m + 1))%nat with O by lia. reflexivity.
    + right. split; auto. apply find_char_none in C. intros a' b (m & E & A' & M).
      assert (a' = a) as ->.
      { clear - E A A'. revert a' E A'. induction a as [|x a IH]; intros [|y a'] E A'; auto; cbn [app] in E.
        - injection E as E1 _. exfalso. apply A'. left. auto.
        - injection E as E1 _. exfalso. apply A. left. auto.
        - injection E as -> E. f_equal. apply IH; auto; intros J; [apply A|apply A']; right; auto. }
      apply app_inv_head in E. injection E as ->. apply C. apply in_or_app. right. left. auto.
  - right. split.
    + apply find_char_none in O. intros a b (m & -> & _). apply O. apply in_or_app. right. left. auto.
    + destruct (find_char_from view "}" 0); auto.
Qed.

Lemma format_args_spec : forall args oss view, exists out v, format_args oss view args = (oss ++ out, v) /\ formatted view args (out ++ v).
Proof.
  induction args as [|x args IH]; intros oss view; cbn [format_args].
  - exists [], view. rewrite app_nil_r. split; auto. constructor.
  - destruct (format_helper_spec oss view x) as [(a & b & P & ->)|(N & ->)].
    + destruct (IH (oss ++ a ++ x) b) as (out & v & -> & F). exists (a ++ x ++ out), v. rewrite <- !app_assoc. split; auto.
      econstructor; eauto.
    + destruct (IH oss view) as (out & v & -> & F). exists out, v. split; auto.
      assert (out ++ v = view) as ->. { clear - F N. remember view as w. destruct F; auto. exfalso. eapply N; eauto. }
      apply fmt_none. auto.
Qed.

Lemma format_spec : forall s args, formatted s args (str_format s args).
Proof.
  intros s args. unfold str_format. destruct (format_args_spec args [] s) as (out & v & -> & F). exact F.
Qed.

Lemma split_at_char : forall c (a b a' b' : str), a ++ c :: b = a' ++ c :: b' -> ~ In c a -> ~ In c a' -> a = a' /\ b = b'.
Proof.
  intros c. induction a as [|x a IH]; intros b [|y a'] b' E A A'; cbn [app] in E.
  - injection E as ->. auto.
  - injection E as E1 _. exfalso. apply A'. left. auto.
  - injection E as E1 _. exfalso. apply A. left. auto.
  - injection E as -> E. destruct (IH b a' b' E) as (-> & ->); auto; intros J; [apply A|apply A']; right; auto.
Qed.

Lemma placeholder_unique : forall s a b a' b', placeholder s a b -> placeholder s a' b' -> a = a' /\ b = b'.
Proof.
  intros s a b a' b' (m & -> & A & M) (m' & E & A' & M'). apply split_at_char in E as (-> & E); auto.
  apply split_at_char in E as (-> & ->); auto.
Qed.

Lemma formatted_unique : forall s args out out', formatted s args out -> formatted s args out' -> out = out'.
Proof.
  intros s args out out' F. revert out'. induction F as [s|s args N|s a b x args out P F IH]; intros out' G.
  - inversion G; auto.
  - inversion G; subst; auto. exfalso. eapply N; eauto.
  - inversion G as [|? ? N|? a' b' ? ? o P' G']; subst.
    + exfalso. eapply N; eauto.
    + destruct (placeholder_unique _ _ _ _ _ P P') as (<- & <-). f_equal. f_equal. auto.
Qed.

(** ** Streams *)

Definition newline : ascii := "010"%char.

Lemma take_line_ok : forall l b, ~ In newline l -> take_line (l ++ newline :: b) = (l, Some b).
Proof.
  induction l as [|c l IH]; intros b N; cbn [app take_line]; auto.
  destruct (Ascii.eqb_spec c newline) as [->|]; [exfalso; apply N; left; auto|].
  unfold newline in *. destruct (Ascii.eqb_spec c "010"); [contradiction|]. rewrite IH; auto. intros J. apply N. right. auto.
Qed.
Lemma take_line_end : forall l, ~ In newline l -> take_line l = (l, None).
Proof.
  induction l as [|c l IH]; intros N; cbn [take_line]; auto.
  unfold newline in *. destruct (Ascii.eqb_spec c "010") as [->|]; [exfalso; apply N; left; auto|]. rewrite IH; auto. intros J. apply N. right. auto.
Qed.

Lemma extract_line : forall l rest old, ~ In newline l ->
  str_extract ConstBenign (IStream (l ++ newline :: rest) false false) old = Ok (IStream rest false false, l).
Proof. intros l rest old N. unfold str_extract, getline. cbn [good eofbit failbit negb andb buf const_write]. rewrite take_line_ok; auto. Qed.

Lemma extract_last : forall l old, ~ In newline l -> l <> [] ->
  str_extract ConstBenign (IStream l false false) old = Ok (IStream [] true false, l).
Proof.
  intros l old N E. unfold str_extract, getline. cbn [good eofbit failbit negb andb buf const_write]. rewrite take_line_end; auto. destruct l; [contradiction|auto].
Qed.
Lemma extract_end : forall old, str_extract ConstBenign (IStream [] false false) old = Ok (IStream [] true true, []).
Proof. reflexivity. Qed.

Lemma extract_lines_ok : forall ls, Forall (fun l => ~ In newline l) ls ->
  extract_lines ConstBenign (length ls) (IStream (concat (map (fun l => l ++ [newline]) ls)) false false) = Ok (ls, IStream [] false false).
Proof.
  intros ls F. induction F as [|l ls N F IH]; auto. cbn [length map concat extract_lines]. rewrite <- app_assoc. cbn [app].
  rewrite extract_line by auto. cbn [bind fst snd]. rewrite IH. reflexivity.
Qed.

Lemma extract_not_good : forall p is old, good is = false -> str_extract p is old = Ok (set_fail is, old).
Proof. intros p is old G. unfold str_extract, getline. rewrite G. reflexivity. Qed.
Lemma extract_const : forall is old, good is = true -> str_extract ConstUB is old = UB ConstWrite.
Proof. intros is old G. unfold str_extract. rewrite G. reflexivity. Qed.

(** ** Order, equality, hash *)

Lemma byte_inj : forall a b, byte a = byte b -> a = b.
Proof.
  intros a b H. unfold byte in H. apply N2Z.inj in H. rewrite <- (ascii_N_embedding a), <- (ascii_N_embedding b), H. auto.
Qed.
Lemma byte_total : total_order byte_cmp byte_lt.
Proof.
  split; [|split].
  - intros a b. unfold byte_cmp, byte_lt. change (code a) with (byte a). change (code b) with (byte b).
    destruct (Z.compare_spec (byte a) (byte b)); constructor; auto. apply byte_inj. auto.
  - intros a. unfold byte_lt. lia.
  - intros a b c. unfold byte_lt. lia.
Qed.
Lemma str_order : total_order str_cmp (lex_lt byte_lt).
Proof. apply list_total_order, byte_total. Qed.
Lemma str_eqb_spec : decides str_eqb.
Proof. apply eqb_spec. intros a b. apply Ascii.eqb_eq. Qed.
