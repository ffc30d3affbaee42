(** to_integer() on strings of INT_MAX characters, and which arguments List and Str accept where Python accepts all. *)
From Coq Require Import ZArith Ascii List Bool Lia.
From Verif Require Import Outcome IntModel IntSpec IntBase ListModel ListSpec ListFacts ListMore StrModel StrSpec StrFacts StrMore StrNum.
Import ListNotations.
Open Scope Z_scope.

(** The loop for any size, compared with the loop for size 0: they part when the loop is left. *)
Lemma loop_size : forall p base n cs st nn x, st <> S_OTHER ->
  integer_loop p base n cs st nn x =
  match integer_loop p base 0 cs st nn x with
  | Ok (S_OTHER, nn', x') => st <- leave_loop n ;; Ok (st, nn', x')
  | o => o
  end.
Proof.
  intros p base n cs. induction cs as [|c cs IH]; intros st nn x O; cbn [integer_loop]; [destruct st; auto; contradiction|].
  destruct (get_event c base) as [ev| | |]; cbn [bind]; auto.
  destruct (int_of_int base) as [b| | |]; cbn [bind]; [destruct (int_mul p x b) as [m| | |]; cbn [bind]; [destruct (char_to_integer c base) as [d| | |]; cbn [bind];
    [destruct (int_of_int d) as [e| | |]; cbn [bind]; [destruct (int_add p m e) as [y| | |]; cbn [bind]|..]|..]|..]|..];
  destruct st; try contradiction; destruct ev; auto; apply IH; discriminate.
Qed.

Lemma loop_app : forall p base cs t st nn x, st <> S_OTHER ->
  integer_loop p base 0 (cs ++ t) st nn x =
  match integer_loop p base 0 cs st nn x with
  | Ok (S_OTHER, nn', x') => Ok (S_OTHER, nn', x')
  | Ok (st', nn', x') => integer_loop p base 0 t st' nn' x'
  | o => o
  end.
Proof.
  intros p base cs t. induction cs as [|c cs IH]; intros st nn x O; cbn [integer_loop app]; [destruct st; auto; contradiction|].
  destruct (get_event c base) as [ev| | |]; cbn [bind]; auto.
  destruct (int_of_int base) as [b| | |]; cbn [bind]; [destruct (int_mul p x b) as [m| | |]; cbn [bind]; [destruct (char_to_integer c base) as [d| | |]; cbn [bind];
    [destruct (int_of_int d) as [e| | |]; cbn [bind]; [destruct (int_add p m e) as [y| | |]; cbn [bind]|..]|..]|..]|..];
  destruct st; try contradiction; destruct ev; auto; apply IH; discriminate.
Qed.

Lemma zero_digit : forall base, 0 < base -> digits_text base ["0"%char] [0].
Proof. intros base B. constructor; [|constructor]. split; [lia|left; cbn; lia]. Qed.

(** Whether more text can make a literal of it. *)
Lemma loop_prefix : forall p base s, 2 <= base <= 36 ->
  exists st nn x, integer_loop p base 0 s S_START true (MkInt 0 []) = Ok (st, nn, x) /\ int_inv base st s nn x /\
    (st = S_OTHER <-> forall t z, ~ int_literal base (s ++ t) z).
Proof.
  intros p base s B.
  destruct (integer_loop_sound p base 0 s S_START [] true (MkInt 0 []) B) as (st & nn & x & E & I);
    [unfold INT_MAX; lia|split; auto; split; auto; apply repr_zero|discriminate|].
  exists st, nn, x. split; auto. split; auto. split.
  - intros -> t z L. destruct (to_integer_ok p base _ z B L) as (y & Y & _). revert Y. unfold str_to_integer.
    destruct (Z.ltb_spec base 2); [lia|]. destruct (Z.ltb_spec 36 base); [lia|]. cbn [orb].
    rewrite loop_size by discriminate. rewrite loop_app by discriminate. rewrite E. unfold leave_loop.
    destruct (chk32 (size (s ++ t) + 1)); cbn [bind]; discriminate.
  - intros N. cbn [app] in I. destruct st; auto; exfalso; cbn [int_inv] in I; try contradiction.
    + destruct I as (I1 & _). apply (N ["0"%char] 0). exists s, [], ["0"%char], [], false, [0].
      pose proof (zero_digit base ltac:(lia)). refine (conj _ (conj _ (conj _ (conj _ (conj _ (conj _ _)))))); auto; [cbn; auto..|discriminate].
    + destruct I as (b1 & sg & -> & I1 & I2 & _). apply (N ["0"%char] (if negb nn then -0 else 0)). exists b1, sg, ["0"%char], [], (negb nn), [0].
      rewrite <- app_assoc. pose proof (zero_digit base ltac:(lia)). refine (conj _ (conj _ (conj _ (conj _ (conj _ (conj _ _)))))); auto; [cbn; auto..|discriminate].
    + destruct I as (b1 & sg & t & ds & -> & I1 & I2 & I3 & I4 & I5). eapply (N []). exists b1, sg, t, [], (negb nn), ds. rewrite !app_nil_r. repeat split; eauto.
    + destruct I as (b1 & sg & t & ds & b2 & -> & I1 & I2 & I3 & I4 & I5 & I6). eapply (N []). exists b1, sg, t, b2, (negb nn), ds. rewrite app_nil_r. repeat split; eauto.
Qed.

Lemma to_integer_full_exact : forall p base s, 2 <= base <= 36 -> len s = INT_MAX ->
  (str_to_integer p s base = UB SignedOverflow <-> forall t z, ~ int_literal base (s ++ t) z) /\
  (forall z, int_literal base s z -> returns (str_to_integer p s base) z) /\
  ((forall z, ~ int_literal base s z) -> (exists t z, int_literal base (s ++ t) z) -> str_to_integer p s base = Throw BadIntegerLiteral).
Proof.
  intros p base s B L. destruct (loop_prefix p base s B) as (st & nn & x & E & I & O).
  assert (S: str_to_integer p s base = match st with S_INT | S_END => Ok (if nn then x else int_neg x) | S_OTHER => UB SignedOverflow | _ => Throw BadIntegerLiteral end).
  { unfold str_to_integer. destruct (Z.ltb_spec base 2); [lia|]. destruct (Z.ltb_spec 36 base); [lia|]. cbn [orb].
    rewrite loop_size by discriminate. rewrite E. destruct st; auto. unfold leave_loop. rewrite size_ok by lia. rewrite chk32_ub by lia. auto. }
  split; [|split; [intros z; apply to_integer_ok; auto|]].
  - rewrite <- O, S. split; [intros H|intros ->; auto]. destruct st; auto; discriminate.
  - intros N (t & z & T). rewrite S. destruct st; auto; exfalso.
    + destruct I as (b1 & sg & u & ds & -> & I1 & I2 & I3 & I4 & I5). eapply N. exists b1, sg, u, [], (negb nn), ds. rewrite app_nil_r. repeat split; eauto.
    + destruct I as (b1 & sg & u & ds & b2 & -> & I1 & I2 & I3 & I4 & I5 & I6). eapply N. exists b1, sg, u, b2, (negb nn), ds. repeat split; eauto.
    + apply (proj1 O eq_refl t z T).
Qed.

(** ** Accepted arguments *)

Lemma list_accepts : forall T (l : list T), len l < INT_MAX ->
  (forall i x, (exists l', list_insert i x l = (Ok tt, l')) <-> - len l <= i <= len l) /\
  (forall start stop step, (exists r, list_slice l start stop step = Ok r) <->
     step <> 0 /\ - len l <= start < len l /\ - len l - 1 <= stop <= len l /\ slice_fits (from_back (len l) start) (from_back (len l) stop) step) /\
  (forall start stop, (exists l', list_erase start stop l = (Ok tt, l')) <-> 0 <= start <= stop /\ stop <= len l) /\
  (forall d n, (exists r, list_times d l n = Ok r) <-> 0 <= n /\ len l * n < INT_MAX) /\
  (forall eqb x start stop, (exists r, list_index eqb l x start stop = Ok r) <-> 0 <= start <= Z.min stop (len l)).
Proof.
  intros T l L. split; [|split; [|split; [|split]]].
  - intros i x. destruct (insert_spec T l i x) as (_ & A & B); [lia|]. split.
    + intros (l' & H). destruct (Z_le_dec (- len l) i); [|rewrite A in H by lia; discriminate]. destruct (Z_le_dec i (len l)); [lia|rewrite A in H by lia; discriminate].
    + intros R. eexists. apply (B L R (firstn (Z.to_nat (from_back (len l) i)) l) (skipn (Z.to_nat (from_back (len l) i)) l)).
      split; [symmetry; apply firstn_skipn|]. unfold len in *. rewrite firstn_length. unfold from_back. destruct (Z.ltb_spec i 0); lia.
  - intros a b s. destruct (slice_spec T l a b s L) as (A & B & C). split.
    + intros (r & H). assert (s <> 0) as S by (intros ->; rewrite A in H by auto; discriminate).
      assert (R: - len l <= a < len l /\ - len l - 1 <= b <= len l).
      { destruct (Z_le_dec (- len l) a); [destruct (Z_lt_dec a (len l)); [destruct (Z_le_dec (- len l - 1) b); [destruct (Z_le_dec b (len l)); [lia|]|]|]|];
        rewrite B in H by lia; discriminate. }
      destruct (C S (proj1 R) (proj2 R)) as [(F & _)|(_ & U)]; [tauto|congruence].
    + intros (S & R1 & R2 & F). destruct (C S R1 R2) as [(_ & r & E & _)|(N & _)]; [eauto|contradiction].
  - intros a b. destruct (erase_spec T l a b L) as (A & B & C). split.
    + intros (l' & H). destruct (Z_le_dec 0 a); [destruct (Z_le_dec a (len l)); [destruct (Z_le_dec 0 b); [destruct (Z_le_dec b (len l)); [|rewrite A in H by lia; discriminate]|rewrite A in H by lia; discriminate]|rewrite A in H by lia; discriminate]|rewrite A in H by lia; discriminate].
      destruct (Z_lt_dec b a); [rewrite B in H by lia; discriminate|lia].
    + intros (R1 & R2). destruct (erase_cut T l a b R1 R2) as (x & m & y & E1 & E2 & E3). eexists. apply (C x m y); auto.
  - intros d n. destruct (times_spec T d l n) as (A & B & C & D); [lia|]. split.
    + intros (r & H). destruct (Z_lt_dec n 0); [rewrite A in H by lia; discriminate|]. destruct (Z_lt_dec (len l * n) INT_MAX); [lia|].
      destruct (Z.eq_dec (len l * n) INT_MAX); [rewrite C in H by lia; discriminate|rewrite D in H by lia; discriminate].
    + intros (R1 & R2). eauto.
  - intros eqb x a b. destruct (index_spec T eqb l x a b) as (A & B); [lia|]. split.
    + intros (r & H). destruct (Z_le_dec 0 a); [destruct (Z_le_dec a (Z.min b (len l))); [lia|]|]; rewrite B in H by lia; discriminate.
    + intros R. destruct (A R) as (r & E & _). eauto.
Qed.

Lemma str_accepts : forall s : str, len s < INT_MAX ->
  (forall start stop step, (exists r, str_slice s start stop step = Ok r) <->
     step <> 0 /\ - len s <= start < len s /\ - len s - 1 <= stop <= len s /\ slice_fits (from_back (len s) start) (from_back (len s) stop) step) /\
  (forall start stop, (exists r, str_erase s start stop = Ok r) <-> 0 <= start <= stop /\ stop <= len s) /\
  (forall n, (exists r, str_times s n = Ok r) <-> 0 <= n /\ len s * n <= INT_MAX) /\
  (forall p start stop, (exists r, str_find s p start stop = Ok r) <-> len s < start \/ 0 <= start <= stop).
Proof.
  intros s L. split; [|split; [|split]].
  - exact (proj1 (proj2 (list_accepts _ s L))).
  - intros a b. destruct (str_erase_spec s a b L) as (A & B & C). split.
    + intros (l' & H). destruct (Z_le_dec 0 a); [destruct (Z_le_dec a (len s)); [destruct (Z_le_dec 0 b); [destruct (Z_le_dec b (len s)); [|rewrite A in H by lia; discriminate]|rewrite A in H by lia; discriminate]|rewrite A in H by lia; discriminate]|rewrite A in H by lia; discriminate].
      destruct (Z_lt_dec b a); [rewrite C in H by lia; discriminate|lia].
    + intros (R1 & R2). destruct (B R1 R2) as (x & m & y & E1 & E2 & E3 & E4). eauto.
  - intros n. destruct (str_times_spec s n) as (A & B & D); [lia|]. split.
    + intros (r & H). destruct (Z_lt_dec n 0); [rewrite A in H by lia; discriminate|]. destruct (Z_le_dec (len s * n) INT_MAX); [lia|].
      rewrite D in H by lia; discriminate.
    + intros (R1 & R2). eauto.
  - intros p a b. split.
    + intros (r & H). destruct (Z_lt_dec (len s) a); [auto|]. right. destruct (Z_lt_dec a 0); [|destruct (Z_lt_dec b a); [|lia]];
        (destruct (find_undefined s p a b) as (u & U); [lia|lia|lia|congruence]).
    + intros [R|R]; [eexists; apply find_beyond; lia|]. destruct (Z_lt_dec (len s) a); [eexists; apply find_beyond; lia|].
      destruct (find_spec s p a b) as (r & E & _); [lia|lia|eauto].
Qed.

(** To read off from a run that no literal begins like this. *)
Lemma loop_example : forall p base s, 2 <= base <= 36 -> forall st nn x, integer_loop p base 0 s S_START true (MkInt 0 []) = Ok (st, nn, x) ->
  st = S_OTHER -> forall t z, ~ int_literal base (s ++ t) z.
Proof. intros p base s B st nn x E. destruct (loop_prefix p base s B) as (st' & nn' & x' & E' & _ & O). rewrite E in E'. injection E' as -> _ _. apply O. Qed.
