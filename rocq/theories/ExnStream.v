(** Extractions from streams with exceptions. *)
From Coq Require Import ZArith QArith List Bool Ascii Lia.
From Verif Require Import Outcome IntModel IntSpec IntBase IntIO StreamModel IntStream FloatModel Show ShowFacts FracModel FracSpec FracFacts FracGcd FracIO FracMore
  ComplexModel ComplexSpec ComplexIO StrModel ExnStreamModel ExnStreamSpec ExnStreamFacts.
Import ListNotations.
Open Scope Z_scope.

Lemma reported_hot : forall m s, reported m s <-> hot m s = true.
Proof.
  intros m s. unfold reported, hot. rewrite orb_true_iff, !andb_true_iff. tauto.
Qed.
Lemma agree_masked : forall B m (old : B) p x, agree m old p x -> masked m old p x.
Proof.
  intros B m old [o [s' y]] x H. unfold agree in H. unfold masked. cbn [fst snd]. rewrite reported_hot. destruct (hot m s').
  - split; [congruence|]. intros _. destruct H as (s & -> & K). exists s. split; [auto|]. apply reported_hot; auto.
  - split; [auto|congruence].
Qed.

Theorem int_masked : forall m s x, masked m x (int_extract s x) (int_xextract m s x).
Proof. intros. apply agree_masked, int_agrees. Qed.
Theorem frac_masked : forall m fuel s f, fst (frac_extract fuel s f) <> OutOfFuel -> masked m f (frac_extract fuel s f) (frac_xextract m fuel s f).
Proof. intros. apply agree_masked, frac_agrees; auto. Qed.
Theorem cx_masked : forall m strtod fuel s z, fst (cx_extract strtod fuel s z) <> OutOfFuel ->
  masked m z (cx_extract strtod fuel s z) (cx_xextract m strtod fuel s z).
Proof. intros. apply agree_masked, cx_agrees; auto. Qed.
Theorem str_masked : forall m s old, exists s' t, str_extract ConstBenign s old = Ok (s', t) /\
  (~ reported m s' -> str_xextract m ConstBenign s old = (Ends (Ok tt), (s', t))) /\
  (reported m s' -> str_xextract m ConstBenign s old = (Failure, (s', t))).
Proof.
  intros m s old. unfold str_xextract, str_extract. destruct (getline s old) as [s' t] eqn:E. exists s', t.
  assert (R: (if negb (good s) then Ok (s', t) else const_write ConstBenign (s', t)) = Ok (s', t)) by (destruct (negb (good s)); reflexivity).
  rewrite R. split; [auto|]. rewrite reported_hot. destruct (hot m s'); split; intros; congruence.
Qed.

(** ** When a call ends *)
Lemma skip_nothing : forall B m (old : B) k s, nothing s -> ~ unending m s ->
  exists n s', hot m s' = true /\ forall fuel, (n <= fuel)%nat -> x_skip m old fuel s k = (Failure, (s', old)).
Proof.
  intros B m old k s N U. destruct (good s) eqn:G.
  - destruct s as [b [] []]; try discriminate. destruct N as [N|[N|N]]; try discriminate. cbn [buf] in N.
    assert (MK: on_fail m = true \/ on_eof m = true).
    { destruct m as [e f]. cbn [on_fail on_eof] in *. destruct f; auto. destruct e; auto. exfalso. apply U. unfold unending, nothing. cbn [on_fail on_eof buf]. split; [auto|]. split; [auto|discriminate]. }
    clear U G. induction N as [|c b C N IH].
    + destruct m as [[] f]; cbn [on_fail on_eof] in *.
      * exists 1%nat, (IStream [] true false). split; [reflexivity|]. intros [|fuel] L; [lia|]. reflexivity.
      * destruct f; [|destruct MK; discriminate]. exists 1%nat, (IStream [] true true). split; [reflexivity|]. intros [|fuel] L; [lia|]. reflexivity.
    + destruct IH as (n & s' & H & IH). exists (S n), s'. split; [auto|]. intros [|fuel] L; [lia|]. cbn [x_skip]. rewrite guard_peek.
      unfold blank in C. destruct (Z.leb_spec (code c) 32); [|lia]. unfold guarded, ignore. cbn [good eofbit failbit negb andb buf]. rewrite hot_good. apply IH. lia.
  - exists 1%nat, (set_fail s).
    assert (H: hot m (set_fail s) = true).
    { destruct s as [b e f], m as [me mf]. unfold unending, nothing in U. cbn in *. destruct mf; [apply orb_true_r|]. destruct me, e, f; cbn in *; try reflexivity; try discriminate; exfalso; apply U; repeat split; auto; discriminate. }
    split; [auto|]. intros [|fuel] L; [lia|]. cbn [x_skip]. unfold peek. rewrite G. cbn [negb]. unfold guarded. rewrite H. reflexivity.
Qed.
Lemma skip_unending : forall B m (old : B) k fuel s, unending m s -> fst (x_skip m old fuel s k) = Ends OutOfFuel.
Proof.
  intros B m old k. induction fuel as [|fuel IH]; intros s U; [reflexivity|]. destruct m as [me mf]. pose proof U as (N & F & O). cbn [on_fail on_eof] in *. subst mf. cbn [x_skip].
  destruct (good s) eqn:G.
  - destruct s as [b [] []]; try discriminate. cbn in O. destruct me; [destruct (O eq_refl); discriminate|]. clear O. destruct N as [N|[N|N]]; try discriminate. cbn [buf] in N.
    destruct b as [|c b].
    + cbn. apply IH. unfold unending, nothing. cbn. split; [auto|]. split; [auto|discriminate].
    + inversion N; subst. rewrite guard_peek. unfold blank in H1. destruct (Z.leb_spec (code c) 32); [|lia]. unfold guarded, ignore. cbn [good eofbit failbit negb andb buf]. rewrite hot_good.
      apply IH. unfold unending, nothing. cbn. split; [auto|]. split; [auto|discriminate].
  - unfold peek. rewrite G. cbn [negb].
    assert (H: hot (Mask me false) (set_fail s) = false).
    { unfold hot. cbn. rewrite orb_false_r. destruct me; [|reflexivity]. destruct (O eq_refl) as (-> & _). reflexivity. }
    assert (G': good (set_fail s) = false) by (unfold good; cbn; apply andb_false_r).
    unfold guarded. rewrite H. change (-1 <=? 32) with true. cbv iota.
    assert (I: ignore (set_fail s) = set_fail s) by (unfold ignore; rewrite G'; reflexivity). rewrite I, H. apply IH.
    unfold unending, nothing. cbn. split; [auto|]. split; [auto|]. intros E. destruct (O E). auto.
Qed.
Lemma nothing_dec : forall s, nothing s \/ (good s = true /\ exists ws c rest, buf s = ws ++ c :: rest /\ Forall blank ws /\ 32 < code c).
Proof.
  intros [b [] []]; unfold nothing; cbn; auto. destruct (blank_split b) as [B|B]; auto.
Qed.

Section Ends.
Variable B : Type.
Variable plain : nat -> istream -> B -> outcome unit * (istream * B).
Variable m : mask.
Variable old : B.
Variable x : nat -> istream -> left_behind B.
Variable k : istream -> left_behind B.
Hypothesis X : forall fuel s, x fuel s = x_skip m old fuel s k.
Hypothesis T : forall s, good s = true -> (exists c, In c (buf s) /\ 32 < code c) ->
  exists o, fst o <> OutOfFuel /\ exists n, forall fuel, (n <= fuel)%nat -> plain fuel s old = o.
Hypothesis A : forall fuel s, fst (plain fuel s old) <> OutOfFuel -> agree m old (plain fuel s old) (x fuel s).

Lemma ends_exact : forall s,
  ((forall fuel, fst (x fuel s) = Ends OutOfFuel) <-> unending m s) /\
  (~ unending m s -> exists n r, fst r <> Ends OutOfFuel /\ forall fuel, (n <= fuel)%nat -> x fuel s = r) /\
  (nothing s -> ~ unending m s -> exists n s', reported m s' /\ forall fuel, (n <= fuel)%nat -> x fuel s = (Failure, (s', old))).
Proof.
  intros s.
  assert (Q: nothing s -> ~ unending m s -> exists n s', reported m s' /\ forall fuel, (n <= fuel)%nat -> x fuel s = (Failure, (s', old))).
  { intros N U. destruct (skip_nothing B m old k s N U) as (n & s' & H & K). exists n, s'. split; [apply reported_hot; auto|]. intros. rewrite X. auto. }
  assert (P: ~ unending m s -> exists n r, fst r <> Ends OutOfFuel /\ forall fuel, (n <= fuel)%nat -> x fuel s = r).
  { intros U. destruct (nothing_dec s) as [N|(G & ws & c & rest & Eb & W & C)].
    - destruct (Q N U) as (n & s' & H & K). exists n, (Failure, (s', old)). split; [discriminate|auto].
    - destruct (T s G) as (o & O & n & K). { exists c. split; [rewrite Eb; apply in_or_app; right; left; auto|auto]. }
      assert (Z: exists r, x n s = r /\ fst r <> Ends OutOfFuel /\ forall fuel, (n <= fuel)%nat -> x fuel s = r).
      { destruct o as [o [s' y]]. cbn [fst] in O. destruct (hot m s') eqn:H.
        - (* the stream at which it stops does not depend on the fuel: the skipping is the same *)
          pose proof (A n s) as A1. rewrite (K n (le_n _)) in A1. specialize (A1 O). unfold agree in A1. rewrite H in A1. destruct A1 as (s'' & E & Hs).
          exists (Failure, (s'', old)). split; [auto|]. split; [discriminate|]. intros fuel L. rewrite X in *.
          destruct s as [b [] []]; try discriminate. cbn [buf] in Eb. subst b.
          destruct (le_lt_dec n (length ws)) as [F|F].
          + exfalso. clear -E F W Hs. revert n E F. induction W as [|a ws Ba W IH]; intros n E F; [destruct n; [discriminate|cbn in F; lia]|].
            destruct n as [|n]; [discriminate|]. cbn [x_skip app] in E. rewrite guard_peek in E. unfold blank in Ba. destruct (Z.leb_spec (code a) 32); [|lia].
            unfold guarded, ignore in E. cbn [good eofbit failbit negb andb buf] in E. rewrite hot_good in E. apply (IH n); auto. cbn in F. lia.
          + rewrite (skip_same _ _ _ _ _ _ _ (skip_ok ws c rest n W C F)) in E.
            rewrite (skip_same _ _ _ _ _ _ _ (skip_ok ws c rest fuel W C ltac:(lia))). exact E.
        - exists (Ends o, (s', y)). assert (L: forall fuel, (n <= fuel)%nat -> x fuel s = (Ends o, (s', y))).
          { intros fuel L. pose proof (A fuel s) as A1. rewrite (K fuel L) in A1. specialize (A1 O). unfold agree in A1. rewrite H in A1. auto. }
          split; [auto|]. split; [cbn; congruence|auto]. }
      destruct Z as (r & _ & R1 & R2). eauto. }
  split; [|split; auto]. split.
  - intros D. destruct (nothing_dec s) as [N|(G & R)].
    + assert (DC: unending m s \/ ~ unending m s).
      { unfold unending. destruct m as [me mf], s as [b e f]. cbn. destruct mf; [right; intros (_ & ? & _); discriminate|].
        destruct me; [|left; split; [auto|split; [auto|discriminate]]]. destruct e; [right; intros (_ & _ & H); destruct (H eq_refl); discriminate|].
        destruct f; [left; auto|right; intros (_ & _ & H); destruct (H eq_refl); discriminate]. }
      destruct DC as [U|U]; [auto|]. destruct (Q N U) as (n & s' & _ & K). specialize (D n). rewrite K in D by auto. discriminate.
    + exfalso. assert (U: ~ unending m s).
      { intros (N & _). destruct R as (ws & c & rest & Eb & W & C). destruct s as [b [] []]; try discriminate. destruct N as [N|[N|N]]; try discriminate. cbn [buf] in *. subst b.
        apply Forall_app in N as (_ & N). inversion N; subst. unfold blank in *. lia. }
      destruct (P U) as (n & r & R1 & R2). specialize (D n). rewrite R2 in D by auto. auto.
  - intros U fuel. rewrite X. apply skip_unending; auto.
Qed.
End Ends.

Theorem frac_ends : forall m s f,
  ((forall fuel, fst (frac_xextract m fuel s f) = Ends OutOfFuel) <-> unending m s) /\
  (~ unending m s -> exists n r, fst r <> Ends OutOfFuel /\ forall fuel, (n <= fuel)%nat -> frac_xextract m fuel s f = r) /\
  (nothing s -> ~ unending m s -> exists n s', reported m s' /\ forall fuel, (n <= fuel)%nat -> frac_xextract m fuel s f = (Failure, (s', f))).
Proof.
  intros m s f. unshelve eapply (ends_exact Fraction frac_extract m f (fun fuel s => frac_xextract m fuel s f)); [|intros; reflexivity| |].
  - intros. apply extract_terminates; auto.
  - intros. apply frac_agrees; auto.
Qed.
Theorem cx_ends : forall m strtod s z,
  ((forall fuel, fst (cx_xextract m strtod fuel s z) = Ends OutOfFuel) <-> unending m s) /\
  (~ unending m s -> exists n r, fst r <> Ends OutOfFuel /\ forall fuel, (n <= fuel)%nat -> cx_xextract m strtod fuel s z = r) /\
  (nothing s -> ~ unending m s -> exists n s', reported m s' /\ forall fuel, (n <= fuel)%nat -> cx_xextract m strtod fuel s z = (Failure, (s', z))).
Proof.
  intros m strtod s z. unshelve eapply (ends_exact Complex (cx_extract strtod) m z (fun fuel s => cx_xextract m strtod fuel s z)); [|intros; reflexivity| |].
  - intros s0 G (c & I & C). destruct (cx_terminates strtod s0 z G) as (o & O).
    { intros N. rewrite Forall_forall in N. specialize (N c I). unfold blank in N. lia. }
    exists o. exact O.
  - intros. apply cx_agrees; auto.
Qed.
