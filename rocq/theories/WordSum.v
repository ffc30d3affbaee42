(** Adding up the numbers in a text: C285. *)
From Coq Require Import String Ascii ZArith List Bool Lia.
From Verif Require Import Outcome IntModel IntSpec IntBase IntIO IntMore ListModel ListSpec ListFacts StrModel StrSpec StrFacts StrNum StrSum Show ShowFacts ElemFacts LiteralFacts WordsModel Words.
Import ListNotations.
Open Scope Z_scope.

Local Notation plus_all := (fold_right Z.add 0).
Local Notation nonempty := (fun x : list ascii => match x with [] => false | _ => true end).

Lemma add_step : forall p x y a b, repr x a -> repr y b -> p = Benign \/ 0 <= a /\ 0 <= b -> returns (int_add_assign p x y) (a + b).
Proof.
  intros p x y a b X Y H. destruct (add_exact x y a b X Y) as (_ & B & S). destruct p; [|exact B].
  apply S. intros (N & _). destruct H as [H|(Ha & Hb)]; [discriminate|].
  destruct (Z.sgn_spec a) as [(?&Ea)|[(?&Ea)|(?&Ea)]], (Z.sgn_spec b) as [(?&Eb)|[(?&Eb)|(?&Eb)]]; rewrite Ea, Eb in N; lia.
Qed.

Lemma sum_run : forall p ws zs, Forall2 (int_literal 10) ws zs -> forall sum a, repr sum a ->
  p = Benign \/ 0 <= a /\ Forall (fun z => 0 <= z) zs -> returns (sum_words p ws sum) (a + plus_all zs).
Proof.
  intros p. induction 1 as [|w z ws zs W _ IH]; intros sum a R H; cbn [sum_words fold_right].
  - exists sum. split; auto. replace (a + 0) with a by lia. auto.
  - destruct (to_integer_ok p 10 w z) as (x & -> & X); auto; [lia|]. cbn [bind].
    destruct (add_step p sum x a z R X) as (s' & -> & S').
    { destruct H as [H|(H & F)]; auto. inversion F; auto. }
    cbn [bind]. replace (a + (z + plus_all zs)) with (a + z + plus_all zs) by lia. apply IH; auto.
    destruct H as [H|(H & F)]; auto. inversion F; subst. right. split; auto. lia.
Qed.

Lemma literal_or : forall p w, len w < INT_MAX -> (exists z, int_literal 10 w z) \/ str_to_integer p w 10 = Throw BadIntegerLiteral.
Proof.
  intros p s L. assert (B: 2 <= 10 <= 36) by lia. unfold str_to_integer. change ((10 <? 2) || (36 <? 10)) with false. cbv iota.
  destruct (integer_loop_sound p 10 (size s) s S_START [] true (MkInt 0 []) B) as (st & nn & x & -> & I).
  - rewrite size_ok by lia. pose proof (len_nonneg _ s). lia.
  - split; auto. split; auto. apply repr_zero.
  - discriminate.
  - cbn [bind app] in *. destruct st; auto; left.
    + destruct I as (b1 & sg & t & ds & -> & I1 & I2 & I3 & I4 & I5). eexists. exists b1, sg, t, [], (negb nn), ds. rewrite app_nil_r. repeat split; eauto.
    + destruct I as (b1 & sg & t & ds & b2 & -> & I1 & I2 & I3 & I4 & I5 & I6). eexists. exists b1, sg, t, b2, (negb nn), ds. repeat split; eauto.
Qed.

Lemma sum_stop : forall ws sum, canonical sum -> Forall (fun w => len w < INT_MAX) ws -> (exists w, In w ws /\ forall z, ~ int_literal 10 w z) ->
  sum_words Benign ws sum = Throw BadIntegerLiteral.
Proof.
  induction ws as [|w ws IH]; intros sum C F (b & I & N); [destruct I|]. inversion F; subst. cbn [sum_words].
  destruct (literal_or Benign w) as [(z & W)|W]; auto; [|rewrite W; reflexivity].
  destruct (to_integer_ok Benign 10 w z) as (x & -> & X); auto; [lia|]. cbn [bind].
  destruct (add_step Benign sum x (value sum) z (repr_value _ C) X (or_introl eq_refl)) as (s' & -> & S'). cbn [bind].
  apply IH; auto; [apply S'|]. exists b. split; auto. destruct I as [->|I]; auto. exfalso. exact (N z W).
Qed.

Lemma split_words : forall c s, len s < INT_MAX -> exists ps, pieces [c] s ps /\ str_split s [c] false = Ok (filter nonempty ps) /\
  Forall (fun w => len w < INT_MAX) (filter nonempty ps).
Proof.
  intros c s L. destruct (parts c s L) as (ps & P & _ & _ & _ & T & S). exists ps. split; auto. specialize (S false). cbn iota in S.
  assert (E: filter (fun x => negb (str_is_empty x)) ps = filter nonempty ps) by (apply filter_ext; intros [|y x]; reflexivity).
  rewrite E in S. split; auto. apply Forall_forall. intros w I. apply filter_In in I as (I & _).
  apply in_split in I as (a & b & ->). rewrite total_app in T. cbn [total] in T. unfold len in *. lia.
Qed.

(** The sum of the words that are integers, *)
Theorem sum_of_words : forall c s, len s < INT_MAX -> exists ps, pieces [c] s ps /\
  (forall p zs, Forall2 (int_literal 10) (filter nonempty ps) zs -> p = Benign \/ Forall (fun z => 0 <= z) zs -> returns (sum_text p [c] s) (plus_all zs)) /\
  ((exists w, In w (filter nonempty ps) /\ forall z, ~ int_literal 10 w z) -> sum_text Benign [c] s = Throw BadIntegerLiteral).
Proof.
  intros c s L. destruct (split_words c s L) as (ps & P & S & F). exists ps. split; auto. unfold sum_text. rewrite S. cbn [bind]. split.
  - intros p zs W H. change (plus_all zs) with (0 + plus_all zs). apply sum_run; auto; [apply repr_zero|].
    destruct H; auto. right. split; [lia|auto].
  - intros H. apply sum_stop; auto. apply repr_zero.
Qed.

Lemma written : forall z, int_literal 10 (show_int z) z /\ usual_notation (show_int z).
Proof.
  intros z. destruct (int_named z) as (x & X). destruct (print_roundtrip x z X) as (E & U & Li & _). rewrite <- E. split; auto. apply literal_int_literal. auto.
Qed.
Lemma written_chars : forall s c, usual_notation s -> digit_of c = None -> c <> "-"%char -> s <> [] /\ ~ In c s.
Proof.
  intros s c U D N. destruct U as [->|(d & ds & [->| ->] & (v & V & _) & F)].
  - split; [discriminate|]. intros [<-|[]]. discriminate D.
  - split; [discriminate|]. intros [<-|I]; [congruence|]. rewrite Forall_forall in F. exact (F c I D).
  - split; [discriminate|]. intros [<-|[<-|I]]; [congruence|congruence|]. rewrite Forall_forall in F. exact (F c I D).
Qed.
(** and of any integers that are written with a separator between them. *)
Theorem sum_of_written : forall p c zs, digit_of c = None -> c <> "-"%char -> len (glue [c] (map show_int zs)) < INT_MAX ->
  p = Benign \/ Forall (fun z => 0 <= z) zs -> returns (sum_text p [c] (glue [c] (map show_int zs))) (plus_all zs).
Proof.
  intros p c zs D N L H. destruct zs as [|z zs].
  { exists (MkInt 0 []). split; [reflexivity|apply repr_zero]. }
  set (ws := map show_int (z :: zs)) in *.
  assert (W: Forall (fun w => w <> [] /\ ~ In c w) ws).
  { apply Forall_forall. intros w I. apply in_map_iff in I as (y & <- & _). apply written_chars; auto. apply written. }
  assert (NW: ws <> []) by discriminate.
  assert (FW: Forall (fun w => ~ In c w) ws) by (eapply Forall_impl; [|exact W]; intros ? (_ & X); exact X).
  destruct (sum_of_words c _ L) as (ps & P & S & _).
  assert (ps = ws) as ->. { eapply pieces_unique; [exact P|]. apply pieces_of_glue; auto. }
  apply S; auto.
  assert (A: forall l : list (list ascii), Forall (fun w => w <> [] /\ ~ In c w) l -> filter nonempty l = l).
  { induction 1 as [|y l (Y & _) _ IH]; auto. destruct y; [congruence|]. cbn [filter]. rewrite IH. auto. }
  rewrite A by auto. unfold ws. clear. induction (z :: zs) as [|y l IH]; cbn [map]; constructor; auto. apply written.
Qed.

(** ** The numbers of Fibonacci: C286 *)

Section Fibonacci.
Variable (f : nat -> Z).
Hypothesis (F0 : f 0%nat = 0) (F1 : f 1%nat = 1) (FS : forall n, f (S (S n)) = f n + f (S n)).
Lemma fib_pos : forall n, 0 <= f n /\ 0 <= f (S n).
Proof. induction n as [|n (A & B)]; [rewrite F0, F1; lia|]. split; auto. rewrite FS. lia. Qed.
Lemma fib_run : forall p n k a b, repr a (f k) -> repr b (f (S k)) -> returns (fibonacci p n a b) (f (n + k)%nat).
Proof.
  intros p. induction n as [|n IH]; intros k a b A B; cbn [fibonacci].
  - exists a. auto.
  - destruct (add_step p a b _ _ A B (or_intror (fib_pos k))) as (t & T & R). unfold int_add. rewrite T. cbn [bind].
    replace (S n + k)%nat with (n + S k)%nat by lia. apply IH; auto. rewrite FS. auto.
Qed.
End Fibonacci.
Theorem fibonacci_exact : forall f, f 0%nat = 0 -> f 1%nat = 1 -> (forall n, f (S (S n)) = f n + f (S n)) ->
  forall p n a b, int_of_int 0 = Ok a -> int_of_int 1 = Ok b -> returns (fibonacci p n a b) (f n).
Proof.
  intros f F0 F1 FS p n a b A B. rewrite <- (Nat.add_0_r n) at 2. apply fib_run; auto.
  - rewrite F0. injection A as <-. apply repr_zero.
  - rewrite F1. vm_compute in B. injection B as <-. split; [|reflexivity].
    split; [repeat constructor; unfold digit; lia|]. split; [discriminate|]. split; [auto|]. split; discriminate.
Qed.
