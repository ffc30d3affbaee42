(** Turning the words of a text around: C284. *)
From Coq Require Import String Ascii ZArith List Bool Lia.
From Verif Require Import Outcome IntModel ListModel ListSpec StrModel StrSpec StrFacts StrSum WordsModel.
Import ListNotations.
Open Scope Z_scope.

(** The lengths of the strings, each with a separator. *)
Fixpoint total (l : list (list ascii)) : nat := match l with [] => O | x :: l' => (length x + 1 + total l')%nat end.
Lemma total_app : forall l m, total (l ++ m) = (total l + total m)%nat.
Proof. induction l as [|x l IH]; intros m; cbn [app total]; auto. rewrite IH. lia. Qed.
Lemma total_rev : forall l, total (rev l) = total l.
Proof. induction l as [|x l IH]; cbn [rev total]; auto. rewrite total_app, IH. cbn [total]. lia. Qed.
Lemma total_filter : forall f l, (total (filter f l) <= total l)%nat.
Proof. intros f. induction l as [|x l IH]; cbn [filter total]; auto. destruct (f x); cbn [total]; lia. Qed.
Lemma glue_total : forall c l, l <> [] -> (length (glue [c] l) + 1 = total l)%nat.
Proof.
  intros c. induction l as [|x l IH]; intros N; [congruence|]. destruct l as [|y l]; [cbn; lia|].
  change (glue [c] (x :: y :: l)) with (x ++ [c] ++ glue [c] (y :: l)). rewrite !app_length. cbn [total] in *. specialize (IH ltac:(discriminate)). cbn [length]. lia.
Qed.
Lemma total_many : forall l, (length l <= total l)%nat.
Proof. induction l as [|x l IH]; cbn [length total]; lia. Qed.
Lemma not_in_single : forall (c : ascii) (x : list ascii), ~ contains x [c] -> ~ In c x.
Proof. intros c x H I. apply H. apply in_split in I. destruct I as (a & b & ->). exists (len a), a, b. split; reflexivity. Qed.

Lemma run_reverse : forall sep keep s w, str_split s sep keep = Ok w -> len w <= INT_MAX -> reverse_words sep keep s = Ok (glue sep (rev w)).
Proof.
  intros sep keep s w H L. unfold reverse_words. rewrite H. cbn [bind list_reverse update].
  apply join_spec. unfold len in *. rewrite rev_length. auto.
Qed.

Section Words.
Variable (c : ascii) (s : list ascii).
Hypothesis L : len s < INT_MAX.

Lemma parts : exists ps, pieces [c] s ps /\ glue [c] ps = s /\ ps <> [] /\ Forall (fun x => ~ In c x) ps /\ (total ps = length s + 1)%nat /\
  forall keep, str_split s [c] keep = Ok (if keep then ps else filter (fun x => negb (str_is_empty x)) ps).
Proof.
  destruct (split_all s [c] true L) as (ps & P1 & P2 & P3 & P4); [discriminate|].
  assert (N: ps <> []). { destruct P1; discriminate. }
  exists ps. split; auto. split; auto. split; auto. split.
  { apply Forall_forall. intros x I. apply not_in_single. rewrite Forall_forall in P3. auto. }
  split. { rewrite <- P2 at 1. rewrite glue_total by auto. auto. }
  intros [|]; auto.
  destruct (split_all s [c] false L) as (ps' & Q1 & Q2 & Q3 & Q4); [discriminate|].
  replace ps with ps'; auto.
  assert (N': ps' <> []). { destruct Q1; discriminate. }
  assert (X: str_split s [c] true = Ok ps').
  { rewrite <- Q2. apply split_join; auto; [|rewrite Q2; auto]. apply Forall_forall. intros x I. apply not_in_single. rewrite Forall_forall in Q3. auto. }
  rewrite P4 in X. injection X as ->. reflexivity.
Qed.
End Words.

(** The pieces between separators in the other order, without the empty ones unless [keep]. *)
Theorem words_reversed : forall c keep s, len s < INT_MAX ->
  exists ps, pieces [c] s ps /\ reverse_words [c] keep s = Ok (glue [c] (rev (if keep then ps else filter (fun x => match x with [] => false | _ => true end) ps))).
Proof.
  intros c keep s L. destruct (parts c s L) as (ps & P & _ & _ & _ & T & S). specialize (S keep).
  assert (E: filter (fun x => negb (str_is_empty x)) ps = filter (fun x : list ascii => match x with [] => false | _ => true end) ps).
  { apply filter_ext. intros [|y x]; [reflexivity|]. unfold str_is_empty. cbn [length]. reflexivity || (unfold len; cbn [length]; destruct (Z.eqb_spec (Z.of_nat (Datatypes.S (length x))) 0); [lia|reflexivity]). }
  rewrite E in S.
  exists ps. split; auto. apply run_reverse; auto.
  pose proof (total_many ps). pose proof (total_filter (fun x => match x with [] => false | _ => true end) ps).
  pose proof (total_many (filter (fun x => match x with [] => false | _ => true end) ps)). unfold len in *. destruct keep; lia.
Qed.
(** Twice gives the text back when empty pieces are kept, *)
Theorem twice_kept : forall c s, len s < INT_MAX -> exists t, reverse_words [c] true s = Ok t /\ reverse_words [c] true t = Ok s /\ length t = length s.
Proof.
  intros c s L. destruct (parts c s L) as (ps & _ & G & N & F & T & S). specialize (S true). cbn in S.
  pose proof (total_many ps) as M. assert (B: len ps <= INT_MAX) by (unfold len in *; lia).
  exists (glue [c] (rev ps)). split; [apply run_reverse; auto|].
  assert (N': rev ps <> []). { intros E. apply N. rewrite <- (rev_involutive ps), E. reflexivity. }
  pose proof (glue_total c (rev ps) N') as GT. rewrite total_rev in GT. split; [|lia].
  rewrite <- G at 1. rewrite <- (rev_involutive ps) at 2. apply run_reverse.
  - apply split_join; auto; [apply Forall_rev; auto|]. unfold len in *. lia.
  - unfold len in *. rewrite rev_length. auto.
Qed.
(** and otherwise the words with single separators. *)
Theorem twice_words : forall c s, len s < INT_MAX -> exists w t, str_split s [c] false = Ok w /\ reverse_words [c] false s = Ok t /\
  str_split t [c] false = Ok (rev w) /\ reverse_words [c] false t = Ok (glue [c] w) /\ len t <= len s.
Proof.
  intros c s L. destruct (parts c s L) as (ps & _ & G & N & F & T & S). specialize (S false). cbn iota in S.
  set (w := filter (fun x => negb (str_is_empty x)) ps) in *.
  assert (TW: (total w <= length s + 1)%nat) by (rewrite <- T; apply total_filter).
  pose proof (total_many w) as M. assert (B: len w <= INT_MAX) by (unfold len in *; lia).
  exists w, (glue [c] (rev w)). split; auto. split; [apply run_reverse; auto|].
  assert (X: str_split (glue [c] (rev w)) [c] false = Ok (rev w) /\ len (glue [c] (rev w)) <= len s).
  { destruct w as [|x w'] eqn:E.
    - split; [reflexivity|]. unfold len. cbn. lia.
    - assert (N': rev (x :: w') <> []). { intros E'. apply (f_equal (@rev _)) in E'. rewrite rev_involutive in E'. discriminate. }
      pose proof (glue_total c _ N') as GT. rewrite total_rev in GT. split; [|unfold len; lia].
      assert (L': len (glue [c] (rev (x :: w'))) < INT_MAX) by (unfold len in *; lia).
      destruct (parts c _ L') as (qs & _ & _ & _ & _ & _ & SQ).
      assert (FW: Forall (fun y => ~ In c y) (x :: w')).
      { rewrite <- E. apply Forall_forall. intros y I. apply filter_In in I. rewrite Forall_forall in F. apply F. tauto. }
      pose proof (split_join c _ N' (Forall_rev FW) L') as SJ. rewrite (SQ true) in SJ. injection SJ as SJ. rewrite (SQ false), SJ. f_equal.
      assert (A: forall l : list str, Forall (fun y => negb (str_is_empty y) = true) l -> filter (fun y => negb (str_is_empty y)) l = l).
      { induction 1 as [|y l H _ IH]; cbn [filter]; auto. rewrite H, IH. auto. }
      apply A. apply Forall_rev. rewrite <- E. apply Forall_forall. intros y I. apply filter_In in I. tauto. }
  destruct X as (X1 & X2). split; auto. split; auto. rewrite <- (rev_involutive w) at 2. apply run_reverse; auto. unfold len in *. rewrite rev_length. auto.
Qed.
(** A longer separator can overlap itself: with "aa", "baaa" becomes "aaab", and then "abaa". *)
Theorem twice_longer : exists sep s t u, (length sep = 2)%nat /\ reverse_words sep true s = Ok t /\ reverse_words sep true t = Ok u /\ u <> s.
Proof.
  exists ["a"; "a"]%char, ["b"; "a"; "a"; "a"]%char, ["a"; "a"; "a"; "b"]%char, ["a"; "b"; "a"; "a"]%char.
  split; [reflexivity|]. split; [vm_compute; reflexivity|]. split; [vm_compute; reflexivity|discriminate].
Qed.
Theorem no_separator : forall keep s, reverse_words [] keep s = Throw EmptySeparator.
Proof. intros keep s. reflexivity. Qed.
