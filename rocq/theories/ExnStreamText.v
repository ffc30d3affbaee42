(** Reading lines from streams with exceptions. *)
From Coq Require Import ZArith List Bool Ascii Lia.
From Verif Require Import Outcome IntModel StreamModel StrModel StrMore ExnStreamModel ExnStreamSpec ExnStreamFacts ExnStream.
Import ListNotations.
Open Scope Z_scope.

Lemma take_line_line : forall l rest, ~ In "010"%char l -> take_line (l ++ "010"%char :: rest) = (l, Some rest).
Proof.
  induction l as [|c l IH]; intros rest N; [reflexivity|]. cbn [take_line app]. destruct (Ascii.eqb_spec c "010"); [subst; exfalso; apply N; left; auto|].
  rewrite IH; [reflexivity|]. intros I. apply N. right. auto.
Qed.
Lemma take_line_last : forall l, ~ In "010"%char l -> take_line l = (l, None).
Proof.
  induction l as [|c l IH]; intros N; [reflexivity|]. cbn [take_line]. destruct (Ascii.eqb_spec c "010"); [subst; exfalso; apply N; left; auto|].
  rewrite IH; [reflexivity|]. intros I. apply N. right. auto.
Qed.
Theorem line_read : forall m l rest old, ~ In "010"%char l ->
  str_xextract m ConstBenign (IStream (l ++ "010"%char :: rest) false false) old = (Ends (Ok tt), (IStream rest false false, l)).
Proof.
  intros m l rest old N. unfold str_xextract, str_extract, getline. cbn [good eofbit failbit negb andb buf]. rewrite take_line_line by auto. cbn [const_write]. rewrite hot_good. reflexivity.
Qed.
Theorem last_line : forall m l old, ~ In "010"%char l -> l <> [] ->
  str_xextract m ConstBenign (IStream l false false) old = (if on_eof m then Failure else Ends (Ok tt), (IStream [] true false, l)).
Proof.
  intros m l old N E. unfold str_xextract, str_extract, getline. cbn [good eofbit failbit negb andb buf]. rewrite take_line_last by auto. cbn [const_write].
  destruct l as [|c l]; [congruence|]. unfold hot. cbn [eofbit failbit]. rewrite andb_true_r, andb_false_r, orb_false_r. reflexivity.
Qed.
Theorem at_end : forall m old, on_eof m = true \/ on_fail m = true ->
  str_xextract m ConstBenign (IStream [] false false) old = (Failure, (IStream [] true true, [])).
Proof.
  intros m old M. unfold str_xextract. cbn [str_extract good eofbit failbit negb andb getline buf take_line const_write].
  unfold hot. cbn [eofbit failbit]. rewrite !andb_true_r. destruct M as [-> | ->]; [reflexivity|rewrite orb_true_r; reflexivity].
Qed.
Theorem not_good : forall m p s old, eofbit s = true \/ failbit s = true ->
  (reported m (set_fail s) -> str_xextract m p s old = (Failure, (set_fail s, old))) /\
  (~ reported m (set_fail s) -> str_xextract m p s old = (Ends (Ok tt), (set_fail s, old))).
Proof.
  intros m p s old H. assert (G: good s = false) by (unfold good; destruct H as [-> | ->]; [reflexivity|apply andb_false_r]).
  unfold str_xextract, str_extract, getline. rewrite G. cbn [negb]. rewrite reported_hot. destruct (hot m (set_fail s)); split; intros; congruence.
Qed.
Theorem not_kept : ~ (forall m s old s' t, str_xextract m ConstBenign s old = (Failure, (s', t)) -> t = old).
Proof. intros H. specialize (H (Mask false true) (IStream [] false false) ["a"%char] _ _ (at_end (Mask false true) _ (or_intror eq_refl))). discriminate. Qed.
Theorem line_loop : forall m ls final, on_fail m = true -> Forall (fun l => ~ In "010"%char l) ls -> ~ In "010"%char final ->
  exists k, forall fuel, (k <= fuel)%nat ->
  read_while (str_xextract m ConstBenign) [] fuel (IStream (concat (map (fun l => l ++ ["010"%char]) ls) ++ final) false false) =
    (ls ++ (match final with [] => [] | _ => if on_eof m then [] else [final] end), Failure).
Proof.
  intros m ls final M F N. exists (S (S (length ls))). induction F as [|l ls Nl F IH]; intros fuel L.
  - destruct fuel as [|[|fuel]]; try (cbn in L; lia). cbn [map concat app read_while]. destruct final as [|c final].
    + rewrite at_end by auto. reflexivity.
    + rewrite last_line by (auto; discriminate). destruct (on_eof m) eqn:E; [reflexivity|]. cbn [failbit].
      destruct (not_good m ConstBenign (IStream [] true false) [] (or_introl eq_refl)) as (K & _). rewrite K by (right; auto). reflexivity.
  - destruct fuel as [|fuel]; [cbn in L; lia|]. cbn [map concat]. rewrite <- !app_assoc. cbn [app]. cbn [read_while]. rewrite line_read by auto. cbn [failbit]. rewrite IH by (cbn in L; lia). reflexivity.
Qed.
