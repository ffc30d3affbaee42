(** Reading loops that end without std::ios_base::failure: no bit of the mask, or a malformed literal. *)
From Coq Require Import ZArith QArith List Bool Ascii Lia.
From Verif Require Import Outcome IntModel IntSpec StreamModel FloatModel Show FracModel FracSpec FracFacts FracIO FracMore
  StrModel ExnStreamModel ExnStreamSpec ExnStreamFacts ExnStream ExnStreamMore ExnStreamText.
Import ListNotations.
Open Scope Z_scope.

Theorem line_loop_quiet : forall ls final, Forall (fun l => ~ In "010"%char l) ls -> ~ In "010"%char final ->
  exists k, forall fuel, (k <= fuel)%nat ->
  read_while (str_xextract (Mask false false) ConstBenign) [] fuel (IStream (concat (map (fun l => l ++ ["010"%char]) ls) ++ final) false false) =
    (ls ++ (match final with [] => [] | _ => [final] end), Ends (Ok (IStream [] true true))).
Proof.
  intros ls final F N. exists (S (S (length ls))). induction F as [|l ls Nl F IH]; intros fuel L.
  - destruct fuel as [|[|fuel]]; try (cbn in L; lia). cbn [map concat app read_while]. destruct final as [|c final].
    + reflexivity.
    + rewrite last_line by (auto; discriminate). reflexivity.
  - destruct fuel as [|fuel]; [cbn in L; lia|]. cbn [map concat]. rewrite <- !app_assoc. cbn [app]. cbn [read_while]. rewrite line_read by auto. cbn [failbit]. rewrite IH by (cbn in L; lia). reflexivity.
Qed.

Lemma skip_to : forall B m (old : B) k ws c rest fuel, Forall blank ws -> 32 < code c -> (length ws < fuel)%nat ->
  x_skip m old fuel (IStream (ws ++ c :: rest) false false) k = k (IStream (c :: rest) false false).
Proof.
  intros B m old k ws c rest fuel W C. revert fuel. induction W as [|b ws Hb W IH]; intros [|fuel] L; cbn in L; try lia; cbn [x_skip app].
  - rewrite guard_peek. destruct (Z.leb_spec (code c) 32); [lia|reflexivity].
  - rewrite guard_peek. unfold blank in Hb. destruct (Z.leb_spec (code b) 32); [|lia].
    unfold guarded, ignore. cbn [good eofbit failbit negb andb buf]. rewrite hot_good. apply IH. lia.
Qed.

Theorem frac_loop_malformed : forall m items ws0 c rest, Forall blank ws0 -> white_runs items -> Forall (fun it => valid (fst it)) items ->
  32 < code c -> ~ 48 <= code c <= 57 -> c <> "-"%char -> c <> "+"%char ->
  exists k, forall fuel, (k <= fuel)%nat ->
  read_while (frac_xextract m fuel) (Frac 0 1) fuel (IStream (ws0 ++ spaced frac_print items ++ c :: rest) false false) = (map fst items, Ends (Throw WrongFractionLiteral)).
Proof.
  intros m items ws0 c0 rest0 W0 R V C D N1 N2. exists (S (length ws0 + length (flat_map snd items) + length items)). intros fuel L.
  assert (One: forall ws x c rest, Forall blank ws -> valid x -> blank c -> (length ws < fuel)%nat ->
    frac_xextract m fuel (IStream (ws ++ frac_print x ++ c :: rest) false false) (Frac 0 1) = (Ends (Ok tt), (IStream (c :: rest) false false, x))).
  { intros ws x c rest W Vx Cb Lw. pose proof (roundtrip ws x (c :: rest) fuel (Frac 0 1) W Vx Cb Lw) as P.
    pose proof (frac_agrees m fuel (IStream (ws ++ frac_print x ++ c :: rest) false false) (Frac 0 1)) as A. rewrite P in A. specialize (A ltac:(discriminate)).
    unfold agree in A. cbn [is_nil] in A. rewrite hot_good in A. exact A. }
  assert (F: Forall (fun it => snd it <> [] /\ Forall blank (snd it) /\ (length (snd it) < fuel)%nat /\ valid (fst it)) items).
  { apply Forall_forall. intros it I. unfold white_runs in R. rewrite Forall_forall in R, V. destruct (R it I). pose proof (in_run _ _ _ I). split; [auto|]. split; [auto|]. split; [lia|apply V; auto]. }
  destruct (loop_reads _ (frac_xextract m fuel) (Frac 0 1) frac_print blank valid fuel One items ws0 (c0 :: rest0) (fuel - length items) F W0 ltac:(lia)) as (ws & W & Lw & K).
  replace fuel with (length items + (fuel - length items))%nat at 2 by lia. rewrite (K [] (Ends (Throw WrongFractionLiteral))); [rewrite app_nil_r; reflexivity|].
  destruct (fuel - length items)%nat as [|n] eqn:En; [lia|]. cbn [read_while]. unfold frac_xextract. rewrite skip_to by auto.
  unfold x_number. rewrite !guard_peek.
  assert (X: forall a, c0 <> a -> code c0 <> code a).
  { intros a NE E. apply NE. unfold code in E. apply N2Z.inj in E. rewrite <- (ascii_N_embedding c0), <- (ascii_N_embedding a), E. reflexivity. }
  pose proof (X _ N1) as X1. pose proof (X _ N2) as X2. change (code "-") with 45 in X1. change (code "+") with 43 in X2.
  destruct (Z.leb_spec 48 (code c0)); destruct (Z.leb_spec (code c0) 57); try lia; cbn [andb]; rewrite ?guard_peek;
    destruct (Z.eqb_spec (code c0) 45); try lia; rewrite ?guard_peek; destruct (Z.eqb_spec (code c0) 43); try lia; reflexivity.
Qed.
