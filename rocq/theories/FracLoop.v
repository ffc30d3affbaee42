(** Proofs about the loop [while (is >> f)] over printed fractions. *)
From Coq Require Import String Ascii ZArith QArith List Bool Lia.
From Verif Require Import Outcome IntModel IntSpec StreamModel Show ShowFacts FracModel FracSpec FracFacts FracIO FracMore.
Import ListNotations.
Open Scope Z_scope.

Lemma skip_short : forall ws r fuel, Forall blank ws -> (fuel <= length ws)%nat -> skip_blank fuel (IStream (ws ++ r) false false) = OutOfFuel.
Proof.
  induction ws as [|w ws IH]; intros r fuel W L; [cbn in L; assert (fuel = O) as -> by lia; reflexivity|].
  destruct fuel as [|fuel]; auto. inversion W as [|? ? W1 W2]; subst. cbn [skip_blank peek good eofbit failbit negb andb buf app].
  unfold blank in W1. destruct (Z.leb_spec (code w) 32); [|lia]. apply IH; auto. cbn in L. lia.
Qed.

Definition well (it : list ascii * Fraction) : Prop := fst it <> [] /\ Forall blank (fst it) /\ valid (snd it).
Definition printed (items : list (list ascii * Fraction)) : list ascii := flat_map (fun it => fst it ++ frac_print (snd it)) items.

Lemma starts_blank : forall w r, w <> [] -> Forall blank w -> ends (w ++ r).
Proof. intros [|c w] r N B; [congruence|]. inversion B; auto. Qed.

Lemma loop_ends : forall items ws x, Forall blank ws -> valid x -> Forall well items ->
  exists k, forall fuel, (k <= fuel)%nat -> frac_read_loop fuel (IStream (ws ++ frac_print x ++ printed items) false false) = Ok (removelast (x :: map snd items)).
Proof.
  induction items as [|[w y] items IH]; intros ws x W V F.
  - exists (S (length ws)). intros [|fuel] L; [lia|]. cbn [frac_read_loop]. unfold printed. cbn [flat_map].
    rewrite roundtrip; auto; exact I.
  - inversion F as [|? ? (N & B & Vy) F']; subst. cbn [fst snd] in *. destruct (IH w y B Vy F') as (k & K).
    exists (S (k + length ws)). intros [|fuel] L; [lia|]. cbn [frac_read_loop]. unfold printed. cbn [flat_map fst snd]. fold (printed items).
    rewrite <- app_assoc. rewrite roundtrip; auto; [|apply starts_blank; auto|lia].
    destruct w as [|c w]; [congruence|]. cbn [app is_nil failbit]. cbn [app] in K. rewrite K by lia. reflexivity.
Qed.

Lemma loop_never : forall items ws x e, Forall blank ws -> valid x -> Forall well items -> e <> [] -> Forall blank e ->
  diverges (fun fuel => frac_read_loop fuel (IStream (ws ++ frac_print x ++ printed items ++ e) false false)).
Proof.
  induction items as [|[w y] items IH]; intros ws x e W V F N B fuel; (destruct fuel as [|fuel]; [reflexivity|]); cbn [frac_read_loop].
  - unfold printed. cbn [flat_map app]. destruct (Nat.le_gt_cases (S fuel) (length ws)) as [S1|S1].
    { unfold frac_extract. rewrite skip_short; auto. }
    rewrite roundtrip; auto; [|rewrite <- (app_nil_r e); apply starts_blank; auto].
    destruct e as [|c e]; [congruence|]. cbn [is_nil failbit].
    assert (H: frac_read_loop fuel (IStream (c :: e) false false) = OutOfFuel); [|rewrite H; auto].
    destruct fuel as [|fuel]; auto. cbn [frac_read_loop]. rewrite extract_hangs; auto.
  - inversion F as [|? ? (N1 & B1 & Vy) F']; subst. cbn [fst snd] in *. unfold printed. cbn [flat_map fst snd]. fold (printed items).
    destruct (Nat.le_gt_cases (S fuel) (length ws)) as [S1|S1].
    { unfold frac_extract. rewrite skip_short; auto. }
    rewrite <- !app_assoc. rewrite roundtrip; auto; [|apply starts_blank; auto].
    destruct w as [|c w]; [congruence|]. cbn [app is_nil failbit].
    specialize (IH (c :: w) y e B1 Vy F' N B fuel). cbn [app] in IH. rewrite IH. reflexivity.
Qed.

Lemma loop_exact : forall items ws x e, Forall blank ws -> valid x ->
  Forall (fun it => fst it <> [] /\ Forall blank (fst it) /\ valid (snd it)) items -> Forall blank e ->
  let s := IStream (ws ++ frac_print x ++ flat_map (fun it => fst it ++ frac_print (snd it)) items ++ e) false false in
  (e = [] -> exists k, forall fuel, (k <= fuel)%nat -> frac_read_loop fuel s = Ok (removelast (x :: map snd items))) /\
  (e <> [] -> diverges (fun fuel => frac_read_loop fuel s)).
Proof.
  intros items ws x e W V F B s. split.
  - intros ->. unfold s. rewrite app_nil_r. apply loop_ends; auto.
  - intros N. apply loop_never; auto.
Qed.
