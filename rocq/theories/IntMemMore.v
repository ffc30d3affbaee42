(** Calls that run out of memory: summary lemmas and witnesses. *)
From Coq Require Import ZArith Ascii List Bool Lia.
From Verif Require Import Outcome IntModel IntSpec IntBase IntAddSub IntMulDiv IntProgModel IntProgSpec ExTools
  IntMemModel IntMemSpec IntMemFacts IntMem IntMemSem IntMemProg.
Import ListNotations.
Open Scope Z_scope.

Lemma members_do : forall grow ok p x y, fits x ->
  (forall o same, does ok x (m_compound grow ok p o same y) (compound p o same (forget x) (forget y)) (fun _ => True)) /\
  does ok x (m_assign_copy ok y) (Ok (forget y)) (fun _ => True) /\
  does ok x (m_inc grow ok) (int_inc (forget x)) (fun _ => True) /\
  does ok x (m_dec grow ok) (int_dec (forget x)) (fun _ => True).
Proof.
  intros grow ok p x y Fx. split; [intros o same; apply compound_does; exact Fx|].
  split; [eapply does_weaken; [apply assign_copy_does; exact Fx|auto]|].
  split; (eapply does_weaken; [first [apply inc_does|apply dec_does]; exact Fx|auto]).
Qed.

Lemma binary_short : forall grow ok p fuel o x y k, (exists k', m_binary grow ok p fuel o x y k = (MFail FBadAlloc, k')) <->
  short ok k (snd (m_binary grow ok p fuel o x y k)).
Proof.
  intros grow ok p fuel o x y k. pose proof (binary_gives grow ok p fuel o x y k) as G.
  destruct (m_binary grow ok p fuel o x y k) as [[a|f] k1]; cbn [snd].
  - destruct G as (_ & P & _). split; [intros (k' & E); discriminate|]. intros S. destruct (plenty_not_short _ _ _ P S).
  - destruct f; [split; eauto| | |]; (destruct G as (_ & P & _); split; [intros (k' & E); discriminate|]; intros S; destruct (plenty_not_short _ _ _ P S)).
Qed.

Lemma copy_not_strong : exists ok x y k, fits x /\ repr (forget x) 5 /\ repr (forget y) (-12) /\
  fst (m_assign_copy ok y (x, k)) = MFail FBadAlloc /\ repr (forget (fst (snd (m_assign_copy ok y (x, k))))) (-5).
Proof.
  exists (fun _ => false), (with_room (MkInt 1 [5]) 1), (with_room (MkInt (-1) [2; 1]) 2), 0%nat.
  split; [unfold fits; cbn; lia|]. split; [apply repr_check; reflexivity|]. split; [apply repr_check; reflexivity|]. split; [reflexivity|apply repr_check; reflexivity].
Qed.
Lemma mul_not_strong : exists ok x y, fits x /\ repr (forget x) 5 /\ repr (forget y) (-12) /\
  fst (m_compound (fun s n => n) ok Benign AMul false y (x, 0%nat)) = MFail FBadAlloc /\
  repr (forget (fst (snd (m_compound (fun s n => n) ok Benign AMul false y (x, 0%nat))))) (-5).
Proof.
  exists (fun k => Nat.ltb k 2), (with_room (MkInt 1 [5]) 1), (with_room (MkInt (-1) [2; 1]) 2).
  split; [unfold fits; cbn; lia|]. split; [apply repr_check; reflexivity|]. split; [apply repr_check; reflexivity|]. split; [vm_compute; reflexivity|apply repr_check; vm_compute; reflexivity].
Qed.
Lemma div_not_strong : exists ok x y, fits x /\ repr (forget x) (-97) /\ repr (forget y) 5 /\
  fst (m_compound (fun s n => n) ok Benign ADiv false y (x, 0%nat)) = MFail FBadAlloc /\
  repr (forget (fst (snd (m_compound (fun s n => n) ok Benign ADiv false y (x, 0%nat))))) 47 /\
  exists ok', fst (m_compound (fun s n => n) ok' Benign AMod false y (x, 0%nat)) = MFail FBadAlloc /\
  repr (forget (fst (snd (m_compound (fun s n => n) ok' Benign AMod false y (x, 0%nat))))) 47.
Proof.
  exists (fun k => Nat.ltb k 4), (with_room (MkInt (-1) [7; 9]) 2), (with_room (MkInt 1 [5]) 1).
  split; [unfold fits; cbn; lia|]. split; [apply repr_check; reflexivity|]. split; [apply repr_check; reflexivity|].
  split; [vm_compute; reflexivity|]. split; [apply repr_check; vm_compute; reflexivity|].
  exists (fun k => Nat.ltb k 3). split; [vm_compute; reflexivity|apply repr_check; vm_compute; reflexivity].
Qed.

Lemma copy_fits : forall ok x y k, (length (items (mvec y)) <= room (mvec x))%nat ->
  m_assign_copy ok y (x, k) = (MRet tt, (with_room (forget y) (room (mvec x)), k)).
Proof.
  intros ok x y k L. apply Nat.leb_le in L. unfold m_assign_copy, obind, oget, oput, olift, v_assign. cbn [fst snd]. rewrite L. reflexivity.
Qed.

Lemma steps_strong : forall grow ok x a, fits x -> repr (forget x) a -> a <> 0 ->
  does ok x (m_inc grow ok) (int_inc (forget x)) (fun x' => 0 < a /\ x' = x) /\
  does ok x (m_dec grow ok) (int_dec (forget x)) (fun x' => a < 0 /\ x' = x).
Proof.
  intros grow ok x a Fx R Ha. assert (Sg : msign x = Z.sgn a) by (exact (repr_sign _ _ R)). split.
  - apply does_owp. unfold m_inc. apply owp_bind, owp_get. apply does_owp. unfold int_inc. change (sign (forget x)) with (msign x). rewrite Sg.
    destruct (Z.eqb_spec (Z.sgn a) 0); [lia|]. destruct (Z.eqb_spec (Z.sgn a) 1).
    + eapply does_weaken; [apply abs_inc_does; exact Fx|]. intros x' E. split; [lia|exact E].
    + eapply does_weaken; [apply abs_dec_does; exact Fx|]. intros x' [].
  - apply does_owp. unfold m_dec. apply owp_bind, owp_get. apply does_owp. unfold int_dec. change (sign (forget x)) with (msign x). rewrite Sg.
    destruct (Z.eqb_spec (Z.sgn a) 0); [lia|]. destruct (Z.eqb_spec (Z.sgn a) 1).
    + eapply does_weaken; [apply abs_dec_does; exact Fx|]. intros x' [].
    + eapply does_weaken; [apply abs_inc_does; exact Fx|]. intros x' E. split; [lia|exact E].
Qed.

Lemma store_strong : forall v m s k s' k' ev, store_in v m s k = Ok (s', k', ev) -> In MEBadAlloc ev -> s' = s.
Proof.
  intros v m s k s' k' ev E I. unfold store_in in E. destruct (m k) as [[x|f] k1].
  - inversion E; subst. destruct I.
  - destruct f; cbn in E; inversion E; subst; reflexivity.
Qed.

(** ** Signs without digits *)

Lemma wreck_no_int : forall x s, wreck x s -> forall z, ~ repr (forget x) z.
Proof.
  intros x s (S1 & I1 & Hs) z [(_ & _ & _ & C) _]. destruct C as [_ C]. unfold forget in C. cbn in C. specialize (C I1). lia.
Qed.
Lemma wreck_print : forall x s, wreck x s -> (forall z, ~ repr (forget x) z) /\ m_print x = UB BadDeref.
Proof.
  intros x s W. split; [exact (wreck_no_int x s W)|]. destruct W as (S1 & I1 & Hs). unfold m_print. rewrite S1, I1.
  destruct (Z.eqb_spec s 0); [lia|reflexivity].
Qed.
Lemma wreck_queries : forall x s, wreck x s -> is_zero (forget x) = false /\ is_positive (forget x) = (s =? 1) /\ is_negative (forget x) = (s =? -1) /\
  is_even (forget x) = UB OutOfBounds /\ int_digits (forget x) = Ok 0.
Proof.
  intros [s' [l r]] s (S1 & I1 & Hs). cbn in S1, I1. subst. unfold is_zero, is_positive, is_negative, is_even, is_zero, int_digits, forget. cbn [sign chunks msign mvec items].
  destruct (Z.eqb_spec s 0); [lia|]. auto.
Qed.
Lemma inc_wreck : exists ok x, fits x /\ repr (forget x) 0 /\ fst (m_inc (fun s n => n) ok (x, 0%nat)) = MFail FBadAlloc /\
  (forall z, ~ repr (forget (fst (snd (m_inc (fun s n => n) ok (x, 0%nat))))) z) /\
  m_print (fst (snd (m_inc (fun s n => n) ok (x, 0%nat)))) = UB BadDeref.
Proof.
  exists (fun _ => false), mzero. split; [unfold fits; cbn; lia|]. split; [apply repr_check; reflexivity|]. split; [reflexivity|].
  apply (wreck_print _ 1). split; [reflexivity|]. split; [reflexivity|auto].
Qed.
Lemma wrecks : forall grow ok p x y k b, repr (forget x) 0 -> repr (forget y) b -> b <> 0 -> room (mvec x) = 0%nat -> ok k = false ->
  (fst (m_inc grow ok (x, k)) = MFail FBadAlloc /\ wreck (fst (snd (m_inc grow ok (x, k)))) 1) /\
  (fst (m_dec grow ok (x, k)) = MFail FBadAlloc /\ wreck (fst (snd (m_dec grow ok (x, k)))) (-1)) /\
  (fst (m_assign_copy ok y (x, k)) = MFail FBadAlloc /\ wreck (fst (snd (m_assign_copy ok y (x, k)))) (Z.sgn b)) /\
  (fst (m_add_assign grow ok p y (x, k)) = MFail FBadAlloc /\ wreck (fst (snd (m_add_assign grow ok p y (x, k)))) (Z.sgn b)).
Proof.
  intros grow ok p x y k b Hx Hy Hb Rx Ok.
  pose proof (repr_sign _ _ Hy) as Sy. pose proof (repr_nonnil _ _ Hy Hb) as Ny.
  apply repr_zero_inv in Hx. destruct x as [sx [lx rx]]. unfold forget in Hx. cbn in Hx, Rx. inversion Hx; subst. clear Hx.
  destruct y as [sy [ly ry]]. cbn in Sy, Ny. subst sy.
  destruct ly as [|d ly]; [congruence|].
  assert (Sb : Z.sgn b = 1 \/ Z.sgn b = -1) by lia.
  assert (C : m_assign_copy ok (MI (Z.sgn b) (Vec (d :: ly) ry)) (MI 0 (Vec [] 0), k) = (MFail FBadAlloc, (MI (Z.sgn b) (Vec [] 0), S k))).
  { unfold m_assign_copy, obind, oget, oput, olift, v_assign, abind, alloc. cbn. rewrite Ok. reflexivity. }
  split; [|split; [|split]].
  - unfold m_inc, obind, oget, oput, olift, v_push, v_grow, abind, alloc. cbn. rewrite Ok. cbn. split; [reflexivity|]. split; [reflexivity|]. split; [reflexivity|auto].
  - unfold m_dec, obind, oget, oput, olift, v_push, v_grow, abind, alloc. cbn. rewrite Ok. cbn. split; [reflexivity|]. split; [reflexivity|]. split; [reflexivity|auto].
  - rewrite C. cbn [fst snd]. split; [reflexivity|]. split; [reflexivity|]. split; [reflexivity|exact Sb].
  - assert (D : m_add_assign grow ok p (MI (Z.sgn b) (Vec (d :: ly) ry)) (MI 0 (Vec [] 0), k) = m_assign_copy ok (MI (Z.sgn b) (Vec (d :: ly) ry)) (MI 0 (Vec [] 0), k)) by reflexivity.
    rewrite D, C. cbn [fst snd].
    split; [reflexivity|]. split; [reflexivity|]. split; [reflexivity|exact Sb].
Qed.

Lemma nonzero_stays : forall grow ok p o same x y a b, fits x -> repr (forget x) a -> repr (forget y) b -> (same = true -> x = y) -> a <> 0 ->
  does ok x (m_compound grow ok p o same y) (compound p o same (forget x) (forget y)) (fun x' => exists a', repr (forget x') a') /\
  does ok x (m_assign_copy ok y) (Ok (forget y)) (fun x' => exists a', repr (forget x') a') /\
  does ok x (m_inc grow ok) (int_inc (forget x)) (fun x' => exists a', repr (forget x') a') /\
  does ok x (m_dec grow ok) (int_dec (forget x)) (fun x' => exists a', repr (forget x') a').
Proof.
  intros grow ok p o same x y a b Fx Hx Hy Same Ha. split; [|split; [|split]].
  - eapply does_weaken; [exact (compound_harm grow ok p o same x y a b Fx Hx Hy Same)|].
    intros x' [(a' & _ & R)|(_ & Z0 & _)]; [eauto|contradiction].
  - eapply does_weaken; [exact (copy_harm ok x y a b Fx Hx Hy)|]. cbv beta. intros x' [(_ & _ & R)|(Z0 & _)]; [eauto|contradiction].
  - eapply does_weaken; [exact (proj1 (steps_strong grow ok x a Fx Hx Ha))|]. cbv beta. intros x' [_ ->]. eauto.
  - eapply does_weaken; [exact (proj2 (steps_strong grow ok x a Fx Hx Ha))|]. cbv beta. intros x' [_ ->]. eauto.
Qed.
Lemma copy_repairs : forall ok x y k u x' k', fits x -> m_assign_copy ok y (x, k) = (MRet u, (x', k')) -> forget x' = forget y /\ fits x'.
Proof.
  intros ok x y k u x' k' Fx E. pose proof (assign_copy_does ok x y Fx k) as D. rewrite E in D. destruct D as (_ & _ & r & Er & [F1 F2]).
  inversion Er; subst. auto.
Qed.

(** ** Programs *)

Lemma mrun_safe : forall grow ok prog s k e, stands s e -> zsafe prog e -> (forall c, In c prog -> forall e v sg, ~ zwreck c e v sg) ->
  exists n s' k' e' ev, (forall fuel, (n <= fuel)%nat -> mrun grow ok Benign fuel prog s k = Ok (s', k', ev)) /\
     zmrun prog e e' ev /\ stands s' e'.
Proof.
  intros grow ok prog s k e H Sf N.
  destruct (mrun_spec grow ok prog s k e H Sf) as [(n & s' & k' & e' & ev & E & L & Z & St & B)|
    (p1 & c2 & p2 & n2 & s2 & k2 & e2 & ev2 & s3 & k3 & v & sg & Ep & E2 & Z2 & St2 & L2 & E3 & Sh & Zw & _)].
  - exists n, s', k', e', ev. auto.
  - exfalso. apply (N c2) with (e := e2) (v := v) (sg := sg); [|exact Zw]. rewrite Ep. apply in_app_iff. right. left. reflexivity.
Qed.

Lemma usual_map : forall ev, usual (map ME ev) = ev.
Proof. induction ev as [|x ev IH]; [reflexivity|]. cbn. f_equal. exact IH. Qed.
Lemma usual_app : forall a b, usual (a ++ b) = usual a ++ usual b.
Proof. intros a b. unfold usual. apply flat_map_app. Qed.

Lemma zmrun_skips : forall prog e e' ev, zmrun prog e e' ev ->
  (forall c, In c prog -> indirect c = true \/ forall e e', ~ zmstep c e e' [MEBadAlloc]) ->
  exists prog' ev', skips prog' prog /\ zrun prog' e e' ev' /\ ev' = usual ev.
Proof.
  intros prog e e' ev Z. induction Z as [e|c prog e e1 e2 ev1 ev2 Zs Z IH]; intros N.
  - exists [], []. split; [constructor|]. split; [constructor|reflexivity].
  - destruct IH as (prog' & ev' & Sk & Zr & Ev); [intros c0 I0; apply N; right; exact I0|]. rewrite usual_app, <- Ev.
    assert (K : (exists ev0, zstep c e e1 ev0 /\ ev1 = map ME ev0) \/ (e1 = e /\ ev1 = [MEBadAlloc])).
    { destruct (N c (or_introl eq_refl)) as [In0|No].
      - inversion Zs; subst; try (cbn in In0; discriminate In0); eauto.
      - inversion Zs; subst; eauto; exfalso; exact (No _ _ Zs). }
    destruct K as [(ev0 & Z0 & ->)|[-> ->]].
    + exists (c :: prog'), (ev0 ++ ev'). split; [constructor; exact Sk|]. split; [econstructor; eassumption|]. rewrite usual_map. reflexivity.
    + exists prog', ev'. split; [apply sk_drop; exact Sk|]. split; [exact Zr|reflexivity].
Qed.
