(** Proofs about the members of List that call the client. *)
From Coq Require Import ZArith List Bool Lia.
From Verif Require Import Outcome ListModel ListSpec ListFacts ListMore ListCallModel ListCallSpec.
Import ListNotations.
Open Scope Z_scope.

(** ** Sequences of calls *)
Section Asks.
Context {S Y A : Type}.
Implicit Types (cs : list (S -> (A + Y) * S)) (s : S).

Lemma asks_total : forall cs s, exists l o s', asks cs s l o s'.
Proof.
  induction cs as [|c cs IH]; intros s; [do 3 eexists; constructor|].
  destruct (c s) as [[a|x] s1] eqn:E; [|do 3 eexists; eapply a_throw; eauto].
  destruct (IH s1) as (l & o & s2 & H). do 3 eexists. eapply a_cons; eauto.
Qed.
Lemma asks_det : forall cs s l o s', asks cs s l o s' -> forall l2 o2 s2, asks cs s l2 o2 s2 -> l = l2 /\ o = o2 /\ s' = s2.
Proof.
  intros cs s l o s' H. induction H; intros l2 o2 s3 K; inversion K; subst; auto; try congruence.
  - match goal with E : c s = _, E' : c s = _ |- _ => rewrite E in E'; inversion E'; subst end.
    match goal with K : asks cs _ _ _ _ |- _ => destruct (IHasks _ _ _ K) as (-> & -> & ->) end. auto.
  - match goal with E : c s = _, E' : c s = _ |- _ => rewrite E in E'; inversion E'; subst end. auto.
Qed.
Lemma asks_len : forall cs s l o s', asks cs s l o s' ->
  match o with None => length l = length cs | Some _ => (length l < length cs)%nat end.
Proof. intros cs s l o s' H. induction H; cbn [length]; auto; [|lia]. destruct o; lia. Qed.
Lemma asks_cons_inv : forall c cs s l o s', asks (c :: cs) s l o s' ->
  (exists a s1 l', c s = (inl a, s1) /\ asks cs s1 l' o s' /\ l = a :: l') \/ (exists x, c s = (inr x, s') /\ o = Some x /\ l = []).
Proof. intros c cs s l o s' H. inversion H; subst; [left|right]; eauto 8. Qed.
End Asks.

Section Scan.
Context {S X : Type}.
Implicit Types (cs : list (call S X bool)) (s : S).

Lemma scan_nil : forall stop s (r : found X) s', scan stop [] s r s' -> r = Nowhere /\ s' = s.
Proof. intros stop s r s' H. inversion H; subst; try (cbn in *; lia). inversion H0; auto. Qed.
Lemma scan_cons : forall stop c cs s r s', scan stop (c :: cs) s r s' ->
  (c s = (inl stop, s') /\ r = At 0) \/
  (exists s1 r', c s = (inl (negb stop), s1) /\ scan stop cs s1 r' s' /\ r = match r' with At k => At (Datatypes.S k) | _ => r' end) \/
  (exists x, c s = (inr x, s') /\ r = Threw x).
Proof.
  intros stop c cs s r s' H. inversion H as [cs0 k s0 s0' L K|cs0 s0 s0' K|cs0 k x s0 s0' L K]; subst.
  - destruct k as [|k].
    + cbn [Nat.add firstn repeat app] in K. apply asks_cons_inv in K. destruct K as [(a & s1 & l' & E & K & El)|(x & _ & F & _)]; [|discriminate].
      inversion El; subst. inversion K; subst. auto.
    + cbn [Nat.add firstn repeat app] in K. apply asks_cons_inv in K. destruct K as [(a & s1 & l' & E & K & El)|(x & _ & F & _)]; [|discriminate].
      inversion El; subst. right. left. exists s1, (At k). split; auto. split; auto. constructor; auto. cbn in L. lia.
  - cbn [length repeat] in K. apply asks_cons_inv in K. destruct K as [(a & s1 & l' & E & K & El)|(x & _ & F & _)]; [|discriminate].
    inversion El; subst. right. left. exists s1, Nowhere. split; auto. split; auto. constructor; auto.
  - destruct k as [|k].
    + cbn [Nat.add firstn repeat] in K. apply asks_cons_inv in K. destruct K as [(a & s1 & l' & E & K & El)|(y & E & F & _)]; [discriminate|].
      inversion F; subst. right. right. eauto.
    + cbn [Nat.add firstn repeat] in K. apply asks_cons_inv in K. destruct K as [(a & s1 & l' & E & K & El)|(y & E & F & El)]; [|discriminate].
      inversion El; subst. right. left. exists s1, (Threw x). split; auto. split; auto. econstructor; eauto. cbn in L. lia.
Qed.
Lemma scan_total : forall stop cs s, exists r s', scan stop cs s r s'.
Proof.
  intros stop. induction cs as [|c cs IH]; intros s.
  - exists Nowhere, s. constructor. constructor.
  - destruct (c s) as [[a|x] s1] eqn:E.
    + destruct (Bool.eqb a stop) eqn:B.
      * apply eqb_prop in B. subst a. exists (At 0), s1. constructor; [cbn; lia|]. cbn. econstructor; eauto. constructor.
      * assert (a = negb stop) by (destruct a, stop; auto; discriminate). subst a. destruct (IH s1) as (r & s' & H). inversion H; subst.
        -- exists (At (Datatypes.S k)), s'. constructor; [cbn; lia|]. cbn. econstructor; eauto.
        -- exists Nowhere, s'. constructor. cbn. econstructor; eauto.
        -- exists (Threw x), s'. apply (sc_threw _ _ (Datatypes.S k)); [cbn; lia|]. cbn. econstructor; eauto.
    + exists (Threw x), s1. apply (sc_threw _ _ 0); [cbn; lia|]. cbn. apply a_throw. auto.
Qed.
Lemma scan_det : forall stop cs s r s' r2 s2, scan stop cs s r s' -> scan stop cs s r2 s2 -> r = r2 /\ s' = s2.
Proof.
  intros stop. induction cs as [|c cs IH]; intros s r s' r2 s2 H K.
  - apply scan_nil in H, K. destruct H, K. subst. auto.
  - apply scan_cons in H, K. assert (NB : stop <> negb stop) by (destruct stop; discriminate).
    destruct H as [(E & ->)|[(t1 & q & E & H & ->)|(x & E & ->)]]; destruct K as [(F & ->)|[(u1 & q2 & F & K & ->)|(y & F & ->)]]; rewrite E in F; inversion F; subst; auto.
    + contradiction.
    + destruct NB; auto.
    + destruct (IH _ _ _ _ _ H K) as (-> & ->). auto.
Qed.
End Scan.

Section Calls.
Context {T S X : Type}.
Implicit Types (v l : list T) (s : S) (eq : T -> T -> call S X bool) (p : T -> call S X bool).

Lemma skipn_nth : forall A (v : list A) f y, nth_error v f = Some y -> skipn f v = y :: skipn (f + 1) v.
Proof. intros A. induction v as [|z v IH]; intros [|f] y E; try discriminate; cbn in *; [inversion E; auto|auto]. Qed.
Lemma nth_in : forall A (v : list A) f n, (f + Datatypes.S n <= length v)%nat -> exists y, nth_error v f = Some y.
Proof. intros A v f n L. destruct (nth_error v f) eqn:E; eauto. apply nth_error_None in E. lia. Qed.

Lemma find_ok : forall eq x n f v s r s', (f + n <= length v)%nat -> scan true (map (fun y => eq y x) (firstn n (skipn f v))) s r s' ->
  find_calls eq x n f (v, s) = (match r with At k => CRet (f + k)%nat | Nowhere => CRet (f + n)%nat | Threw e => CThrow e end, (v, s')).
Proof.
  intros eq x. induction n as [|n IH]; intros f v s r s' L H; cbn [find_calls].
  - cbn [firstn map] in H. apply scan_nil in H. destruct H as (-> & ->). rewrite Nat.add_0_r. auto.
  - destruct (nth_in _ v f n L) as (y & E). rewrite (skipn_nth _ v f y E) in H. cbn [firstn map] in H. apply scan_cons in H.
    unfold cbind at 1. unfold vread. cbn [fst]. rewrite E. unfold cbind, ask. cbn [fst snd].
    destruct H as [(C & ->)|[(s1 & r' & C & H & ->)|(e & C & ->)]]; rewrite C; auto.
    + rewrite Nat.add_0_r. auto.
    + cbn [negb]. rewrite (IH (f + 1)%nat v s1 r' s') by (auto; lia). destruct r'; auto; rewrite <- Nat.add_assoc; auto.
Qed.

Definition weigh (bs : list bool) : Z := Z.of_nat (length (filter (fun b => b) bs)).
Lemma count_ok : forall eq x n f v s t bs o s', (f + n = length v)%nat -> asks (map (fun y => eq y x) (skipn f v)) s bs o s' ->
  count_calls eq x n f t (v, s) = (match o with None => CRet (t + weigh bs) | Some e => CThrow e end, (v, s')).
Proof.
  intros eq x. induction n as [|n IH]; intros f v s t bs o s' L H; cbn [count_calls].
  - rewrite skipn_all2 in H by lia. inversion H; subst. unfold weigh. cbn. rewrite Z.add_0_r. auto.
  - destruct (nth_in _ v f n) as (y & E); [lia|]. rewrite (skipn_nth _ v f y E) in H. cbn [map] in H. apply asks_cons_inv in H.
    unfold cbind at 1. unfold vread. cbn [fst]. rewrite E. unfold cbind, ask. cbn [fst snd].
    destruct H as [(b & s1 & bs' & C & H & ->)|(e & C & -> & ->)]; rewrite C; auto.
    rewrite (IH (f + 1)%nat v s1 _ bs' o s') by (auto; lia). destruct o; auto.
    replace (t + weigh (b :: bs')) with ((if b then t + 1 else t) + weigh bs'); auto. unfold weigh. cbn [filter]. destruct b; cbn [length]; lia.
Qed.

(** ** Passes in place *)
Lemma picked_cons : forall b a bs y l, picked b (a :: bs) (y :: l) = if Bool.eqb a b then y :: picked b bs l else picked b bs l.
Proof. intros b a bs y l. unfold picked. cbn [combine filter fst]. destruct (Bool.eqb a b); auto. Qed.

Lemma put_skip : forall v r y k, (r < length v)%nat -> (r < k)%nat -> skipn k (firstn r v ++ y :: skipn (r + 1) v) = skipn k v.
Proof.
  intros v r y k L K. rewrite skipn_app, firstn_length, Nat.min_l by lia. rewrite skipn_all2 by (rewrite firstn_length; lia).
  replace (k - r)%nat with (Datatypes.S (k - r - 1)) by lia. cbn [skipn app]. rewrite skipn_skipn. f_equal. lia.
Qed.
Lemma put_first : forall v r y, (r < length v)%nat -> firstn (r + 1) (firstn r v ++ y :: skipn (r + 1) v) = firstn r v ++ [y].
Proof.
  intros v r y L. rewrite firstn_app, firstn_length, Nat.min_l by lia. rewrite firstn_firstn, Nat.min_r by lia.
  replace (r + 1 - r)%nat with 1%nat by lia. auto.
Qed.
Lemma put_len : forall v r y, (r < length v)%nat -> length (firstn r v ++ y :: skipn (r + 1) v) = length v.
Proof. intros v r y L. rewrite app_length, firstn_length. cbn [length]. rewrite skipn_length. lia. Qed.
Lemma write_ok : forall v r y s, (r < length v)%nat -> @vwrite T S X r y (v, s) = (CRet tt, (firstn r v ++ y :: skipn (r + 1) v, s)).
Proof.
  intros v r y s L. unfold vwrite. cbn [fst snd]. destruct (nth_error v r) eqn:E; auto. apply nth_error_None in E. lia.
Qed.

Lemma copy_if_ok : forall p n f r v s bs o s', (f + n = length v)%nat -> (r <= f)%nat -> asks (map p (skipn f v)) s bs o s' ->
  let k := picked true bs (skipn f v) in
  copy_if_calls p n f r (v, s) = (match o with None => CRet (r + length k)%nat | Some e => CThrow e end, (firstn r v ++ k ++ skipn (r + length k) v, s')).
Proof.
  intros p. induction n as [|n IH]; intros f r v s bs o s' L R H; cbn [copy_if_calls].
  - rewrite skipn_all2 in * by lia. inversion H; subst. cbn. rewrite Nat.add_0_r, firstn_skipn. auto.
  - destruct (nth_in _ v f n) as (y & E); [lia|]. rewrite (skipn_nth _ v f y E) in *. cbn [map] in H. apply asks_cons_inv in H.
    unfold cbind at 1. unfold vread. cbn [fst]. rewrite E. unfold cbind at 1. unfold ask. cbn [fst snd].
    destruct H as [(b & s1 & bs' & C & H & ->)|(e & C & -> & ->)]; rewrite C.
    + rewrite picked_cons. destruct b; cbn [Bool.eqb].
      * unfold cbind. rewrite write_ok by lia. set (v1 := firstn r v ++ y :: skipn (r + 1) v).
        assert (Sk : skipn (f + 1) v1 = skipn (f + 1) v) by (apply put_skip; lia).
        rewrite <- Sk in H. rewrite (IH (f + 1)%nat (r + 1)%nat v1 s1 bs' o s'); [|unfold v1; rewrite put_len; lia|lia|auto]. rewrite Sk.
        cbv zeta. cbn [length]. set (k := picked true bs' (skipn (f + 1) v)).
        unfold v1. rewrite put_first, put_skip by lia. rewrite <- app_assoc. cbn [app].
        replace (r + 1 + length k)%nat with (r + Datatypes.S (length k))%nat by lia. auto.
      * rewrite (IH (f + 1)%nat r v s1 bs' o s'); auto; lia.
    + cbn. rewrite Nat.add_0_r, firstn_skipn. auto.
Qed.
Lemma remove_ok : forall eq x n f r v s bs o s', (f + n = length v)%nat -> (r <= f)%nat -> asks (map (fun y => eq y x) (skipn f v)) s bs o s' ->
  let k := picked false bs (skipn f v) in
  remove_calls eq x n f r (v, s) = (match o with None => CRet (r + length k)%nat | Some e => CThrow e end, (firstn r v ++ k ++ skipn (r + length k) v, s')).
Proof.
  intros eq x. induction n as [|n IH]; intros f r v s bs o s' L R H; cbn [remove_calls].
  - rewrite skipn_all2 in * by lia. inversion H; subst. cbn. rewrite Nat.add_0_r, firstn_skipn. auto.
  - destruct (nth_in _ v f n) as (y & E); [lia|]. rewrite (skipn_nth _ v f y E) in *. cbn [map] in H. apply asks_cons_inv in H.
    unfold cbind at 1. unfold vread. cbn [fst]. rewrite E. unfold cbind at 1. unfold ask. cbn [fst snd].
    destruct H as [(b & s1 & bs' & C & H & ->)|(e & C & -> & ->)]; rewrite C.
    + rewrite picked_cons. destruct b; cbn [Bool.eqb].
      * rewrite (IH (f + 1)%nat r v s1 bs' o s'); auto; lia.
      * unfold cbind. rewrite write_ok by lia. set (v1 := firstn r v ++ y :: skipn (r + 1) v).
        assert (Sk : skipn (f + 1) v1 = skipn (f + 1) v) by (apply put_skip; lia).
        rewrite <- Sk in H. rewrite (IH (f + 1)%nat (r + 1)%nat v1 s1 bs' o s'); [|unfold v1; rewrite put_len; lia|lia|auto]. rewrite Sk.
        cbv zeta. cbn [length]. set (k := picked false bs' (skipn (f + 1) v)).
        unfold v1. rewrite put_first, put_skip by lia. rewrite <- app_assoc. cbn [app].
        replace (r + 1 + length k)%nat with (r + Datatypes.S (length k))%nat by lia. auto.
    + cbn. rewrite Nat.add_0_r, firstn_skipn. auto.
Qed.
Lemma picked_short : forall b bs l, (length (picked b bs l) <= length l)%nat.
Proof.
  intros b. induction bs as [|a bs IH]; intros [|y l]; try (cbn; lia). rewrite picked_cons. cbn [length]. specialize (IH l).
  destruct (Bool.eqb a b); cbn [length]; lia.
Qed.

Lemma for_each_ok : forall (action : ref_call T S X) n f v s l o s', (f + n = length v)%nat -> asks (map action (skipn f v)) s l o s' ->
  for_each_calls action n f (v, s) =
    match o with
    | None => (CRet tt, (firstn f v ++ l, s'))
    | Some (z, e) => (CThrow e, (firstn f v ++ l ++ z :: skipn (f + length l + 1) v, s'))
    end.
Proof.
  intros action. induction n as [|n IH]; intros f v s l o s' L H; cbn [for_each_calls].
  - rewrite skipn_all2 in H by lia. inversion H; subst. rewrite app_nil_r, firstn_all2 by lia. auto.
  - destruct (nth_in _ v f n) as (y & E); [lia|]. rewrite (skipn_nth _ v f y E) in *. cbn [map] in H. apply asks_cons_inv in H.
    unfold cbind at 1. unfold ask_at. cbn [fst snd]. rewrite E.
    destruct H as [(z & s1 & l' & C & H & ->)|([z e] & C & -> & ->)]; rewrite C.
    + rewrite write_ok by lia. set (v1 := firstn f v ++ z :: skipn (f + 1) v).
      assert (Sk : skipn (f + 1) v1 = skipn (f + 1) v) by (apply put_skip; lia). rewrite <- Sk in H.
      rewrite (IH (f + 1)%nat v1 s1 l' o s'); [|unfold v1; rewrite put_len; lia|auto].
      assert (Fi : firstn (f + 1) v1 = firstn f v ++ [z]) by (apply put_first; lia). rewrite Fi. cbn [length].
      destruct o as [[w e]|]; rewrite <- app_assoc; cbn [app]; auto.
      unfold v1. rewrite put_skip by lia. replace (f + 1 + length l' + 1)%nat with (f + Datatypes.S (length l') + 1)%nat by lia. auto.
    + rewrite write_ok by lia. cbn [length app]. rewrite Nat.add_0_r. auto.
Qed.

Lemma absent_ok : forall eq e b v s r s', scan true (map (fun y => eq y e) b) s r s' ->
  absent_calls eq e b (v, s) = (match r with At _ => CRet false | Nowhere => CRet true | Threw x => CThrow x end, (v, s')).
Proof.
  intros eq e. induction b as [|y b IH]; intros v s r s' H; cbn [absent_calls].
  - apply scan_nil in H. destruct H as (-> & ->). auto.
  - cbn [map] in H. apply scan_cons in H. unfold cbind, ask. cbn [fst snd].
    destruct H as [(C & ->)|[(s1 & r' & C & H & ->)|(x & C & ->)]]; rewrite C; auto.
    cbn [negb]. rewrite (IH v s1 r' s') by auto. destruct r'; auto.
Qed.
Lemma uniq_ok : forall eq n f b v s r s', (f + n = length v)%nat -> uniq eq (skipn f v) b s r s' ->
  uniq_calls eq n f b (v, s) = (match r with inl l => CRet l | inr x => CThrow x end, (v, s')).
Proof.
  intros eq. induction n as [|n IH]; intros f b v s r s' L H; cbn [uniq_calls].
  - rewrite skipn_all2 in H by lia. inversion H; subst. auto.
  - destruct (nth_in _ v f n) as (y & E); [lia|]. rewrite (skipn_nth _ v f y E) in *.
    unfold cbind at 1. unfold vread. cbn [fst]. rewrite E. unfold cbind at 1.
    inversion H as [|e l b0 s0 s1 r0 s2 H1 H2|e l b0 k s0 s1 r0 s2 H1 H2|e l b0 x s0 s1 H1]; subst; erewrite absent_ok by eauto; auto;
      apply IH; auto; lia.
Qed.
Lemma uniq_total : forall eq l b s, exists r s', uniq eq l b s r s'.
Proof.
  intros eq. induction l as [|e l IH]; intros b s; [do 2 eexists; constructor|].
  destruct (scan_total true (map (fun y => eq y e) b) s) as ([k| |x] & s1 & H).
  - destruct (IH b s1) as (r & s' & K). do 2 eexists. eapply u_seen; eauto.
  - destruct (IH (b ++ [e]) s1) as (r & s' & K). do 2 eexists. eapply u_new; eauto.
  - do 2 eexists. eapply u_threw; eauto.
Qed.

(** ** The members *)
Theorem index_calls : forall eq x start stop v s r s', len v <= INT_MAX -> 0 <= start -> INT_MIN <= stop <= INT_MAX -> start <= Z.min stop (len v) ->
  scan true (map (fun y => eq y x) (firstn (Z.to_nat (Z.min stop (len v) - start)) (skipn (Z.to_nat start) v))) s r s' ->
  list_index_calls eq x start stop (v, s) =
    (match r with At k => CRet (start + Z.of_nat k) | Nowhere => CRet (-1) | Threw e => CThrow e end, (v, s')).
Proof.
  intros eq x start stop v s r s' L A B C H. unfold list_index_calls. cbn [fst]. rewrite size_ok by auto.
  assert (E : (if len v <? stop then len v else stop) = Z.min stop (len v)) by (destruct (Z.ltb_spec (len v) stop); lia). rewrite E.
  set (m := Z.min stop (len v)) in *. assert (m <= len v) by lia.
  destruct (Z.ltb_spec start 0); [lia|]. destruct (Z.ltb_spec m start); [lia|]. destruct (Z.ltb_spec (len v) m); [lia|]. cbn [orb].
  assert (IL : (Z.to_nat start + Z.to_nat (m - start) <= length v)%nat) by (unfold len in *; lia).
  unfold cbind. rewrite (find_ok eq x _ _ v s r s' IL H). destruct r as [k| |e]; auto.
  - assert (Lk : (k < Z.to_nat (m - start))%nat).
    { inversion H as [? ? ? ? K| |]; subst. rewrite map_length, firstn_length in K. lia. }
    unfold cret. destruct (Z.eqb_spec (Z.of_nat (Z.to_nat start + k)) m); [lia|]. rewrite wrap32_id by (unfold INT_MIN, INT_MAX in *; lia).
    replace (Z.of_nat (Z.to_nat start + k)) with (start + Z.of_nat k) by lia. auto.
  - unfold cret. destruct (Z.eqb_spec (Z.of_nat (Z.to_nat start + Z.to_nat (m - start))) m); [auto|lia].
Qed.

Theorem contains_calls : forall eq x start stop v s r s', len v <= INT_MAX -> 0 <= start -> INT_MIN <= stop <= INT_MAX -> start <= Z.min stop (len v) ->
  scan true (map (fun y => eq y x) (firstn (Z.to_nat (Z.min stop (len v) - start)) (skipn (Z.to_nat start) v))) s r s' ->
  list_contains_calls eq x start stop (v, s) =
    (match r with At _ => CRet true | Nowhere => CRet false | Threw e => CThrow e end, (v, s')).
Proof.
  intros eq x start stop v s r s' L A B C H. unfold list_contains_calls, cbind. rewrite (index_calls _ _ _ _ _ _ _ _ L A B C H).
  destruct r as [k| |e]; auto. unfold cret. destruct (Z.eqb_spec (start + Z.of_nat k) (-1)); [lia|auto].
Qed.
(** [index] and [contains] with another range are undefined before any call. *)
Theorem index_calls_ub : forall eq x start stop v s, len v <= INT_MAX -> start < 0 \/ Z.min stop (len v) < start ->
  list_index_calls eq x start stop (v, s) = (CUB InvalidRange, (v, s)) /\ list_contains_calls eq x start stop (v, s) = (CUB InvalidRange, (v, s)).
Proof.
  intros eq x start stop v s L A. assert (E : list_index_calls eq x start stop (v, s) = (CUB InvalidRange, (v, s))).
  { unfold list_index_calls. cbn [fst]. rewrite size_ok by auto.
    assert (E : (if len v <? stop then len v else stop) = Z.min stop (len v)) by (destruct (Z.ltb_spec (len v) stop); lia). rewrite E.
    destruct (Z.ltb_spec start 0); auto. destruct (Z.ltb_spec (Z.min stop (len v)) start); [auto|lia]. }
  split; auto. unfold list_contains_calls, cbind. rewrite E. auto.
Qed.

Lemma cbind_size : forall A (f : nat -> CM T S X A) v s, cbind vsize f (v, s) = f (length v) (v, s).
Proof. reflexivity. Qed.
Lemma weigh_le : forall bs, 0 <= weigh bs <= Z.of_nat (length bs).
Proof.
  unfold weigh. induction bs as [|b bs IH]; cbn [filter length]; [lia|]. destruct b; cbn [length]; lia.
Qed.

Theorem count_calls_ok : forall eq x v s bs o s', len v <= INT_MAX -> asks (map (fun y => eq y x) v) s bs o s' ->
  list_count_calls eq x (v, s) = (match o with None => CRet (Z.of_nat (length (filter (fun b => b) bs))) | Some e => CThrow e end, (v, s')).
Proof.
  intros eq x v s bs o s' L H. unfold list_count_calls. rewrite cbind_size. unfold cbind. rewrite (count_ok eq x _ 0 v s 0 bs o s') by auto.
  destruct o; auto. unfold cret. rewrite wrap32_id; [auto|]. pose proof (weigh_le bs). apply asks_len in H. rewrite map_length in H. unfold len, INT_MIN in *. lia.
Qed.

Theorem subtract_calls : forall eq x v s r s', scan true (map (fun y => eq y x) v) s r s' ->
  list_subtract_calls eq x (v, s) =
    match r with
    | At k => (CRet tt, (firstn k v ++ skipn (k + 1) v, s'))
    | Nowhere => (CRet tt, (v, s'))
    | Threw e => (CThrow e, (v, s'))
    end.
Proof.
  intros eq x v s r s' H. unfold list_subtract_calls. rewrite cbind_size. unfold cbind.
  assert (E : firstn (length v) (skipn 0 v) = v) by (cbn [skipn]; apply firstn_all). rewrite <- E in H at 1.
  rewrite (find_ok eq x (length v) 0 v s r s') by auto. destruct r as [k| |e]; auto; cbn [Nat.add].
  - rewrite E in H. inversion H as [? ? ? ? K| |]; subst. rewrite map_length in K.
    destruct (Nat.eqb_spec k (length v)); [lia|]. unfold vcut. cbn [fst snd]. destruct (Nat.leb_spec k (k + 1)); [|lia].
    destruct (Nat.leb_spec (k + 1) (length v)); [auto|lia].
  - rewrite Nat.eqb_refl. auto.
Qed.

Lemma cut_end : forall (a b : list T) s, @vcut T S X (length a) (length (a ++ b)) (a ++ b, s) = (CRet tt, (a, s)).
Proof.
  intros a b s. unfold vcut. cbn [fst snd]. destruct (Nat.leb_spec (length a) (length (a ++ b))) as [_|C]; [|rewrite app_length in C; lia].
  rewrite Nat.leb_refl. cbn [andb]. rewrite firstn_app, Nat.sub_diag, firstn_all, skipn_all. cbn [firstn]. rewrite !app_nil_r. auto.
Qed.
Lemma half_len : forall b bs l, length (half_done b bs l) = length l.
Proof. intros b bs l. unfold half_done. rewrite app_length, skipn_length. pose proof (picked_short b bs l). lia. Qed.

Theorem divide_calls : forall eq x v s bs o s', asks (map (fun y => eq y x) v) s bs o s' ->
  list_divide_calls eq x (v, s) =
    match o with
    | None => (CRet tt, (picked false bs v, s'))
    | Some e => (CThrow e, (half_done false bs v, s'))
    end.
Proof.
  intros eq x v s bs o s' H. unfold list_divide_calls. rewrite cbind_size. unfold cbind.
  rewrite (remove_ok eq x _ 0 0 v s bs o s') by auto. cbn [firstn skipn app Nat.add]. fold (half_done false bs v). destruct o as [e|]; auto.
  rewrite <- (half_len false bs v). apply cut_end.
Qed.
Theorem filter_calls : forall p v s bs o s', asks (map p v) s bs o s' ->
  list_filter_calls p (v, s) =
    match o with
    | None => (CRet tt, (picked true bs v, s'))
    | Some e => (CThrow e, (half_done true bs v, s'))
    end.
Proof.
  intros p v s bs o s' H. unfold list_filter_calls. rewrite cbind_size. unfold cbind.
  rewrite (copy_if_ok p _ 0 0 v s bs o s') by auto. cbn [firstn skipn app Nat.add]. fold (half_done true bs v). destruct o as [e|]; auto.
  rewrite <- (half_len true bs v). apply cut_end.
Qed.
Theorem map_calls : forall (action : ref_call T S X) v s l o s', asks (map action v) s l o s' ->
  list_map_calls action (v, s) =
    match o with
    | None => (CRet tt, (l, s'))
    | Some (z, e) => (CThrow e, (l ++ z :: skipn (length l + 1) v, s'))
    end.
Proof.
  intros action v s l o s' H. unfold list_map_calls. rewrite cbind_size. rewrite (for_each_ok action _ 0 v s l o s') by auto. reflexivity.
Qed.
Theorem uniquify_calls : forall eq v s r s', uniq eq v [] s r s' ->
  list_uniquify_calls eq (v, s) = match r with inl l => (CRet tt, (l, s')) | inr e => (CThrow e, (v, s')) end.
Proof.
  intros eq v s r s' H. unfold list_uniquify_calls. rewrite cbind_size. unfold cbind. rewrite (uniq_ok eq _ 0 [] v s r s') by auto. destruct r; auto.
Qed.

Lemma equal_ok : forall eq w f v s r s', (f + length w = length v)%nat -> scan false (map (fun q => eq (fst q) (snd q)) (combine (skipn f v) w)) s r s' ->
  equal_calls eq w f (v, s) = (match r with At _ => CRet false | Nowhere => CRet true | Threw e => CThrow e end, (v, s')).
Proof.
  intros eq. induction w as [|z w IH]; intros f v s r s' L H; cbn [equal_calls].
  - rewrite skipn_all2 in H by (cbn in L; lia). cbn in H. apply scan_nil in H. destruct H as (-> & ->). auto.
  - cbn [length] in L. destruct (nth_in _ v f (length w)) as (y & E); [lia|]. rewrite (skipn_nth _ v f y E) in H. cbn [combine map fst snd] in H.
    apply scan_cons in H. unfold cbind at 1. unfold vread. cbn [fst]. rewrite E. unfold cbind, ask. cbn [fst snd].
    destruct H as [(C & ->)|[(s1 & r' & C & H & ->)|(e & C & ->)]]; rewrite C; auto.
    cbn [negb]. rewrite (IH (f + 1)%nat v s1 r' s') by (auto; lia). destruct r'; auto.
Qed.
Theorem equal_calls_ok : forall eq v w s r s', length v = length w -> scan false (map (fun q => eq (fst q) (snd q)) (combine v w)) s r s' ->
  list_equal_calls eq w (v, s) = (match r with At _ => CRet false | Nowhere => CRet true | Threw e => CThrow e end, (v, s')).
Proof.
  intros eq v w s r s' L H. unfold list_equal_calls. rewrite cbind_size. rewrite L, Nat.eqb_refl. apply equal_ok; auto.
Qed.
Theorem equal_calls_sizes : forall eq v w s, length v <> length w -> list_equal_calls eq w (v, s) = (CRet false, (v, s)).
Proof. intros eq v w s L. unfold list_equal_calls. rewrite cbind_size. destruct (Nat.eqb_spec (length v) (length w)); [contradiction|auto]. Qed.

(** ** What an exception leaves *)
Lemma index_range : forall start stop v, 0 <= start <= Z.min stop (len v) \/ (start < 0 \/ Z.min stop (len v) < start).
Proof. intros. lia. Qed.

Theorem readers_keep : forall eq x start stop w v s, len v <= INT_MAX -> INT_MIN <= stop <= INT_MAX ->
  fst (snd (list_index_calls eq x start stop (v, s))) = v /\ fst (snd (list_contains_calls eq x start stop (v, s))) = v /\
  fst (snd (list_count_calls eq x (v, s))) = v /\ fst (snd (list_equal_calls eq w (v, s))) = v.
Proof.
  intros eq x start stop w v s L B. split; [|split; [|split]].
  - destruct (index_range start stop v) as [A|A]; [|destruct (index_calls_ub eq x start stop v s L A) as (-> & _); auto].
    destruct (scan_total true (map (fun y => eq y x) (firstn (Z.to_nat (Z.min stop (len v) - start)) (skipn (Z.to_nat start) v))) s) as (r & s' & H).
    rewrite (index_calls eq x start stop v s r s') by (auto; lia). auto.
  - destruct (index_range start stop v) as [A|A]; [|destruct (index_calls_ub eq x start stop v s L A) as (_ & ->); auto].
    destruct (scan_total true (map (fun y => eq y x) (firstn (Z.to_nat (Z.min stop (len v) - start)) (skipn (Z.to_nat start) v))) s) as (r & s' & H).
    rewrite (contains_calls eq x start stop v s r s') by (auto; lia). auto.
  - destruct (asks_total (map (fun y => eq y x) v) s) as (bs & o & s' & H). rewrite (count_calls_ok eq x v s bs o s') by auto. auto.
  - destruct (Nat.eq_dec (length v) (length w)) as [E|E]; [|rewrite equal_calls_sizes; auto].
    destruct (scan_total false (map (fun q => eq (fst q) (snd q)) (combine v w)) s) as (r & s' & H). rewrite (equal_calls_ok eq v w s r s'); auto.
Qed.
Theorem strong_guarantee : forall eq x v s e vs,
  (list_subtract_calls eq x (v, s) = (CThrow e, vs) -> fst vs = v) /\ (list_uniquify_calls eq (v, s) = (CThrow e, vs) -> fst vs = v).
Proof.
  intros eq x v s e vs. split; intros R.
  - destruct (scan_total true (map (fun y => eq y x) v) s) as (r & s' & H). rewrite (subtract_calls eq x v s r s' H) in R.
    destruct r; inversion R; auto.
  - destruct (uniq_total eq v [] s) as (r & s' & H). rewrite (uniquify_calls eq v s r s' H) in R. destruct r; inversion R; auto.
Qed.
(** What the passes in place keep: the length. *)
Theorem basic_guarantee : forall eq x p (action : ref_call T S X) v s e vs,
  (list_divide_calls eq x (v, s) = (CThrow e, vs) -> length (fst vs) = length v /\ incl (fst vs) v) /\
  (list_filter_calls p (v, s) = (CThrow e, vs) -> length (fst vs) = length v /\ incl (fst vs) v) /\
  (list_map_calls action (v, s) = (CThrow e, vs) -> length (fst vs) = length v).
Proof.
  assert (PI : forall b bs l, incl (picked b bs l) l).
  { intros b. induction bs as [|a bs IH]; intros [|y l]; try (intros z []). rewrite picked_cons. intros z I.
    destruct (Bool.eqb a b); [destruct I as [->|I]; [left; auto|]|]; right; apply (IH l); auto. }
  assert (HI : forall b bs l, incl (half_done b bs l) l).
  { intros b bs l z I. unfold half_done in I. apply in_app_or in I. destruct I as [I|I]; [apply (PI b bs l); auto|].
    rewrite <- (firstn_skipn (length (picked b bs l)) l). apply in_or_app. auto. }
  intros eq x p action v s e vs. split; [|split]; intros R.
  - destruct (asks_total (map (fun y => eq y x) v) s) as (bs & o & s' & H). rewrite (divide_calls eq x v s bs o s' H) in R.
    destruct o; inversion R; subst. cbn [fst]. split; [apply half_len|apply HI].
  - destruct (asks_total (map p v) s) as (bs & o & s' & H). rewrite (filter_calls p v s bs o s' H) in R.
    destruct o; inversion R; subst. cbn [fst]. split; [apply half_len|apply HI].
  - destruct (asks_total (map action v) s) as (l & o & s' & H). rewrite (map_calls action v s l o s' H) in R.
    pose proof (asks_len _ _ _ _ _ H) as L. rewrite map_length in L.
    destruct o as [[z f]|]; inversion R; subst. cbn [fst]. rewrite app_length. cbn [length]. rewrite skipn_length. lia.
Qed.
End Calls.

(** ** Comparisons that cannot fail *)
Section Pure.
Context {T S X : Type} (eqb : T -> T -> bool).
Implicit Types (v l : list T) (s : S).
Notation pure := (@pure T S X eqb).

Lemma asks_pure : forall A (g : T -> A) l s, asks (map (fun y (t : S) => (@inl A X (g y), t)) l) s (map g l) None s.
Proof. intros A g. induction l as [|y l IH]; intros s; cbn [map]; [constructor|]. econstructor; [reflexivity|]. apply IH. Qed.
Lemma picked_map : forall b (g : T -> bool) l, picked b (map g l) l = filter (fun y => Bool.eqb (g y) b) l.
Proof. intros b g. induction l as [|y l IH]; cbn [map filter]; [reflexivity|]. rewrite picked_cons, IH. auto. Qed.
Lemma filter_ext_all : forall (f g : T -> bool) l, (forall y, f y = g y) -> filter f l = filter g l.
Proof. intros f g l E. apply filter_ext. auto. Qed.

Lemma scan_pure : forall x l s, scan true (map (fun y => pure y x) l) s (if Nat.eqb (std_find eqb l x) (length l) then Nowhere else At (std_find eqb l x)) s.
Proof.
  intros x. induction l as [|y l IH]; intros s; cbn [map std_find length].
  - apply sc_nowhere. constructor.
  - destruct (eqb y x) eqn:E.
    + cbn [Nat.eqb]. apply sc_at; [cbn; lia|]. cbn. econstructor; [unfold ListCallSpec.pure; rewrite E; reflexivity|constructor].
    + cbn [Nat.eqb]. specialize (IH s). destruct (Nat.eqb (std_find eqb l x) (length l)).
      * apply sc_nowhere. cbn [length repeat]. econstructor; [unfold ListCallSpec.pure; rewrite E; reflexivity|]. inversion IH; auto.
      * inversion IH; subst. apply sc_at; [cbn; lia|]. cbn. econstructor; [unfold ListCallSpec.pure; rewrite E; reflexivity|]. auto.
Qed.
Lemma uniq_pure : forall l b s, uniq pure l b s (inl (uniq_loop eqb l b)) s.
Proof.
  induction l as [|e l IH]; intros b s; cbn [uniq_loop]; [constructor|]. pose proof (scan_pure e b s) as H.
  destruct (Nat.eqb (std_find eqb b e) (length b)); [eapply u_new|eapply u_seen]; eauto.
Qed.

(** With such comparisons the members are those of ListModel.v. *)
Lemma find_pure : forall x n f v s, (f + n <= length v)%nat ->
  find_calls pure x n f (v, s) = (CRet (f + std_find eqb (firstn n (skipn f v)) x)%nat, (v, s)).
Proof.
  intros x n f v s L. rewrite (find_ok pure x n f v s _ s L (scan_pure x _ s)).
  destruct (Nat.eqb_spec (std_find eqb (firstn n (skipn f v)) x) (length (firstn n (skipn f v)))) as [E|E]; auto.
  rewrite E, firstn_length, skipn_length, Nat.min_l by lia. auto.
Qed.
Theorem pure_index : forall x start stop v s,
  agrees (fst (list_index_calls pure x start stop (v, s))) (list_index eqb v x start stop) /\ snd (list_index_calls pure x start stop (v, s)) = (v, s) /\
  agrees (fst (list_contains_calls pure x start stop (v, s))) (list_contains eqb v x start stop) /\ snd (list_contains_calls pure x start stop (v, s)) = (v, s).
Proof.
  intros x start stop v s.
  assert (E : list_index_calls pure x start stop (v, s) = (match list_index eqb v x start stop with Ok i => CRet i | _ => CUB InvalidRange end, (v, s)) /\
    forall o, list_index eqb v x start stop = o -> match o with Ok _ => True | UB InvalidRange => True | _ => False end).
  { unfold list_index_calls, list_index. cbn [fst]. set (m := if size v <? stop then size v else stop).
    destruct (Z.ltb_spec start 0); cbn [orb]; [split; auto; intros o <-; exact Logic.I|].
    destruct (Z.ltb_spec m start); cbn [orb]; [split; auto; intros o <-; exact Logic.I|].
    destruct (Z.ltb_spec (len v) m); cbn [orb]; [split; auto; intros o <-; exact Logic.I|]. split; [|intros o <-; exact Logic.I].
    unfold cbind. rewrite find_pure by (unfold len in *; lia). unfold cret.
    rewrite Nat2Z.inj_add, Z2Nat.id by lia. auto. }
  destruct E as (E & K). unfold list_contains_calls, list_contains, cbind. rewrite E. specialize (K _ eq_refl).
  destruct (list_index eqb v x start stop) as [i|?|[]|]; try contradiction; cbn [fst snd agrees bind cret]; auto.
Qed.
Theorem pure_count : forall x v s, list_count_calls pure x (v, s) = (CRet (list_count eqb v x), (v, s)).
Proof.
  intros x v s. unfold list_count_calls. rewrite cbind_size. unfold cbind.
  rewrite (count_ok pure x _ 0 v s 0 (map (fun y => eqb y x) v) None s); [|reflexivity|apply (asks_pure bool (fun y => eqb y x))].
  unfold cret, list_count. replace (0 + weigh (map (fun y => eqb y x) v)) with (std_count eqb v x); auto.
  unfold weigh. induction v as [|y v IH]; cbn [map filter std_count length]; auto. destruct (eqb y x); cbn [length]; lia.
Qed.
Theorem pure_subtract : forall x v s, list_subtract_calls pure x (v, s) = (CRet tt, (snd (list_subtract eqb x v), s)) /\ fst (list_subtract eqb x v) = Ok tt.
Proof.
  intros x v s. rewrite (subtract_calls pure x v s _ s (scan_pure x v s)).
  destruct (subtract_spec T eqb v x) as (A & B).
  destruct (find_first T eqb v x) as (F1 & F2 & F3). destruct (Nat.eqb_spec (std_find eqb v x) (length v)) as [E|E].
  - rewrite A; auto. intros y I. apply In_nth_error in I. destruct I as (k & I). apply (F2 k y); auto. rewrite E. apply nth_error_Some. congruence.
  - destruct F3 as (y & N & Ey); [lia|]. set (k := std_find eqb v x) in *.
    assert (Ev : v = firstn k v ++ y :: skipn (k + 1) v) by (rewrite <- (skipn_nth _ v k y N), firstn_skipn; auto).
    rewrite (B (firstn k v) y (skipn (k + 1) v)); auto. intros z I. apply In_nth_error in I. destruct I as (j & I).
    assert (j < k)%nat by (assert (J : (j < length (firstn k v))%nat) by (apply nth_error_Some; congruence); rewrite firstn_length in J; lia).
    apply (F2 j z); auto. rewrite Ev. rewrite nth_error_app1; [auto|]. apply nth_error_Some. congruence.
Qed.
Theorem pure_divide : forall x v s, list_divide_calls pure x (v, s) = (CRet tt, (snd (list_divide eqb (Val x) v), s)) /\ fst (list_divide eqb (Val x) v) = Ok tt.
Proof.
  intros x v s. rewrite (divide_calls pure x v s (map (fun y => eqb y x) v) None s) by apply (asks_pure bool (fun y => eqb y x)).
  rewrite divide_spec, picked_map. cbn [fst snd]. split; [|reflexivity]. rewrite (filter_ext_all (fun y => Bool.eqb (eqb y x) false) (fun y => negb (eqb y x))); auto.
Qed.
Theorem pure_uniquify : forall v s, list_uniquify_calls pure (v, s) = (CRet tt, (snd (list_uniquify eqb v), s)) /\ fst (list_uniquify eqb v) = Ok tt.
Proof. intros v s. rewrite (uniquify_calls pure v s _ s (uniq_pure v [] s)). auto. Qed.
Theorem pure_filter : forall (p : T -> bool) v s, list_filter_calls (fun y (t : S) => (@inl bool X (p y), t)) (v, s) = (CRet tt, (snd (list_filter false p v), s)) /\
  fst (list_filter false p v) = Ok tt.
Proof.
  intros p v s. rewrite (filter_calls _ v s (map p v) None s) by apply (asks_pure bool p).
  rewrite filter_spec, picked_map. cbn [fst snd]. split; [|reflexivity]. rewrite (filter_ext_all (fun y => Bool.eqb (p y) true) p); auto.
  intros y. destruct (p y); auto.
Qed.
Theorem pure_map : forall (f : S -> T -> S * T) v s s' v', list_map f s v = (Ok s', v') ->
  list_map_calls (fun y t => (@inl T (T * X) (snd (f t y)), fst (f t y))) (v, s) = (CRet tt, (v', s')).
Proof.
  intros f v s s' v' R. unfold list_map in R. destruct (for_each f s v) as [s1 v1] eqn:E. inversion R; subst. clear R.
  assert (H : asks (map (fun y t => (@inl T (T * X) (snd (f t y)), fst (f t y))) v) s v' None s').
  { revert s v' s' E. induction v as [|y v IH]; intros s v' s' E; cbn [for_each map] in *; [inversion E; constructor|].
    destruct (f s y) as [t1 z] eqn:F. destruct (for_each f t1 v) as [t2 w] eqn:G. inversion E; subst. econstructor; [rewrite F; reflexivity|]. apply IH. auto. }
  rewrite (map_calls _ v s v' None s' H). auto.
Qed.
Theorem pure_equal : forall v w s, list_equal_calls pure w (v, s) = (CRet (list_eqb eqb v w), (v, s)).
Proof.
  intros v w s. unfold list_equal_calls. rewrite cbind_size. unfold list_eqb.
  destruct (Nat.eqb_spec (length v) (length w)) as [L|L]; cbn [andb]; [|auto].
  change (all2 eqb v w) with (all2 eqb (skipn 0 v) w). assert (B : (0 + length w = length v)%nat) by lia. clear L. revert B. generalize 0%nat as f.
  induction w as [|z w IH]; intros f B; cbn [equal_calls].
  - rewrite skipn_all2 by (cbn in B; lia). auto.
  - cbn [length] in B. destruct (nth_in _ v f (length w)) as (y & E); [lia|]. rewrite (skipn_nth _ v f y E). cbn [all2].
    unfold cbind at 1. unfold vread. cbn [fst]. rewrite E. unfold cbind, ask. cbn [fst snd]. unfold ListCallSpec.pure at 1.
    destruct (eqb y z); cbn [andb]; [|auto]. apply IH. lia.
Qed.
End Pure.

(** ** How many comparisons *)
Section Logged.
Context {T X : Type} (eqb : T -> T -> bool).
Implicit Types (v l : list T) (log : list (T * T)).
Notation logged := (@logged T X eqb).

Lemma asks_logged : forall x l log, asks (map (fun y => logged y x) l) log (map (fun y => eqb y x) l) None (log ++ map (fun y => (y, x)) l).
Proof.
  intros x. induction l as [|y l IH]; intros log; cbn [map]; [rewrite app_nil_r; constructor|]. econstructor; [reflexivity|].
  replace (log ++ (y, x) :: map (fun y0 => (y0, x)) l) with ((log ++ [(y, x)]) ++ map (fun y0 => (y0, x)) l) by (rewrite <- app_assoc; auto). apply IH.
Qed.
Lemma asks_logged_bs : forall x l log bs, map (fun y => eqb y x) l = bs -> asks (map (fun y => logged y x) l) log bs None (log ++ map (fun y => (y, x)) l).
Proof. intros x l log bs <-. apply asks_logged. Qed.
Lemma none_repeat : forall x a, (forall z, In z a -> eqb z x = false) -> map (fun y => eqb y x) a = repeat false (length a).
Proof. intros x. induction a as [|y a IH]; intros H; cbn [map length repeat]; auto. rewrite H by (left; auto). rewrite IH; auto. intros z I. apply H. right. auto. Qed.
Lemma scan_logged_no : forall x l log, (forall z, In z l -> eqb z x = false) ->
  scan true (map (fun y => logged y x) l) log Nowhere (log ++ map (fun y => (y, x)) l).
Proof. intros x l log H. apply sc_nowhere. rewrite map_length. cbn [negb]. apply asks_logged_bs. apply none_repeat. auto. Qed.
Lemma scan_logged_at : forall x a y b log, (forall z, In z a -> eqb z x = false) -> eqb y x = true ->
  scan true (map (fun y => logged y x) (a ++ y :: b)) log (At (length a)) (log ++ map (fun y => (y, x)) (a ++ [y])).
Proof.
  intros x a y b log H E. apply sc_at; [rewrite map_length, app_length; cbn; lia|].
  rewrite firstn_map. replace (firstn (length a + 1) (a ++ y :: b)) with (a ++ [y]).
  - apply asks_logged_bs. rewrite map_app, none_repeat by auto. cbn [map negb]. rewrite E. auto.
  - rewrite firstn_app. replace (length a + 1 - length a)%nat with 1%nat by lia. rewrite firstn_all2 by lia. auto.
Qed.

Theorem logged_count : forall x v log, len v <= INT_MAX -> exists n, list_count_calls logged x (v, log) = (CRet n, (v, log ++ map (fun y => (y, x)) v)).
Proof. intros x v log L. eexists. rewrite (count_calls_ok logged x v log _ None _ L (asks_logged x v log)). reflexivity. Qed.
Theorem logged_divide : forall x v log, exists v', list_divide_calls logged x (v, log) = (CRet tt, (v', log ++ map (fun y => (y, x)) v)).
Proof. intros x v log. eexists. rewrite (divide_calls logged x v log _ None _ (asks_logged x v log)). reflexivity. Qed.
Theorem logged_subtract_no : forall x v log, (forall z, In z v -> eqb z x = false) ->
  list_subtract_calls logged x (v, log) = (CRet tt, (v, log ++ map (fun y => (y, x)) v)).
Proof. intros x v log H. rewrite (subtract_calls logged x v log _ _ (scan_logged_no x v log H)). reflexivity. Qed.
Theorem logged_subtract_at : forall x a y b log, (forall z, In z a -> eqb z x = false) -> eqb y x = true ->
  list_subtract_calls logged x (a ++ y :: b, log) = (CRet tt, (a ++ b, log ++ map (fun y => (y, x)) (a ++ [y]))).
Proof.
  intros x a y b log H E. rewrite (subtract_calls logged x _ log _ _ (scan_logged_at x a y b log H E)).
  rewrite firstn_app, Nat.sub_diag, firstn_all, skipn_app. cbn [firstn]. rewrite app_nil_r.
  rewrite skipn_all2 by lia. replace (length a + 1 - length a)%nat with 1%nat by lia. reflexivity.
Qed.

(** One search in the buffer. *)
Lemma scan_logged : forall x l log, exists r k, scan true (map (fun y => logged y x) l) log r (log ++ map (fun y => (y, x)) (firstn k l)) /\ (k <= length l)%nat /\
  ((r = Nowhere /\ k = length l /\ forall z, In z l -> eqb z x = false) \/ (exists j, r = At j /\ (1 <= k)%nat /\ exists z, In z l /\ eqb z x = true)).
Proof.
  intros x l log. destruct (find_first T eqb l x) as (F1 & F2 & F3). set (f := std_find eqb l x) in *. destruct (Nat.eq_dec f (length l)) as [E|E].
  - exists Nowhere, (length l). rewrite firstn_all. assert (N : forall z, In z l -> eqb z x = false).
    { intros z I. apply In_nth_error in I. destruct I as (k & I). apply (F2 k z); auto. rewrite E. apply nth_error_Some. congruence. }
    split; [apply scan_logged_no; auto|]. split; auto.
  - destruct F3 as (y & N & Ey); [lia|]. exists (At f), (f + 1)%nat.
    assert (El : l = firstn f l ++ y :: skipn (f + 1) l) by (rewrite <- (skipn_nth _ l f y N), firstn_skipn; auto).
    assert (Lf : length (firstn f l) = f) by (rewrite firstn_length; lia).
    split; [|split; [lia|right; exists f; split; auto; split; [lia|exists y; split; auto; eapply nth_error_In; eauto]]].
    pose proof (scan_logged_at x (firstn f l) y (skipn (f + 1) l) log) as H. rewrite <- El, Lf in H.
    replace (firstn (f + 1) l) with (firstn f l ++ [y]).
    + apply H; auto. intros z I. apply In_nth_error in I. destruct I as (j & I).
      assert (J : (j < length (firstn f l))%nat) by (apply nth_error_Some; congruence). apply (F2 j z); [lia|].
      rewrite El. rewrite nth_error_app1 by auto. auto.
    + transitivity (firstn (f + 1) (firstn f l ++ y :: skipn (f + 1) l)); [|rewrite <- El; auto]. rewrite firstn_app, Lf. replace (f + 1 - f)%nat with 1%nat by lia. rewrite firstn_firstn, Nat.min_r by lia. auto.
Qed.

Lemma uniq_logged : forall l b log, exists b' more, uniq logged l b log (inl b') (log ++ more) /\
  (2 * length more <= 2 * (length l * length b) + length l * (length l - 1))%nat /\ (b <> [] -> (length l <= length more)%nat) /\
  (decides eqb -> NoDup (b ++ l) -> (2 * length more = 2 * (length l * length b) + length l * (length l - 1))%nat).
Proof.
  induction l as [|e l IH]; intros b log.
  - exists b, []. rewrite app_nil_r. split; [constructor|]. cbn. split; [lia|]. split; auto.
  - destruct (scan_logged e b log) as (r & k & H & Lk & C).
    set (first := map (fun y => (y, e)) (firstn k b)) in *. assert (Lf : length first = k) by (unfold first; rewrite map_length, firstn_length; lia).
    destruct C as [(-> & -> & N)|(j & -> & Pk & (z & I & Ez))].
    + destruct (IH (b ++ [e]) (log ++ first)) as (b' & more & U & B1 & B2 & B3). exists b', (first ++ more).
      rewrite app_assoc. split; [eapply u_new; eauto|]. rewrite !app_length in *. cbn [length] in *.
      assert (Q : (2 * (length l * (length b + 1)) + length l * (length l - 1) + 2 * length b = 2 * (Datatypes.S (length l) * length b) + Datatypes.S (length l) * (Datatypes.S (length l) - 1))%nat).
      { destruct (length l); [lia|]. cbn [Nat.sub]. nia. }
      split; [lia|]. split.
      * intros Nb. destruct b as [|b0 bs]; [congruence|]. cbn [length] in *. specialize (B2 ltac:(destruct bs; discriminate)). lia.
      * intros D ND. specialize (B3 D). rewrite <- app_assoc in B3. cbn [app] in B3. specialize (B3 ND). lia.
    + destruct (IH b (log ++ first)) as (b' & more & U & B1 & B2 & B3). exists b', (first ++ more).
      rewrite app_assoc. split; [eapply u_seen; eauto|]. rewrite !app_length in *. cbn [length] in *.
      assert (Nb : b <> []) by (intros ->; contradiction).
      assert (Q : (2 * (length l * length b) + length l * (length l - 1) + 2 * length b <= 2 * (Datatypes.S (length l) * length b) + Datatypes.S (length l) * (Datatypes.S (length l) - 1))%nat).
      { destruct (length l); [lia|]. cbn [Nat.sub]. nia. }
      split; [lia|]. split; [intros _; specialize (B2 Nb); lia|].
      intros D ND. exfalso. apply D in Ez. subst z. apply (NoDup_remove_2 _ _ _ ND). apply in_or_app. auto.
Qed.

Theorem logged_uniquify : forall v log, exists v' more, list_uniquify_calls logged (v, log) = (CRet tt, (v', log ++ more)) /\
  (length v - 1 <= length more)%nat /\ (2 * length more <= length v * (length v - 1))%nat /\
  (decides eqb -> NoDup v -> (2 * length more = length v * (length v - 1))%nat).
Proof.
  intros v log. destruct (uniq_logged v [] log) as (b & more & U & B1 & _ & B3). exists b, more.
  rewrite (uniquify_calls logged v log _ _ U). split; auto. cbn [length app] in *. rewrite Nat.mul_0_r in *.
  split; [|split; [lia|intros D N; rewrite (B3 D N); lia]].
  destruct v as [|e v]; [cbn; lia|].
  destruct (uniq_logged v [e] log) as (b' & more' & U' & _ & B2' & _). specialize (B2' ltac:(discriminate)).
  assert (U2 : uniq logged (e :: v) [] log (inl b') (log ++ more')).
  { eapply u_new; [apply sc_nowhere; constructor|exact U']. }
  pose proof (uniquify_calls logged _ _ _ _ U) as R1. pose proof (uniquify_calls logged _ _ _ _ U2) as R2. rewrite R1 in R2. inversion R2 as [[E1 E2]].
  apply app_inv_head in E2. subst more'. cbn [length]. lia.
Qed.
(** Equal elements only: one comparison for each but the first. *)
Theorem logged_uniquify_same : forall e n log, eqb e e = true ->
  list_uniquify_calls logged (repeat e (Datatypes.S n), log) = (CRet tt, ([e], log ++ repeat (e, e) n)).
Proof.
  intros e n log E. assert (U : forall m log, uniq logged (repeat e m) [e] log (inl [e]) (log ++ repeat (e, e) m)).
  { induction m as [|m IH]; intros lg; cbn [repeat]; [rewrite app_nil_r; constructor|].
    eapply u_seen; [apply (scan_logged_at e [] e [] lg); [intros z []|auto]|]. cbn [app map].
    replace (lg ++ (e, e) :: repeat (e, e) m) with ((lg ++ [(e, e)]) ++ repeat (e, e) m) by (rewrite <- app_assoc; auto). apply IH. }
  rewrite (uniquify_calls logged _ log (inl [e]) (log ++ repeat (e, e) n)); auto. cbn [repeat].
  eapply u_new; [apply sc_nowhere; constructor|]. apply U.
Qed.
End Logged.

(** ** In the form of the properties *)
Theorem asks_unique : forall (S Y A : Type) (cs : list (S -> (A + Y) * S)) s, exists l o s', asks cs s l o s' /\
  forall l2 o2 s2, asks cs s l2 o2 s2 -> l = l2 /\ o = o2 /\ s' = s2.
Proof. intros S Y A cs s. destruct (asks_total cs s) as (l & o & s' & H). exists l, o, s'. split; auto. intros. eapply asks_det; eauto. Qed.
Theorem scan_unique : forall (S X : Type) (stop : bool) (cs : list (call S X bool)) s, exists r s', scan stop cs s r s' /\
  forall r2 s2, scan stop cs s r2 s2 -> r = r2 /\ s' = s2.
Proof. intros S X stop cs s. destruct (scan_total stop cs s) as (r & s' & H). exists r, s'. split; auto. intros. eapply scan_det; eauto. Qed.
Theorem pure_all : forall (T S X : Type) (eqb : T -> T -> bool) x v w (s : S),
  list_count_calls (pure (X := X) eqb) x (v, s) = (CRet (list_count eqb v x), (v, s)) /\
  list_equal_calls (pure (X := X) eqb) w (v, s) = (CRet (list_eqb eqb v w), (v, s)) /\
  list_subtract_calls (pure (X := X) eqb) x (v, s) = (CRet tt, (snd (list_subtract eqb x v), s)) /\
  list_divide_calls (pure (X := X) eqb) x (v, s) = (CRet tt, (snd (list_divide eqb (Val x) v), s)) /\
  list_uniquify_calls (pure (X := X) eqb) (v, s) = (CRet tt, (snd (list_uniquify eqb v), s)).
Proof.
  intros. split; [apply pure_count|]. split; [apply pure_equal|]. split; [apply pure_subtract|]. split; [apply pure_divide|apply pure_uniquify].
Qed.
Theorem logged_all : forall (T X : Type) (eqb : T -> T -> bool) x v log, Z.of_nat (length v) <= INT_MAX ->
  (exists n, list_count_calls (logged (X := X) eqb) x (v, log) = (CRet n, (v, log ++ map (fun y => (y, x)) v))) /\
  (exists v', list_divide_calls (logged (X := X) eqb) x (v, log) = (CRet tt, (v', log ++ map (fun y => (y, x)) v))).
Proof. intros. split; [apply logged_count; auto|apply logged_divide]. Qed.
Theorem logged_uniquify_same1 : forall (T X : Type) (eqb : T -> T -> bool) e n log, eqb e e = true ->
  list_uniquify_calls (logged (X := X) eqb) (repeat e (n + 1), log) = (CRet tt, ([e], log ++ repeat (e, e) n)).
Proof. intros. rewrite Nat.add_1_r. apply logged_uniquify_same. auto. Qed.
Theorem filter_witness : exists (p : Z -> call unit unit bool) v w, list_filter_calls p (v, tt) = (CThrow tt, (w, tt)) /\ w <> v.
Proof.
  exists (fun y _ => if y =? 3 then (inr tt, tt) else (inl (y =? 2), tt)), [1; 2; 3], [2; 2; 3]. split; [reflexivity|discriminate].
Qed.
Theorem map_witness : exists (f : ref_call Z unit unit) v w, list_map_calls f (v, tt) = (CThrow tt, (w, tt)) /\ w <> v.
Proof.
  exists (fun y _ => if y =? 3 then (inr (y, tt), tt) else (inl (y + 1), tt)), [1; 3], [2; 3]. split; [reflexivity|discriminate].
Qed.
Theorem divide_witness : exists (eq : Z -> Z -> call unit unit bool) x v w, list_divide_calls eq x (v, tt) = (CThrow tt, (w, tt)) /\ w <> v.
Proof.
  exists (fun y x _ => if y =? 3 then (inr tt, tt) else (inl (y =? x), tt)), 1, [1; 2; 3], [2; 2; 3]. split; [reflexivity|discriminate].
Qed.
